(** Properties C127-C129: malformed states, updates, batches and files. *)
From Coq Require Import Ascii.
From Verif Require Import Prelude Dict Val Arith LatticeModel StructModel StateModel ResultModel RunnerModel SetupModel AnalyzerModel JsonModel SpecAnalyze SpecMalformed SpecLoad Malformed MalformedMerge MalformedCurr MalformedBatch MalformedLoad.
Local Open Scope Z_scope.

(** C127. If every stored id names a site, the named sites are searched. *)
Theorem C127_named : forall F st cls pairs ids, Forall2 stored_id (map snd (s_sites st)) ids -> (forall k, In k ids -> In k (site_ids st)) ->
  exists has, (forall k, has k = true <-> site_has st pairs k) /\
    get_sites_where_equal (F := F) None st pairs cls = Ok (map key_val (filter has ids)) /\
    get_site_count_where_equal (F := F) None st pairs cls = Ok (Z.of_nat (length (filter has ids))).
Proof. exact C127_named_lemma. Qed.
Print Assumptions C127_named.
Example C127_named_example : let st := mkS [(KInt 1, [(SITE_ID, VInt 2); (KStr "x", VInt 7)]); (KInt 2, [(SITE_ID, VInt 1)])] [] in
  Forall2 stored_id (map snd (s_sites st)) [KInt 2; KInt 1] /\ (forall k, In k [KInt 2; KInt 1] -> In k (site_ids st)) /\
  get_sites_where_equal (F := Z) None st [(KStr "x", VInt 7)] None = Ok [VInt 1].
Proof. cbn. split; [repeat constructor|]. split; [intros k H; intuition auto|reflexivity]. Qed.

(** C127. Otherwise the first dictionary that fails decides. *)
Theorem C127_equal : forall F st cls pairs pre k d post e, s_sites st = pre ++ (k, d) :: post ->
  (forall k' d', In (k', d') pre -> exists id, stored_id d' id /\ In id (site_ids st)) -> runs_into st pairs d e ->
  get_sites_where_equal (F := F) None st pairs cls = Err e /\ get_site_count_where_equal (F := F) None st pairs cls = Err e.
Proof. exact C127_equal_lemma. Qed.
Print Assumptions C127_equal.
Example C127_equal_example : let st i := mkS [(KInt 1, [(SITE_ID, VInt 1)]); (KInt 2, i)] [] in
  stored_id [(SITE_ID, VInt 1)] (KInt 1) /\ runs_into (st []) [(KStr "x", VInt 7)] [] KeyError /\
  runs_into (st [(SITE_ID, VList [])]) [(KStr "x", VInt 7)] [(SITE_ID, VList [])] TypeError /\
  runs_into (st [(SITE_ID, VInt 3)]) [(KStr "x", VInt 7)] [(SITE_ID, VInt 3)] AttributeError /\
  get_sites_where_equal (F := Z) None (st [(SITE_ID, VInt 3)]) [(KStr "x", VInt 7)] None = Err AttributeError /\
  get_sites_where_equal (F := Z) None (st [(SITE_ID, VInt 3)]) [] None = Ok [VInt 1; VInt 3].
Proof.
  cbn. split; [reflexivity|]. split; [reflexivity|]. split; [reflexivity|]. split; [|split; reflexivity].
  unfold runs_into. cbn. split; [reflexivity|]. split; [discriminate|]. right. exists (KInt 3). split; [reflexivity|]. intuition discriminate.
Qed.

(** C127. Listing and counting the phases. *)
Theorem C127_phases : forall ord st,
  (forall k d, In (k, d) (s_sites st) -> dget (KStr "DISCRETE_OCCUPANCY") d = None ->
     phases_present ord st = Err KeyError /\ phase_count ord st = Err KeyError) /\
  (forall vs, Forall2 (fun d v => dget (KStr "DISCRETE_OCCUPANCY") d = Some v) (map snd (s_sites st)) vs ->
     ((exists v, In v vs /\ hashable v = false) -> phases_present ord st = Err TypeError /\ phase_count ord st = Err TypeError) /\
     ((forall v, In v vs -> hashable v = true) -> exists ps, phases_present ord st = Ok ps)).
Proof. exact C127_phases_lemma. Qed.
Print Assumptions C127_phases.
Example C127_phases_example : let st v := mkS [(KInt 1, [(KStr "DISCRETE_OCCUPANCY", VStr "a")]); (KInt 2, v)] [] in
  phases_present (fun l => l) (st []) = Err KeyError /\ phases_present (fun l => l) (st [(KStr "DISCRETE_OCCUPANCY", VList [])]) = Err TypeError /\
  phases_present (fun l => l) (st [(KStr "DISCRETE_OCCUPANCY", VNone)]) = Ok [VStr "a"; VNone] /\
  Forall2 (fun d v => dget (KStr "DISCRETE_OCCUPANCY") d = Some v) (map snd (s_sites (st [(KStr "DISCRETE_OCCUPANCY", VList [])]))) [VStr "a"; VList []].
Proof. cbn. split; [reflexivity|]. split; [reflexivity|]. split; [reflexivity|]. repeat constructor. Qed.

(** C128. What merging a malformed update raises. *)
Theorem C128_merge : forall curr id,
  (forall v, no_entries v -> v <> VNone -> merge_updates v curr id = Err TypeError) /\
  (forall nu c, curr = VDict c -> (exists v, dget (KStr "SITES") nu = Some v) \/ (exists v, dget (KStr "GENERAL") nu = Some v) ->
     (forall v d, dget (KStr "SITES") nu = Some v -> no_entries v -> dget (KStr "SITES") c = Some (VDict d) -> merge_updates (VDict nu) curr id = Err TypeError) /\
     (dget (KStr "SITES") nu = None \/ (exists d, dget (KStr "SITES") nu = Some (VDict d)) ->
        (dget (KStr "SITES") c = None -> merge_updates (VDict nu) curr id = Err KeyError) /\
        (forall v, dget (KStr "SITES") c = Some v -> (forall d, v <> VDict d) -> merge_updates (VDict nu) curr id = Err AttributeError) /\
        (forall d, dget (KStr "SITES") c = Some (VDict d) ->
           (forall v g, dget (KStr "GENERAL") nu = Some v -> no_entries v -> dget (KStr "GENERAL") c = Some (VDict g) -> merge_updates (VDict nu) curr id = Err TypeError) /\
           (dget (KStr "GENERAL") nu = None \/ (exists d, dget (KStr "GENERAL") nu = Some (VDict d)) ->
              (dget (KStr "GENERAL") c = None -> merge_updates (VDict nu) curr id = Err KeyError) /\
              (forall v, dget (KStr "GENERAL") c = Some v -> (forall d, v <> VDict d) -> merge_updates (VDict nu) curr id = Err AttributeError))))) /\
  (forall nu, id = None -> curr = VNone \/ (exists c, curr = VDict c) -> dget (KStr "SITES") nu = None -> dget (KStr "GENERAL") nu = None ->
     nu = [] \/ (exists s v, In (KStr s, v) nu) -> merge_updates (VDict nu) curr id = Err ValueError).
Proof. exact C128_merge_lemma. Qed.
Print Assumptions C128_merge.
Example C128_merge_example : no_entries (VInt 3) /\ merge_updates (VInt 3) VNone None = Err TypeError /\
  merge_updates (VDict [(SITES, VInt 3)]) (VDict [(SITES, VDict []); (GENERAL, VDict [])]) None = Err TypeError /\
  merge_updates (VDict [(GENERAL, VDict [])]) (VDict [(SITES, VDict [])]) None = Err KeyError /\
  merge_updates (VDict [(GENERAL, VDict [])]) (VDict [(SITES, VInt 3)]) None = Err AttributeError /\
  merge_updates (VDict [(KStr "x", VInt 3)]) VNone None = Err ValueError.
Proof. split; [right; right; left; eexists; reflexivity|]. repeat split; reflexivity. Qed.

(** C128. What merging into something other than a dictionary raises. The update must be one that is merged: for any other Python raises a ValueError before it looks at the second argument, a class the model simplifies to TypeError. *)
Theorem C128_merge_into : forall nu curr id,
  curr <> VNone -> (forall c, curr <> VDict c) ->
  (exists v, dget (KStr "SITES") nu = Some v) \/ (exists v, dget (KStr "GENERAL") nu = Some v) \/
  (nu <> [] /\ forall k v, In (k, v) nu -> exists z, k = KInt z) \/ id <> None ->
  merge_updates (VDict nu) curr id = Err TypeError.
Proof. exact C128_merge_into_lemma. Qed.
Print Assumptions C128_merge_into.
Example C128_merge_into_example : merge_updates (VDict [(KInt 1, VDict [])]) (VInt 3) None = Err TypeError /\ merge_updates (VDict [(KStr "x", VInt 3)]) (VList []) (Some (KInt 1)) = Err TypeError.
Proof. split; reflexivity. Qed.

(** C128. Which batches are accepted, and what the others raise. *)
Theorem C128_batch : forall st,
  (forall v, no_entries v -> batch_update st v = Err TypeError) /\
  (forall b, dget (KStr "GENERAL") b = None ->
     ((exists k v, In (k, v) b /\ forall d, v <> VDict d) -> batch_update st (VDict b) = Err TypeError) /\
     ((forall k v, In (k, v) b -> exists d, v = VDict d) -> exists st', batch_update st (VDict b) = Ok st')) /\
  (forall b g, dget (KStr "GENERAL") b = Some g ->
     (forall v, dget (KStr "SITES") b = Some v -> (forall d, v <> VDict d) -> batch_update st (VDict b) = Err AttributeError) /\
     (forall sb, dget (KStr "SITES") b = Some (VDict sb) \/ (dget (KStr "SITES") b = None /\ sb = []) ->
        ((exists k v, In (k, v) sb /\ forall d, v <> VDict d) -> batch_update st (VDict b) = Err TypeError) /\
        ((forall d, g <> VDict d) -> batch_update st (VDict b) = Err TypeError) /\
        ((forall k v, In (k, v) sb -> exists d, v = VDict d) -> (exists d, g = VDict d) -> exists st', batch_update st (VDict b) = Ok st'))).
Proof. exact C128_batch_lemma. Qed.
Print Assumptions C128_batch.
Example C128_batch_example : batch_update s_empty (VInt 3) = Err TypeError /\ batch_update s_empty (VDict [(GENERAL, VDict []); (SITES, VNone)]) = Err AttributeError /\
  batch_update s_empty (VDict [(KInt 1, VInt 3)]) = Err TypeError /\ batch_update s_empty (VDict [(GENERAL, VInt 3)]) = Err TypeError /\
  exists st, batch_update s_empty (VDict [(GENERAL, VDict [(KStr "t", VInt 1)]); (SITES, VDict [(KInt 1, VDict [])])]) = Ok st.
Proof. repeat split; try reflexivity. eexists; reflexivity. Qed.

(** C129. Which dictionaries reload as results, and what the others raise. *)
Theorem C129_load : (forall v, (forall d, v <> VDict d) -> result_from_dict v = Err TypeError) /\ forall d,
  (dget (KStr "diffs") d = None \/ dget (KStr "initial_state") d = None -> result_from_dict (VDict d) = Err KeyError) /\
  (forall diffs init e, dget (KStr "diffs") d = Some diffs -> dget (KStr "initial_state") d = Some init -> state_from_dict init = Err e -> result_from_dict (VDict d) = Err e) /\
  (forall diffs init s, dget (KStr "diffs") d = Some diffs -> dget (KStr "initial_state") d = Some init -> state_from_dict init = Ok s ->
     (no_entries diffs -> result_from_dict (VDict d) = Err TypeError) /\
     ((exists a b, diffs = VDict (a :: b)) \/ (exists a b, diffs = VStr (String a b)) -> result_from_dict (VDict d) = Err AttributeError) /\
     (diffs = VDict [] \/ diffs = VStr "" -> result_from_dict (VDict d) = Ok (new_result s))) /\
  (forall l init s, dget (KStr "diffs") d = Some (VList l) \/ dget (KStr "diffs") d = Some (VTuple l) -> dget (KStr "initial_state") d = Some init -> state_from_dict init = Ok s ->
     (forall pre v post e, l = pre ++ v :: post -> Forall diff_fine pre -> diff_fails v e -> result_from_dict (VDict d) = Err e) /\
     (Forall diff_fine l -> exists r, result_from_dict (VDict d) = Ok r)).
Proof. exact C129_load_lemma. Qed.
Print Assumptions C129_load.
Example C129_load_example : legible (KStr "-12") /\ illegible (KStr "SITES") /\ diff_fine (VDict [(KStr "12", VDict []); (KStr "GENERAL", VNone)]) /\
  diff_fails (VDict [(KStr "SITES", VDict [])]) ValueError /\ diff_fails VNone AttributeError /\
  let file l := VDict [(KStr "diffs", VList l); (KStr "initial_state", state_as_dict s_empty)] in
  result_from_dict (file [VDict [(KStr "12", VDict [])]; VNone]) = Err AttributeError /\ result_from_dict (file [VDict [(KStr "SITES", VDict [])]; VNone]) = Err ValueError /\
  exists r, result_from_dict (file [VDict [(KStr "12", VDict []); (KStr "GENERAL", VNone)]]) = Ok r.
Proof.
  assert (D : forall n, (48 <= nat_of_ascii n <= 57)%nat -> is_digit n) by auto.
  assert (I : illegible (KStr "SITES")).
  { exists (list_ascii_of_string "SITES"). split; [reflexivity|]. right. exists "S"%char. split; [now left|]. left. cbn. lia. }
  split; [right; exists "1"%char, ["2"%char]; split; [apply D; cbn; lia|]; split; [repeat constructor; apply D; cbn; lia|right; reflexivity]|]. split; [exact I|].
  split.
  { eexists. split; [reflexivity|]. intros k x [E|[E|[]]] N; injection E as <- <-; [|congruence]. right. exists "1"%char, ["2"%char].
    split; [apply D; cbn; lia|]. split; [repeat constructor; apply D; cbn; lia|left; reflexivity]. }
  split; [split; [reflexivity|]; exists (KStr "SITES"), (VDict []); split; [now left|]; split; [discriminate|exact I]|]. split; [reflexivity|].
  cbv zeta. split; [reflexivity|]. split; [reflexivity|]. eexists. reflexivity.
Qed.

(** C129. What states that cannot be reloaded raise. *)
Theorem C129_state : (forall v, (forall d, v <> VDict d) -> state_from_dict v = Err TypeError) /\ forall d,
  (dget (KStr "state") d = None -> state_from_dict (VDict d) = Err KeyError) /\
  (forall v, dget (KStr "state") d = Some v -> (forall x, v <> VDict x) -> state_from_dict (VDict d) = Err TypeError) /\
  (forall sd, dget (KStr "state") d = Some (VDict sd) ->
     (dget (KStr "SITES") sd = None -> state_from_dict (VDict d) = Err KeyError) /\
     (forall v, dget (KStr "SITES") sd = Some v -> (forall x, v <> VDict x) -> state_from_dict (VDict d) = Err AttributeError) /\
     (forall l, dget (KStr "SITES") sd = Some (VDict l) -> (forall k x, In (k, x) l -> exists y, x = VDict y) ->
        (exists k x, In (k, x) l /\ illegible k) -> state_from_dict (VDict d) = Err ValueError)).
Proof. exact C129_state_lemma. Qed.
Print Assumptions C129_state.
Example C129_state_example : let file v := VDict [(KStr "state", VDict [(SITES, v); (GENERAL, VDict [])])] in
  state_from_dict (file (VList [])) = Err AttributeError /\ state_from_dict (file (VDict [(KStr "", VDict [])])) = Err ValueError /\ illegible (KStr "") /\
  exists st, state_from_dict (file (VDict [(KStr "7", VDict [])])) = Ok st.
Proof. cbv zeta. split; [reflexivity|]. split; [reflexivity|]. split; [exists []; split; [reflexivity|now left]|]. eexists. reflexivity. Qed.
