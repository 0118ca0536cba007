(** Properties C01-C04, C06, C112: simulation states. *)
From Verif Require Import Prelude Dict Val StateModel JsonModel SpecState SpecResult Demo ValFacts SpecEq StateEq StateFacts JsonFacts.

(** C01. Setting a site changes only the named keys of that site. *)
Theorem C01_set_site_state : forall (s : sstate) (i : key) (u : pdict), uniq u ->
  (forall k, site_entry (set_site_state s i u) i k = upd_entry u k (entry_or_new s i k)) /\
  (forall j, j <> i -> get_site_state (set_site_state s i u) j = get_site_state s j) /\
  get_site_state (set_site_state s i u) i <> None /\
  get_general_state (set_site_state s i u) = get_general_state s.
Proof. exact C01_lemma. Qed.
Print Assumptions C01_set_site_state.
Example C01_example : uniq [(KStr "n", VInt 9); (KStr "m", VInt 1)] /\
  site_entry (set_site_state demo_state (KInt 7) [(KStr "n", VInt 9); (KStr "m", VInt 1)]) (KInt 7) (KStr "n") = Some (VInt 9) /\
  site_entry (set_site_state demo_state (KInt 9) []) (KInt 9) SITE_ID = Some (VInt 9).
Proof. split; [repeat constructor; cbn; intuition discriminate|split; reflexivity]. Qed.

(** C02. Site bookkeeping over every history. *)
Theorem C02_bookkeeping : forall (h : list sop), Forall sop_ok h ->
  exists s, run_sops h s_empty = Ok s /\
  site_ids s = dedup (flat_map (fun o => dkeys (sop_sites o)) h) /\
  NoDup (site_ids s) /\
  size s = Z.of_nat (length (site_ids s)) /\
  map Some (all_site_states s) = map (get_site_state s) (site_ids s) /\
  (forall i, get_site_state s i <> None <-> In i (site_ids s)) /\
  ((forall o i u, In o h -> In (i, u) (sop_sites o) -> dget SITE_ID u = None) ->
   forall i, In i (site_ids s) -> site_entry s i SITE_ID = Some (key_val i)).
Proof. exact C02_lemma. Qed.
Print Assumptions C02_bookkeeping.
Example C02_example : Forall sop_ok demo_history /\ exists s, run_sops demo_history s_empty = Ok s /\ site_ids s = [KInt 7; KInt 2].
Proof.
  split; [|eexists; split; [vm_compute; reflexivity|reflexivity]].
  repeat constructor; cbn; try (intros i u [E|[E|[]]] || intros i u [E|[]]; injection E as <- <-); repeat constructor; cbn; intuition discriminate.
Qed.

(** C03. A batch with a general part (and optionally a site part) equals the individual updates; twice is once. *)
Theorem C03_batch_full : forall (s : sstate) (b : pdict) (sites : dict key pdict) (g : pdict),
  uniq sites -> (forall i u, In (i, u) sites -> uniq u) -> uniq g ->
  dget GENERAL b = Some (VDict g) ->
  dget SITES b = Some (VDict (vsites sites)) \/ (dget SITES b = None /\ sites = []) ->
  exists s', batch_update s (VDict b) = Ok s' /\
  (forall i k, site_entry s' i k = match dget i sites with
                                   | Some u => upd_entry u k (entry_or_new s i k)
                                   | None => site_entry s i k end) /\
  (forall i, ~ In i (dkeys sites) -> get_site_state s' i = get_site_state s i) /\
  (forall k, general_entry s' k = upd_entry g k (general_entry s k)) /\
  run_sops (map (fun iu => OpSite (fst iu) (snd iu)) sites ++ [OpGeneral g]) s = Ok s' /\
  batch_update s' (VDict b) = Ok s'.
Proof. exact C03_full_lemma. Qed.
Print Assumptions C03_batch_full.
Example C03_full_example : exists s', batch_update demo_state (VDict [(SITES, VDict (vsites [(KInt 4, [(KStr "n", VInt 1)])])); (GENERAL, VDict [(KStr "time", VInt 1)])]) = Ok s' /\
  site_entry s' (KInt 4) (KStr "n") = Some (VInt 1) /\ general_entry s' (KStr "time") = Some (VInt 1).
Proof. eexists. split; [reflexivity|split; reflexivity]. Qed.

(** C03. A batch that is a plain map from site ids to updates. *)
Theorem C03_batch_sites : forall (s : sstate) (sites : dict key pdict),
  uniq sites -> (forall i u, In (i, u) sites -> uniq u) -> ~ In GENERAL (dkeys sites) ->
  exists s', batch_update s (VDict (vsites sites)) = Ok s' /\
  (forall i k, site_entry s' i k = match dget i sites with
                                   | Some u => upd_entry u k (entry_or_new s i k)
                                   | None => site_entry s i k end) /\
  (forall i, ~ In i (dkeys sites) -> get_site_state s' i = get_site_state s i) /\
  get_general_state s' = get_general_state s /\
  run_sops (map (fun iu => OpSite (fst iu) (snd iu)) sites) s = Ok s' /\
  batch_update s' (VDict (vsites sites)) = Ok s'.
Proof. exact C03_sites_lemma. Qed.
Print Assumptions C03_batch_sites.
Example C03_sites_example : exists s', batch_update demo_state (VDict (vsites [(KInt 4, [(KStr "n", VInt 1)]); (KInt 9, [])])) = Ok s' /\
  site_entry s' (KInt 4) (KStr "n") = Some (VInt 1) /\ site_ids s' = [KInt 4; KInt 7; KInt 9].
Proof. eexists. split; [reflexivity|split; reflexivity]. Qed.

(** C04 is false: a SITES-only batch never updates any listed site; it creates a site called "SITES". *)
Theorem C04_sites_only_refuted : forall (s : sstate) (sites : pdict),
  exists s', batch_update s (VDict [(SITES, VDict sites)]) = Ok s' /\
  (forall i, i <> SITES -> get_site_state s' i = get_site_state s i) /\
  In SITES (site_ids s') /\ get_general_state s' = get_general_state s.
Proof. exact C04_refuted_lemma. Qed.
Print Assumptions C04_sites_only_refuted.
Example C04_example : exists s', batch_update demo_state (VDict [(SITES, VDict [(KInt 4, VDict [(KStr "phase", VStr "B")])])]) = Ok s' /\
  site_entry s' (KInt 4) (KStr "phase") = Some (VStr "A") /\ site_ids s' = [KInt 4; KInt 7; SITES].
Proof. eexists. split; [reflexivity|split; reflexivity]. Qed.

(** C06. Writing a state to JSON and reading it back gives the state. *)
Theorem C06_state_json : forall s, json_state s -> state_from_dict (json_roundtrip (state_as_dict s)) = Ok s.
Proof. exact C06_lemma. Qed.
Print Assumptions C06_state_json.
Example C06_example : json_state demo_state.
Proof. exact demo_json. Qed.

(** C112. Two states are equal exactly if they show the same sites and entries, in whatever order. *)
Theorem C112_equal : forall s s', val_wf (state_dict s) -> val_wf (state_dict s') -> (state_eqb s s' = true <-> alike s s').
Proof. exact C112_equal_lemma. Qed.
Print Assumptions C112_equal.
Example C112_example : val_wf (state_dict demo_state) /\ state_eqb (mkS [(KInt 0, [(KStr "a", VInt 1); (KStr "b", VList [VInt 2])]); (KInt 1, [])] []) (mkS [(KInt 1, []); (KInt 0, [(KStr "b", VList [VInt 2]); (KStr "a", VInt 1)])] []) = true /\
  state_eqb (mkS [(KInt 0, [])] []) (mkS [(KInt 0, []); (KInt 1, [])] []) = false.
Proof. split; [|split; reflexivity]. cbn. repeat split; repeat constructor; simpl; intuition discriminate. Qed.

(** C112. Equality of states is an equivalence. *)
Theorem C112_equivalence : forall s s' s'', val_wf (state_dict s) -> val_wf (state_dict s') -> val_wf (state_dict s'') ->
  state_eqb s s = true /\ state_eqb s s' = state_eqb s' s /\ (state_eqb s s' = true -> state_eqb s' s'' = true -> state_eqb s s'' = true).
Proof. exact C112_equivalence_lemma. Qed.
Print Assumptions C112_equivalence.
Example C112_equivalence_example : state_eqb demo_state demo_state = true.
Proof. reflexivity. Qed.

(** C112. Setting a site keeps a state equal exactly if the site is there and has these values already; updates of different sites may be exchanged. *)
Theorem C112_updates : forall s i u, val_wf (state_dict s) -> val_wf (VDict u) ->
  (state_eqb s (set_site_state s i u) = true <-> In i (site_ids s) /\ forall k v, In (k, v) u -> exists w, site_entry s i k = Some w /\ same w v) /\
  forall j w, j <> i -> val_wf (VDict w) -> state_eqb (set_site_state (set_site_state s i u) j w) (set_site_state (set_site_state s j w) i u) = true.
Proof. exact C112_updates_lemma. Qed.
Print Assumptions C112_updates.
Example C112_updates_example : state_eqb demo_state (set_site_state demo_state (KInt 77) []) = false /\ val_wf (VDict [(KStr "a", VInt 1)]).
Proof. split; [reflexivity|]. cbn. repeat split; repeat constructor; simpl; tauto. Qed.
