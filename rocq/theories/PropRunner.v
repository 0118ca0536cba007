(** Properties C12-C20, C22: running simulations. *)
From Verif Require Import Prelude Dict Val ValFacts StateModel ResultModel RunnerModel SpecState SpecResult SpecRunner Demo RunnerFacts RunnerMore SyncFacts ParRun ParFacts RunnerShapes CallDemo.

(** C12. Asynchronous run: each step is the previous one with one answer, computed on it, applied. *)
Theorem C12_async_steps : forall (C : Type) (ctl : controller C) (c0 : C) (init : sstate) (n : Z) o,
  proper ctl ->
  run_async ctl c0 init n = Ok o ->
  get_step (o_result o) 0 = Ok init /\
  last_step (o_result o) = Ok (o_output o) /\
  forall t, 0 <= t < rlen (o_result o) - 1 ->
    exists s s' c c' site resp ups nx S G,
      get_step (o_result o) t = Ok s /\ get_step (o_result o) (t + 1) = Ok s' /\
      c_update ctl c site s = Ok (resp, c') /\
      answer_of resp ups nx /\ means site ups S G /\ updated s S G s'.
Proof. exact C12_lemma. Qed.
Print Assumptions C12_async_steps.
Example C12_example : exists o, run_async demo_controller 0 demo_state 4 = Ok o /\ rlen (o_result o) = 5 /\
  site_entry (o_output o) (KInt 7) (KStr "n") = Some (VInt 6) /\ site_entry (o_output o) (KInt 4) (KStr "n") = Some (VInt 1).
Proof. eexists. split; [vm_compute; reflexivity|split; [reflexivity|split; reflexivity]]. Qed.

(** C13. Visits are served first come first served; get_random_site is asked exactly when nothing is pending; the run stops early only when nothing is pending. *)
Theorem C13_async_order : forall (C : Type) (ctl : controller C) (c0 : C) (init : sstate) (n : Z) o,
  run_async ctl c0 init n = Ok o ->
  exists c1 v q c2 (evs : list (key * list key * list key)) rest,
    c_pre_run ctl c0 init = Ok c1 /\ c_random_site ctl c1 init = Ok (v, c2) /\ offers v q /\ q <> [] /\
    Z.of_nat (length evs) = rlen (o_result o) - 1 /\
    map (fun e => fst (fst e)) evs ++ rest = q ++ flat_map (fun e => snd (fst e) ++ snd e) evs /\
    (forall t site next rand, nth_error evs t = Some (site, next, rand) ->
       exists s s' c c' resp ups nx p,
         get_step (o_result o) (Z.of_nat t) = Ok s /\ get_step (o_result o) (Z.of_nat t + 1) = Ok s' /\
         c_update ctl c site s = Ok (resp, c') /\ answer_of resp ups nx /\ requests nx next /\
         map (fun e => fst (fst e)) (firstn (S t) evs) ++ p =
           q ++ flat_map (fun e => snd (fst e) ++ snd e) (firstn t evs) ++ next /\
         ((p <> [] /\ rand = []) \/
          (p = [] /\ exists v' c'', c_random_site ctl c' s' = Ok (v', c'') /\ offers v' rand))) /\
    rlen (o_result o) - 1 <= Z.max 0 n /\
    (rlen (o_result o) - 1 < n -> rest = []).
Proof. exact C13_lemma'. Qed.
Print Assumptions C13_async_order.
Example C13_order_example : is_ok (run_async demo_controller 0 demo_state 4) /\ (exists o, run_async (mkController (fun c _ => Ok c) (fun c _ => Ok (if c =? 0 then VInt 4 else VList [], c)) (fun c _ _ => Ok (VDict [(KStr "n", VInt c)], c + 1))) 0 demo_state 4 = Ok o /\ rlen (o_result o) = 2).
Proof. split; [eexists; vm_compute; reflexivity|]. eexists. split; [vm_compute; reflexivity|reflexivity]. Qed.

(** C13. No site offered at the start: RuntimeError. *)
Theorem C13_no_site : forall (C : Type) (ctl : controller C) (c0 c1 c2 : C) (init : sstate) (n : Z) v,
  c_pre_run ctl c0 init = Ok c1 -> c_random_site ctl c1 init = Ok (v, c2) -> offers v [] ->
  run_async ctl c0 init n = Err RuntimeError.
Proof. exact C13_no_site_lemma'. Qed.
Print Assumptions C13_no_site.
Example C13_no_site_example : run_async (mkController (fun c _ => Ok c) (fun c _ => Ok (VNone, c)) (c_update demo_controller)) 0 demo_state 3 = Err RuntimeError.
Proof. reflexivity. Qed.

(** C13. If the controller always offers a site and answers in a documented shape, exactly num_steps steps are recorded. *)
Theorem C13_exact_steps : forall (C : Type) (ctl : controller C) (c0 : C) (init : sstate) (n : Z),
  0 <= n ->
  (forall c s, exists c', c_pre_run ctl c s = Ok c') ->
  (forall c s, exists v c' ks, c_random_site ctl c s = Ok (v, c') /\ offers v ks /\ ks <> []) ->
  (forall c id s, exists resp c' ups nx ks S G, c_update ctl c id s = Ok (resp, c') /\ answer_of resp ups nx /\
     requests nx ks /\ ups <> VNone /\ means id ups S G /\ upd_wf S G) ->
  exists o, run_async ctl c0 init n = Ok o /\ rlen (o_result o) = n + 1.
Proof. exact C13_total_lemma. Qed.
Print Assumptions C13_exact_steps.
Example C13_total_example : exists o, run_async demo_controller 5 demo_state 6 = Ok o /\ rlen (o_result o) = 7.
Proof. eexists. split; [vm_compute; reflexivity|reflexivity]. Qed.

(** C14. What every single update conserves, the run conserves. *)
Theorem C14_conservation : forall (C : Type) (ctl : controller C) (c0 : C) (init : sstate) (n : Z) o (A : Type) (Q : sstate -> A),
  proper ctl -> run_async ctl c0 init n = Ok o ->
  (forall c site s resp c' ups nx S G s',
     c_update ctl c site s = Ok (resp, c') -> answer_of resp ups nx -> means site ups S G ->
     updated s S G s' -> Q s' = Q s) ->
  forall t s, 0 <= t < rlen (o_result o) -> get_step (o_result o) t = Ok s -> Q s = Q init.
Proof. exact C14_lemma'. Qed.
Print Assumptions C14_conservation.
Example C14_example : proper numbering /\ is_ok (run_async numbering 0 demo_state 3) /\
  forall c site s resp c' ups nx S G s', c_update numbering c site s = Ok (resp, c') -> answer_of resp ups nx -> means site ups S G ->
    updated s S G s' -> general_entry s' (KStr "time") = general_entry s (KStr "time").
Proof.
  assert (K : forall c id s v c' ups nx S G, c_update numbering c id s = Ok (v, c') -> answer_of v ups nx -> means id ups S G -> ups = v /\ S = [(id, VDict [(KStr "n", VInt c)])] /\ G = []).
  { intros c id s v c' ups nx S G E A M. injection E as <- <-. destruct A as [A|(<- & _)]; [discriminate|]. split; [reflexivity|].
    inversion M as [|? R N|? R N|? ? ? E1 E2 R]; subst; [now split|exfalso|exfalso].
    - destruct N as (_ & N). destruct (N (KStr "n")) as (z & E); [now left|discriminate].
    - apply R. split; reflexivity. }
  split; [|split; [eexists; vm_compute; reflexivity|]].
  - intros c id s v c' ups nx S G E A M. destruct (K _ _ _ _ _ _ _ _ _ E A M) as (-> & -> & ->). split; [repeat constructor; cbn; tauto|]. split; [constructor|].
    intros i w [E'|[]] u Ew. injection E' as <- <-. injection Ew as <-. repeat constructor. cbn. tauto.
  - intros c id s v c' ups nx S G s' E A M (_ & _ & U). destruct (K _ _ _ _ _ _ _ _ _ E A M) as (-> & -> & ->). rewrite U. reflexivity.
Qed.

(** C15. Serial synchronous run: every site is updated by its own answer on the previous step, all together. *)
Theorem C15_sync_simultaneous : forall (C : Type) (ctl : controller C) (c0 : C) (init : sstate) (n : Z) o,
  own_rule ctl -> swf init -> run_sync ctl c0 init n = Ok o ->
  rlen (o_result o) = Z.max 0 n + 1 /\ get_step (o_result o) 0 = Ok init /\
  forall t, 0 <= t < Z.max 0 n -> exists s s',
    get_step (o_result o) t = Ok s /\ get_step (o_result o) (t + 1) = Ok s' /\
    site_ids s' = site_ids init /\ get_general_state s' = get_general_state init /\
    forall id, In id (site_ids init) -> exists c1 c2 v u,
      c_update ctl c1 id s = Ok (v, c2) /\ own_answer id v u /\
      forall k, site_entry s' id k = upd_entry u k (site_entry s id k).
Proof. exact C15_lemma. Qed.
Print Assumptions C15_sync_simultaneous.
Example C15_example : exists o, run_sync (pure_controller demo_rule) tt demo_state 2 = Ok o /\ rlen (o_result o) = 3 /\
  site_entry (o_output o) (KInt 7) (KStr "n") = Some (VInt 2) /\ site_entry (o_output o) (KInt 4) (KStr "n") = None.
Proof. eexists. split; [vm_compute; reflexivity|split; [reflexivity|split; reflexivity]]. Qed.

(** C15. The order in which sites are stored (and hence visited) does not matter for own-site rules. *)
Theorem C15_order_independent : forall (f : key -> sstate -> res val) (s1 s2 : sstate) (n : Z) o1,
  own_fun f -> order_blind f -> swf s1 -> swf s2 -> same_content s1 s2 ->
  run_sync (pure_controller f) tt s1 n = Ok o1 ->
  exists o2, run_sync (pure_controller f) tt s2 n = Ok o2 /\ rlen (o_result o2) = rlen (o_result o1) /\
    forall t, 0 <= t < rlen (o_result o1) -> exists x1 x2,
      get_step (o_result o1) t = Ok x1 /\ get_step (o_result o2) t = Ok x2 /\ same_content x1 x2.
Proof. exact C15_order_lemma. Qed.
Print Assumptions C15_order_independent.
Example C15_order_example : same_content demo_state (mkS (rev (s_sites demo_state)) (s_general demo_state)).
Proof.
  split; [|reflexivity]. intros i. unfold get_site_state, demo_state. cbn [s_sites rev app dget].
  destruct (eqb_spec i (KInt 4)) as [->|N]; [reflexivity|]. destruct (eqb_spec i (KInt 7)) as [->|N2]; reflexivity.
Qed.

(** C16, part: output is the last step of serial synchronous runs.  Missing: parallel runs. *)
Theorem C16_output_sync_partial : forall (C : Type) (ctl : controller C) (c0 : C) (init : sstate) (n : Z) o,
  run_sync ctl c0 init n = Ok o -> last_step (o_result o) = Ok (o_output o).
Proof. exact C16_sync_lemma. Qed.
Print Assumptions C16_output_sync_partial.
Example C16_sync_example : is_ok (run_sync (pure_controller demo_rule) tt demo_state 2).
Proof. eexists. vm_compute. reflexivity. Qed.

(** C16, part: output is the last step of asynchronous runs.  Missing: parallel runs. *)
Theorem C16_output_async_partial : forall (C : Type) (ctl : controller C) (c0 : C) (init : sstate) (n : Z) o,
  run_async ctl c0 init n = Ok o -> last_step (o_result o) = Ok (o_output o).
Proof. exact C16_async_lemma. Qed.
Print Assumptions C16_output_async_partial.
Example C16_async_example : is_ok (run_async demo_controller 0 demo_state 4).
Proof. eexists. vm_compute. reflexivity. Qed.

(** C16: the output of a parallel run is always the initial state. *)
Theorem C16_output_parallel_is_initial : forall (C : Type) (ctl : controller C) p sched (c0 : C) (init : sstate) (n : Z) o,
  run_parallel ctl p sched c0 init n = Ok o -> o_output o = init.
Proof. exact C16_parallel_lemma. Qed.
Print Assumptions C16_output_parallel_is_initial.
Example C16_parallel_example : exists o, run_parallel (pure_controller demo_rule) 2 (fun _ b => b) tt demo_state 2 = Ok o /\ o_output o = demo_state /\ last_step (o_result o) <> Ok demo_state.
Proof. eexists. split; [vm_compute; reflexivity|]. split; [reflexivity|]. vm_compute. discriminate. Qed.

(** C16 is false for parallel runs. *)
Theorem C16_output_parallel_refuted : exists (f : key -> sstate -> res val) p sched init n o s,
  own_fun f /\ swf init /\ (forall t b, Z.of_nat (sched t b) < p) /\
  run_parallel (pure_controller f) p sched tt init n = Ok o /\ last_step (o_result o) = Ok s /\
  site_entry s (KInt 0) (KStr "v") = Some (VInt 1) /\ site_entry (o_output o) (KInt 0) (KStr "v") = Some (VInt 0).
Proof. exact C16_refuted_lemma. Qed.
Print Assumptions C16_output_parallel_refuted.

(** C17, part: parallel steps equal serial steps when every worker used in a step was used in all earlier steps.  Missing: schedules that leave a worker idle (refuted below). *)
Theorem C17_parallel_fair_partial : forall (f : key -> sstate -> res val) p sched init n o,
  own_fun f -> swf init -> site_ids init <> [] -> 1 <= p ->
  (forall c batches, chunk_size_of (size init) p = Ok c -> site_batches c (site_ids init) = Ok batches -> keeps_up (length batches) sched) ->
  run_sync (pure_controller f) tt init n = Ok o ->
  exists o', run_parallel (pure_controller f) p sched tt init n = Ok o' /\
    rlen (o_result o') = rlen (o_result o) /\
    forall t, 0 <= t < rlen (o_result o) -> get_step (o_result o') t = get_step (o_result o) t /\ is_ok (get_step (o_result o) t).
Proof. exact C17_fair_lemma. Qed.
Print Assumptions C17_parallel_fair_partial.
Example C17_fair_example : keeps_up 2 (fun _ b => b).
Proof. intros t b L t' L'. exists b. auto. Qed.

(** C17, part: for rules that always assign the same keys of their site, parallel equals serial under every schedule and number of workers. *)
Theorem C17_parallel_stable_partial : forall (f : key -> sstate -> res val) p sched init n o,
  stable_fun f -> swf init -> site_ids init <> [] -> 1 <= p ->
  run_sync (pure_controller f) tt init n = Ok o ->
  exists o', run_parallel (pure_controller f) p sched tt init n = Ok o' /\
    rlen (o_result o') = rlen (o_result o) /\
    forall t, 0 <= t < rlen (o_result o) -> get_step (o_result o') t = get_step (o_result o) t /\ is_ok (get_step (o_result o) t).
Proof. exact C17_stable_lemma. Qed.
Print Assumptions C17_parallel_stable_partial.
Example C17_stable_example : stable_fun (fun id s => Ok (VDict [(KStr "n", VInt (size s))])).
Proof.
  intros id. exists [KStr "n"]. intros s v E. injection E as <-. exists [(KStr "n", VInt (size s))]. split; [discriminate|].
  split; [|split; [repeat constructor; cbn; tauto|reflexivity]].
  apply means_site; [split; reflexivity|]. intros [_ F]. destruct (F (KStr "n")) as [z E]; [now left|discriminate].
Qed.

(** C17, part: one worker, every own-site rule. *)
Theorem C17_one_worker_partial : forall (f : key -> sstate -> res val) sched init n o,
  own_fun f -> swf init -> site_ids init <> [] -> (forall t b, (sched t b < 1)%nat) ->
  run_sync (pure_controller f) tt init n = Ok o ->
  exists o', run_parallel (pure_controller f) 1 sched tt init n = Ok o' /\
    rlen (o_result o') = rlen (o_result o) /\
    forall t, 0 <= t < rlen (o_result o) -> get_step (o_result o') t = get_step (o_result o) t /\ is_ok (get_step (o_result o) t).
Proof. exact C17_one_worker_lemma. Qed.
Print Assumptions C17_one_worker_partial.
Example C17_one_worker_example : own_fun demo_rule /\ swf demo_state /\ site_ids demo_state <> [] /\ (forall t b : nat, ((fun _ _ => 0%nat) t b < 1)%nat) /\ is_ok (run_sync (pure_controller demo_rule) tt demo_state 2).
Proof.
  split.
  { intros id s v E. unfold demo_rule in E. destruct (eqb id (KInt 4)); injection E as <-.
    - exists []. split; [left; auto|constructor].
    - eexists. split; [right; split; [discriminate|]; apply means_site; [split; reflexivity|]; intros [_ F]; destruct (F (KStr "n")) as [z E]; [now left|discriminate]|]. repeat constructor. simpl. tauto. }
  split; [|split; [discriminate|split; [intros; lia|eexists; vm_compute; reflexivity]]].
  split; [repeat constructor; simpl; intuition discriminate|]. split; [|repeat constructor; simpl; tauto].
  intros i d E. unfold get_site_state in E. apply dget_In in E. destruct E as [E|[E|[]]]; injection E as <- <-; repeat constructor; simpl; intuition discriminate.
Qed.

(** C17 is false: with an idle worker, a pure own-site rule gives different steps. *)
Theorem C17_parallel_refuted : exists (f : key -> sstate -> res val) p sched init n o o',
  own_fun f /\ swf init /\ 1 <= p /\ (forall t b, Z.of_nat (sched t b) < p) /\
  run_sync (pure_controller f) tt init n = Ok o /\ run_parallel (pure_controller f) p sched tt init n = Ok o' /\
  exists t s s', 0 <= t < rlen (o_result o) /\ get_step (o_result o) t = Ok s /\ get_step (o_result o') t = Ok s' /\
    site_entry s (KInt 1) (KStr "w") = Some (VInt 1) /\ site_entry s' (KInt 1) (KStr "w") = Some (VInt 0).
Proof. exact C17_refuted_lemma. Qed.
Print Assumptions C17_parallel_refuted.

(** C18. The batches of a parallel step. *)
Theorem C18_chunking : forall (p : Z) (ids : list key), 1 <= p -> ids <> [] ->
  exists c batches, chunk_size_of (Z.of_nat (length ids)) p = Ok c /\
    site_batches c ids = Ok batches /\
    concat batches = ids /\
    Forall (fun b => b <> [] /\ Z.of_nat (length b) <= c) batches /\
    Z.of_nat (length batches) <= p /\ c = (Z.of_nat (length ids) + p - 1) / p.
Proof. exact C18_lemma. Qed.
Print Assumptions C18_chunking.
Example C18_example : site_batches 3 (map KInt [5; 1; 2; 9; 4; 3; 8]) = Ok [[KInt 5; KInt 1; KInt 2]; [KInt 9; KInt 4; KInt 3]; [KInt 8]].
Proof. reflexivity. Qed.

(** C19. Every documented shape is brought to the same full form, whose effect is exactly the named changes. *)
Theorem C19_update_shapes : forall (id : key) (v : val) (S G : pdict),
  means id v S G -> upd_wf S G -> v <> VNone ->
  merge_updates v VNone (Some id) = Ok (full_update S G) /\
  forall s, exists s', batch_update s (full_update S G) = Ok s' /\ updated s S G s'.
Proof. exact C19_lemma. Qed.
Print Assumptions C19_update_shapes.
Example C19_shapes_example : means (KInt 4) (VDict [(KStr "n", VInt 1)]) [(KInt 4, VDict [(KStr "n", VInt 1)])] [] /\ upd_wf [(KInt 4, VDict [(KStr "n", VInt 1)])] [].
Proof.
  split; [apply means_site; [split; reflexivity|]; intros [_ F]; destruct (F (KStr "n")) as [z E]; [now left|discriminate]|].
  split; [repeat constructor; cbn; tauto|]. split; [constructor|]. intros i v [E|[]]. injection E as <- <-. eexists. split; [reflexivity|]. repeat constructor; cbn; tauto.
Qed.

(** C19. None changes nothing. *)
Theorem C19_none : forall (curr : val) (id : option key), merge_updates VNone curr id = Ok curr.
Proof. exact C19_none_lemma. Qed.
Print Assumptions C19_none.
Example C19_none_example : merge_updates VNone (full_update [(KInt 4, VDict [(KStr "n", VInt 1)])] []) (Some (KInt 7)) = Ok (full_update [(KInt 4, VDict [(KStr "n", VInt 1)])] []).
Proof. reflexivity. Qed.

(** C19. The three shapes of the same site update agree. *)
Theorem C19_shapes_agree : forall (z : Z) (u : pdict), no_reserved u -> ~ site_map u -> uniq u ->
  let id := KInt z in
  let full := Ok (full_update [(id, VDict u)] []) in
  merge_updates (VDict u) VNone (Some id) = full /\
  (forall at_site, merge_updates (VDict [(id, VDict u)]) VNone (Some at_site) = full) /\
  (forall at_site, merge_updates (VDict [(SITES, VDict [(id, VDict u)])]) VNone (Some at_site) = full) /\
  (forall at_site, merge_updates (VDict [(SITES, VDict [(id, VDict u)]); (GENERAL, VDict [])]) VNone (Some at_site) = full) /\
  (forall at_site, merge_updates (VDict [(GENERAL, VDict []); (SITES, VDict [(id, VDict u)])]) VNone (Some at_site) = full).
Proof. exact C19_shapes_lemma. Qed.
Print Assumptions C19_shapes_agree.
Example C19_example : no_reserved [(KStr "n", VInt 1)] /\ ~ site_map [(KStr "n", VInt 1)].
Proof. split; [split; reflexivity|]. intros [_ F]. destruct (F (KStr "n")) as [z E]; [now left|discriminate]. Qed.

(** C19: a site update whose keys are all integers is read as a map from site ids. *)
Theorem C19_int_keys : forall (id : key) (u : pdict), site_map u -> no_reserved u -> uniq u ->
  merge_updates (VDict u) VNone (Some id) = Ok (full_update u []).
Proof. exact C19_int_keys_lemma. Qed.
Print Assumptions C19_int_keys.
Example C19_int_keys_example : let u := [(KInt 4, VDict [(KStr "n", VInt 1)]); (KInt 9, VDict [])] in site_map u /\ no_reserved u /\ uniq u.
Proof.
  split; [split; [discriminate|]; intros k [<-|[<-|[]]]; [now exists 4|now exists 9]|]. split; [split; reflexivity|]. repeat constructor; simpl; intuition discriminate.
Qed.

(** C20, part: in a serial step the last answer naming a site provides that site update as a whole, and the last answer naming a general key its value.  Missing: key-wise merging of several updates of one site (refuted), parallel order (refuted). *)
Theorem C20_merge_partial : forall (C : Type) (ctl : controller C) (ids : list key) (s : sstate) (c c' : C) S G,
  (forall c id s v c' S G, c_update ctl c id s = Ok (v, c') -> means id v S G -> uniq S /\ uniq G) ->
  step_batch ctl ids s c = Ok (full_update S G, c') ->
  exists vs Ss Gs,
    Forall2 (fun id v => exists c1 c2, c_update ctl c1 id s = Ok (v, c2)) ids vs /\
    Forall2 (fun idv SG => means (fst idv) (snd idv) (fst SG) (snd SG)) (combine ids vs) (combine Ss Gs) /\
    length Ss = length ids /\ length Gs = length ids /\
    (forall i, dget i S = last_for i Ss) /\ (forall k, dget k G = last_for k Gs).
Proof. exact C20_lemma. Qed.
Print Assumptions C20_merge_partial.
Example C20_merge_example : step_batch numbering [KInt 4; KInt 7] demo_state 0 = Ok (full_update [(KInt 4, VDict [(KStr "n", VInt 0)]); (KInt 7, VDict [(KStr "n", VInt 1)])] [], 2).
Proof. reflexivity. Qed.

(** C20 is false: an assignment to another key of the same site is lost. *)
Theorem C20_merge_refuted : exists (f : key -> sstate -> res val) init o s,
  swf init /\ run_sync (pure_controller f) tt init 1 = Ok o /\ get_step (o_result o) 1 = Ok s /\
  In (KInt 0) (site_ids init) /\
  (forall x, f (KInt 0) x = Ok (VDict [(KInt 0, VDict [(KStr "a", VInt 1)])])) /\
  site_entry init (KInt 0) (KStr "a") = None /\ site_entry s (KInt 0) (KStr "a") = None.
Proof. exact C20_refuted_lemma. Qed.
Print Assumptions C20_merge_refuted.

(** C20 is false: on conflicts the later site wins serially, the earlier one in parallel. *)
Theorem C20_parallel_refuted : exists (f : key -> sstate -> res val) init sched o o' s s',
  swf init /\ run_sync (pure_controller f) tt init 1 = Ok o /\
  run_parallel (pure_controller f) 2 sched tt init 1 = Ok o' /\
  get_step (o_result o) 1 = Ok s /\ get_step (o_result o') 1 = Ok s' /\
  site_entry s (KInt 0) (KStr "a") = Some (VInt 1) /\ site_entry s' (KInt 0) (KStr "a") = Some (VInt 0).
Proof. exact C20_parallel_refuted_lemma. Qed.
Print Assumptions C20_parallel_refuted.

(** C22, part: in a serial run that completes, a None answer leaves its site unchanged.  Missing: all-None steps and asynchronous runs (refuted). *)
Theorem C22_none_partial : forall (f : key -> sstate -> res val) (init : sstate) (n : Z) o,
  own_fun f -> swf init -> run_sync (pure_controller f) tt init n = Ok o ->
  forall t s s' id, 0 <= t < Z.max 0 n -> get_step (o_result o) t = Ok s -> get_step (o_result o) (t + 1) = Ok s' ->
    In id (site_ids init) -> f id s = Ok VNone -> forall k, site_entry s' id k = site_entry s id k.
Proof. exact C22_sync_lemma. Qed.
Print Assumptions C22_none_partial.
Example C22_example : demo_rule (KInt 4) demo_state = Ok VNone /\ is_ok (run_sync (pure_controller demo_rule) tt demo_state 1).
Proof. split; [reflexivity|eexists; vm_compute; reflexivity]. Qed.

(** C22 is false: if every site answers None, a serial run raises TypeError. *)
Theorem C22_none_sync_refuted : forall (init : sstate) (n : Z), 0 < n ->
  run_sync (pure_controller (fun _ _ => Ok VNone)) tt init n = Err TypeError.
Proof. exact C22_sync_refuted_lemma. Qed.
Print Assumptions C22_none_sync_refuted.

(** C22 is false: an asynchronous run whose rule answers None raises TypeError. *)
Theorem C22_none_async_refuted : forall (C : Type) (ctl : controller C) (c0 c1 c2 c3 : C) (init : sstate) (n : Z) v k ks,
  0 < n -> c_pre_run ctl c0 init = Ok c1 -> c_random_site ctl c1 init = Ok (v, c2) -> offers v (k :: ks) ->
  c_update ctl c2 k init = Ok (VNone, c3) -> run_async ctl c0 init n = Err TypeError.
Proof. exact C22_async_refuted_lemma. Qed.
Print Assumptions C22_none_async_refuted.

(** C22 is false: in parallel the run ends but its steps cannot be read. *)
Theorem C22_none_parallel_refuted : exists init sched o,
  swf init /\ run_parallel (pure_controller (fun _ _ => Ok VNone)) 2 sched tt init 1 = Ok o /\
  rlen (o_result o) = 2 /\ get_step (o_result o) 1 = Err TypeError.
Proof. exact C22_parallel_refuted_lemma. Qed.
Print Assumptions C22_none_parallel_refuted.
