(** Properties C07-C10 and C92: simulation results. *)
From Verif Require Import Prelude Dict Val StateModel ResultModel RunnerModel JsonModel SpecState SpecResult SpecReload Demo FileModel SpecFile ResultFacts StepBeyond JsonFacts JsonReload RunnerShapes ParReload FileFacts.

(** C07. get_step, last_step, first_step and len at any point of any history of calls. *)
Theorem C07_get_step_replay : forall (init : sstate) (h : list rop) (i : Z),
  let r := fold_left apply_rop h (new_result init) in
  rlen r = 1 + Z.of_nat (length (added h)) /\
  (0 <= i < rlen r -> get_step r i = replay init (added h) (Z.to_nat i)) /\
  last_step r = replay init (added h) (length (added h)) /\
  first_step r = Ok init.
Proof. exact C07_lemma. Qed.
Print Assumptions C07_get_step_replay.
Example C07_example : let r := fold_left apply_rop demo_rops (new_result demo_state) in
  rlen r = 4 /\ (exists s, get_step r 3 = Ok s /\ general_entry s (KStr "time") = Some (VInt 1)) /\ dkeys (r_stored r) = [0; 1; 2].
Proof. cbn zeta. split; [reflexivity|split; [eexists; split; reflexivity|reflexivity]]. Qed.

(** C08, part: a step number at or above len(result) raises.  Missing: negative step numbers (next theorem). *)
Theorem C08_missing_step_partial : forall (init : sstate) (h : list rop) (i : Z),
  let r := fold_left apply_rop h (new_result init) in
  rlen r <= i -> exists e, get_step r i = Err e.
Proof. exact C08_lemma. Qed.
Print Assumptions C08_missing_step_partial.
 
Example C08_example : get_step (fold_left apply_rop demo_rops (new_result demo_state)) 4 = Err IndexError.
Proof. reflexivity. Qed.

(** C08, part: which exception: IndexError, or the one with which the recorded updates fail. *)
Theorem C08_exception_partial : forall (init : sstate) (h : list rop) (i : Z),
  let r := fold_left apply_rop h (new_result init) in
  rlen r <= i -> get_step r i = Err (match replay init (added h) (length (added h)) with Ok _ => IndexError | Err e => e end).
Proof. exact C08_exception_lemma. Qed.
Print Assumptions C08_exception_partial.
Example C08_exception_example : exists init, replay init [VInt 1] 1 = Err TypeError /\ replay init [VDict []] 1 = Ok init.
Proof. exists s_empty. split; reflexivity. Qed.

(** C08 is false for negative numbers: every negative step is answered with the initial state. *)
Theorem C08_negative_step_refuted : forall (init : sstate) (h : list rop) (i : Z),
  let r := fold_left apply_rop h (new_result init) in
  i < 0 -> get_step r i = Ok init.
Proof. exact C08_neg_lemma. Qed.
Print Assumptions C08_negative_step_refuted.
Example C08_neg_example : get_step (fold_left apply_rop demo_rops (new_result demo_state)) (-2) = Ok demo_state.
Proof. reflexivity. Qed.

(** C09, part: the states steps() yields, looked at one by one, are get_step(0), get_step(1), ...; without error there are len-1 of them.  Missing: the last step; the yielded objects are one and the same (see C11). *)
Theorem C09_steps_partial : forall (init : sstate) (h : list rop) (l : list sstate) (out : res unit),
  let r := fold_left apply_rop h (new_result init) in
  steps_lazy r = (l, out) ->
  (forall i s, nth_error l i = Some s -> get_step r (Z.of_nat i) = Ok s) /\
  (out = Ok tt -> Z.of_nat (length l) = rlen r - 1) /\
  (forall e, out = Err e -> get_step r (Z.of_nat (length l)) = Err e).
Proof. exact C09_lemma. Qed.
Print Assumptions C09_steps_partial.
Example C09_example : length (fst (steps_lazy (fold_left apply_rop demo_rops (new_result demo_state)))) = 3%nat.
Proof. reflexivity. Qed.

(** C09 is false: steps() never yields len(result) states. *)
Theorem C09_steps_refuted : forall (init : sstate) (h : list rop),
  let r := fold_left apply_rop h (new_result init) in
  Z.of_nat (length (fst (steps_lazy r))) < rlen r.
Proof. exact C09_refuted_lemma. Qed.
Print Assumptions C09_steps_refuted.

(** C10, part: results whose recorded updates are maps from integer site ids reload exactly.  Missing: updates recorded by the runners (below). *)
Theorem C10_result_json_partial : forall (r : sresult),
  json_state (r_init r) ->
  Forall (fun v => exists d, v = VDict d /\ int_keyed d) (r_diffs r) ->
  result_from_dict (json_roundtrip (result_as_dict r)) = Ok (mkR (r_init r) (r_diffs r) []).
Proof. exact C10_lemma. Qed.
Print Assumptions C10_result_json_partial.
Example C10_example : json_state demo_state /\ Forall (fun v => exists d, v = VDict d /\ int_keyed d) [demo_update 4; demo_update 7].
Proof.
  split; [exact demo_json|].
  repeat constructor; eexists; (split; [reflexivity|]); split; repeat constructor; cbn; eauto; try tauto.
Qed.

(** C10, part: recorded updates with a site part raise ValueError on reloading; general parts are dropped; all else is kept.  So exactly the results without both parts reload unchanged. *)
Theorem C10_exactly_when_partial : forall r, json_state (r_init r) -> Forall recorded (r_diffs r) ->
  (Exists (has_key SITES) (r_diffs r) -> result_from_dict (json_roundtrip (result_as_dict r)) = Err ValueError) /\
  (~ Exists (has_key SITES) (r_diffs r) ->
   exists r', result_from_dict (json_roundtrip (result_as_dict r)) = Ok r' /\ r_init r' = r_init r /\
     Forall2 (fun v v' => exists d, v = VDict d /\ v' = VDict (without_general d)) (r_diffs r) (r_diffs r')) /\
  (result_from_dict (json_roundtrip (result_as_dict r)) = Ok (mkR (r_init r) (r_diffs r) []) <->
   ~ Exists (has_key SITES) (r_diffs r) /\ ~ Exists (has_key GENERAL) (r_diffs r)).
Proof. exact C10_exactly_lemma. Qed.
Print Assumptions C10_exactly_when_partial.
Example C10_exactly_example : json_state demo_state /\ Forall recorded [demo_update 4; VDict [(KInt 2, VInt 5); (GENERAL, VDict [])]] /\
  Forall recorded [VDict [(SITES, VDict []); (KInt 0, VNone)]] /\ without_general [(KInt 2, VInt 5); (GENERAL, VDict [])] = [(KInt 2, VInt 5)].
Proof.
  split; [exact demo_json|]. split; [|split; [|reflexivity]].
  - constructor; [|constructor; [|constructor]].
    + unfold demo_update. eexists. split; [reflexivity|]. split; [repeat constructor; cbn; intuition discriminate|]. repeat constructor; cbn; eauto; try tauto.
    + eexists. split; [reflexivity|]. split; [repeat constructor; cbn; intuition discriminate|].
      constructor; [left; cbn; eauto|]. constructor; [right; right; reflexivity|constructor].
  - constructor; [|constructor]. eexists. split; [reflexivity|]. split; [repeat constructor; cbn; intuition discriminate|].
    constructor; [right; left; reflexivity|]. constructor; [left; cbn; eauto|constructor].
Qed.

(** C10 is false: no result of an asynchronous run with at least one step can be reloaded. *)
Theorem C10_async_reload_refuted : forall (C : Type) (ctl : controller C) (c0 : C) (init : sstate) (n : Z) o,
  json_state init -> run_async ctl c0 init n = Ok o -> 1 < rlen (o_result o) ->
  result_from_dict (json_roundtrip (result_as_dict (o_result o))) = Err ValueError.
Proof. exact C10_async_refuted_lemma. Qed.
Print Assumptions C10_async_reload_refuted.
Example C10_async_example : exists o, run_async demo_controller 0 demo_state 3 = Ok o /\ rlen (o_result o) = 4 /\
  result_from_dict (json_roundtrip (result_as_dict (o_result o))) = Err ValueError.
Proof. eexists. split; [vm_compute; reflexivity|split; vm_compute; reflexivity]. Qed.

(** C10 is false: no result of a serial synchronous run with at least one step can be reloaded. *)
Theorem C10_sync_reload_refuted : forall (C : Type) (ctl : controller C) (c0 : C) (init : sstate) (n : Z) o,
  json_state init -> run_sync ctl c0 init n = Ok o -> 0 < n ->
  result_from_dict (json_roundtrip (result_as_dict (o_result o))) = Err ValueError.
Proof. exact C10_sync_refuted_lemma. Qed.
Print Assumptions C10_sync_reload_refuted.
Example C10_sync_example : exists o, run_sync (pure_controller demo_rule) tt demo_state 1 = Ok o /\
  result_from_dict (json_roundtrip (result_as_dict (o_result o))) = Err ValueError.
Proof. eexists. split; vm_compute; reflexivity. Qed.

(** C10 is false: no result of a parallel run with at least one step can be reloaded. *)
Theorem C10_parallel_reload_refuted : forall (C : Type) (ctl : controller C) p sched (c0 : C) (init : sstate) (n : Z) o,
  json_state init -> run_parallel ctl p sched c0 init n = Ok o -> 0 < n ->
  result_from_dict (json_roundtrip (result_as_dict (o_result o))) =
    Err (match r_diffs (o_result o) with VNone :: _ => AttributeError | _ => ValueError end).
Proof. exact C10_parallel_refuted_lemma. Qed.
Print Assumptions C10_parallel_reload_refuted.
Example C10_parallel_example : exists o, run_parallel (pure_controller demo_rule) 2 (fun _ b => b) tt demo_state 1 = Ok o /\
  result_from_dict (json_roundtrip (result_as_dict (o_result o))) = Err ValueError.
Proof. eexists. split; vm_compute; reflexivity. Qed.

(** C10 is false: recorded general updates are dropped on reloading. *)
Theorem C10_general_reload_refuted : exists (r r' : sresult) s s',
  json_state (r_init r) /\ r_diffs r = [VDict [(GENERAL, VDict [(KStr "t", VInt 1)])]] /\
  result_from_dict (json_roundtrip (result_as_dict r)) = Ok r' /\
  get_step r 1 = Ok s /\ get_step r' 1 = Ok s' /\
  general_entry s (KStr "t") = Some (VInt 1) /\ general_entry s' (KStr "t") = Some (VInt 0).
Proof. exact C10_general_refuted_lemma. Qed.
Print Assumptions C10_general_reload_refuted.

(** C92, part: results saved under different paths are each found again at the path returned, and other files are left alone. Full claim: saving without a path never loses an earlier result (refuted below). *)
Theorem C92_saved_partial : forall calls fs, NoDup (fst (save_all calls fs)) ->
  let paths := fst (save_all calls fs) in let fs' := snd (save_all calls fs) in
  length paths = length calls /\
  (forall i r p t, nth_error calls i = Some (r, p, t) -> exists path, nth_error paths i = Some path /\ (forall q, p = Some q -> path = q) /\
     (plain_result r -> from_file path fs' = Ok (LResult (uncached r)))) /\
  (forall q, ~ In q paths -> from_file q fs' = from_file q fs).
Proof. exact C92_lemma. Qed.
Print Assumptions C92_saved_partial.
Example C92_saved_example : let r := mkR demo_state [demo_update 4; demo_update 7] [] in
  let calls := [(r, Some "a.json"%string, mkClock 2024 2 29 23 59); (r, None, mkClock 2024 2 29 23 59); (r, None, mkClock 2024 3 1 0 0)] in
  NoDup (fst (save_all calls [])) /\ length (fst (save_all calls [])) = 3%nat.
Proof. split; [|reflexivity]. vm_compute. repeat constructor; simpl; intuition discriminate. Qed.

(** C92, part: results saved without a path in different minutes are all found again. *)
Theorem C92_minutes_partial : forall rts fs, Forall (fun x => calendar (snd x)) rts -> NoDup (map snd rts) -> Forall (fun x => plain_result (fst x)) rts ->
  let s := save_all (map (fun x => (fst x, None, snd x)) rts) fs in
  forall i r t, nth_error rts i = Some (r, t) -> exists path, nth_error (fst s) i = Some path /\ from_file path (snd s) = Ok (LResult (uncached r)).
Proof. exact C92_minutes_lemma. Qed.
Print Assumptions C92_minutes_partial.
Example C92_example : Forall calendar [mkClock 2024 2 29 23 59; mkClock 2024 3 1 0 0] /\ NoDup [mkClock 2024 2 29 23 59; mkClock 2024 3 1 0 0] /\
  date_string (mkClock 2024 3 1 0 7) = "03-01-2024-00-07"%string /\ plain_result (mkR demo_state [demo_update 4; demo_update 7] []).
Proof.
  split; [repeat constructor; cbn; lia|]. split; [repeat constructor; simpl; intuition discriminate|]. split; [reflexivity|].
  split; [exact demo_json|]. repeat constructor; eexists; (split; [reflexivity|]); split; repeat constructor; cbn; eauto; try tauto.
Qed.

(** C92, part: two default paths are equal exactly if the times agree up to the minute. *)
Theorem C92_same_minute_partial : forall r r' t t' fs fs', calendar t -> calendar t' ->
  (fst (to_file r None t fs) = fst (to_file r' None t' fs') <-> t = t').
Proof. exact C92_names_lemma. Qed.
Print Assumptions C92_same_minute_partial.
Example C92_same_minute_example : let r := mkR demo_state [] [] in calendar (mkClock 2024 12 1 11 1) /\ calendar (mkClock 2024 1 21 11 1) /\
  fst (to_file r None (mkClock 2024 12 1 11 1) []) <> fst (to_file r None (mkClock 2024 1 21 11 1) []).
Proof. split; [repeat split; cbn; lia|]. split; [repeat split; cbn; lia|]. vm_compute. discriminate. Qed.

(** C92. After any series of saves a path gives the result saved there last; paths not saved to are left alone, and loading a path that never existed raises FileNotFoundError. *)
Theorem C92_last : forall calls fs q, let paths := fst (save_all calls fs) in let fs' := snd (save_all calls fs) in
  (forall i r p t, nth_error calls i = Some (r, p, t) -> nth_error paths i = Some q -> (forall k, (i < k)%nat -> nth_error paths k <> Some q) ->
     plain_result r -> from_file q fs' = Ok (LResult (uncached r))) /\
  (~ In q paths -> from_file q fs' = from_file q fs) /\
  (~ In q paths -> ~ In q (dkeys fs) -> from_file q fs' = Err FileNotFoundError).
Proof. exact C92_last_lemma. Qed.
Print Assumptions C92_last.
Example C92_last_example : let r := mkR demo_state [demo_update 4] [] in let r' := mkR demo_state [demo_update 7] [] in let t := mkClock 2024 3 1 0 7 in
  fst (save_all [(r, Some "a"%string, t); (r', None, t); (r', Some "a"%string, t)] []) = ["a"; "03-01-2024-00-07.json"; "a"]%string /\
  from_file "a" (snd (save_all [(r, Some "a"%string, t); (r', None, t); (r', Some "a"%string, t)] [])) = Ok (LResult r').
Proof. split; vm_compute; reflexivity. Qed.

(** C92 is false: a second result saved without a path in the same minute replaces the first one. *)
Theorem C92_saved_refuted : forall r r' t t' fs, plain_result r' -> c_year t = c_year t' -> c_month t = c_month t' -> c_day t = c_day t' -> c_hour t = c_hour t' -> c_minute t = c_minute t' ->
  exists path fs1 fs2, to_file r None t fs = (path, fs1) /\ to_file r' None t' fs1 = (path, fs2) /\ from_file path fs2 = Ok (LResult (uncached r')).
Proof. exact C92_refuted_lemma. Qed.
Print Assumptions C92_saved_refuted.
