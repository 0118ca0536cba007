(** Property C108: what calls that raise leave behind. *)
From Verif Require Import Prelude Dict Val StateModel ResultModel HeapModel ExnModel SpecHeap SpecExn HeapFacts HeapMore HeapRun SpecResult HeapDemo ExnFacts ExnDemo LoadCache.

(** C108. A batch_update that raises has applied the entries for sites in front of the one that is no dictionary, completely and in order, and nothing else; a batch that is no dictionary changes nothing. Only the two dictionaries of the state are written to. *)
Theorem C108_batch : forall h s st b x h' out, rep_state h s st -> rep (own_dict h s) h b x -> x_batch_update s b h = (h', out) ->
  (forall l o, ~ own_dict h s l -> nth_error h l = Some o -> nth_error h' l = Some o) /\
  match out with
  | Ok _ => exists st', batch_update st x = Ok st' /\ rep_state h' s st'
  | Err e => batch_update st x = Err e /\
      match x with
      | VDict B => exists p rest st', site_entries B = p ++ rest /\ applied st p st' /\ rep_state h' s st' /\
          match rest with
          | (k, v) :: _ => not_dict v
          | [] => exists g, dget GENERAL B = Some g /\ (not_dict g \/ exists v, dget SITES B = Some v /\ not_dict v)
          end
      | _ => h' = h
      end
  end.
Proof. exact C108_batch_lemma. Qed.
Print Assumptions C108_batch.
Example C108_batch_example : rep_state exn_heap 4 demo_st /\ rep (own_dict exn_heap 4) exn_heap (HRef 9) (VDict exn_batch) /\
  exists h', x_batch_update 4 (HRef 9) exn_heap = (h', Err TypeError) /\ observe exn_heap (HRef 4) to_A = Some (ShInt 0) /\ observe h' (HRef 4) to_A = Some (ShInt 5).
Proof. split; [exact exn_state|]. split; [exact exn_batch_rep|]. eexists. split; [reflexivity|]. split; reflexivity. Qed.

(** C108. A load_steps that raises leaves the cache that the plain-value model says (next two theorems); no existing object is changed. *)
Theorem C108_load_steps : forall h r R k R' out, heap_ok h -> rep_result h r R -> load_steps R k = (R', out) ->
  exists r' h', x_load_steps r k h = (h', (r', out)) /\ rep_result h' r' R' /\
    (forall l, (l < length h)%nat -> nth_error h' l = nth_error h l).
Proof. exact C108_load_lemma. Qed.
Print Assumptions C108_load_steps.
Example C108_load_example : heap_ok demo_heap /\ rep_result demo_heap exn_hr exn_r /\ exists R' r' h', load_steps exn_r 1 = (R', Err TypeError) /\ x_load_steps exn_hr 1 demo_heap = (h', (r', Err TypeError)) /\ map fst (hr_stored r') = [0; 1].
Proof. split; [apply demo_heap_ok; discriminate|]. split; [exact exn_result|]. eexists _, _, _. split; [reflexivity|]. split; vm_compute; reflexivity. Qed.

(** C108. What load_steps has cached when it returns or raises: the initial state, what was cached before, and the multiples of the interval in front of the first update that raises. It raises exactly if an update does, with the same exception. *)
Theorem C108_cache : forall r k r' out, k <> 0 -> load_steps r k = (r', out) ->
  r_init r' = r_init r /\ r_diffs r' = r_diffs r /\
  out = match replay (r_init r) (r_diffs r) (length (r_diffs r)) with Ok _ => Ok tt | Err e => Err e end /\
  (forall i s, dget i (r_stored r') = Some s <->
     (i = 0 /\ s = r_init r) \/ (i <> 0 /\ dget i (r_stored r) = Some s) \/
     (dget i (r_stored r) = None /\ 0 < i < rlen r /\ (k | i) /\ replay (r_init r) (r_diffs r) (Z.to_nat i) = Ok s)).
Proof. exact C108_cache_lemma. Qed.
Print Assumptions C108_cache.
Example C108_cache_example : exists r', load_steps exn_r 1 = (r', Err TypeError) /\ dkeys (r_stored r') = [0; 1] /\ rlen exn_r = 3.
Proof. eexists. split; [reflexivity|]. split; reflexivity. Qed.

(** C108. With interval 0 only the initial state is cached, and load_steps raises if there is an update. *)
Theorem C108_interval : forall r r' out, load_steps r 0 = (r', out) ->
  r_init r' = r_init r /\ r_diffs r' = r_diffs r /\ (out = Ok tt <-> r_diffs r = []) /\
  (forall i s, dget i (r_stored r') = Some s <-> (i = 0 /\ s = r_init r) \/ (i <> 0 /\ dget i (r_stored r) = Some s)).
Proof. exact C108_interval_lemma. Qed.
Print Assumptions C108_interval.
Example C108_interval_example : exists r', load_steps exn_r 0 = (r', Err ZeroDivisionError) /\ dkeys (r_stored r') = [0].
Proof. eexists. split; reflexivity. Qed.

(** C108. get_step changes no existing object, whether it returns or raises. *)
Theorem C108_get_step : forall h r R n h' out, rep_result h r R -> x_get_step r n h = (h', out) ->
  (forall l, (l < length h)%nat -> nth_error h' l = nth_error h l) /\
  match out with
  | Ok s => exists st, get_step R n = Ok st /\ rep_state h' s st
  | Err e => get_step R n = Err e
  end.
Proof. exact C108_get_step_lemma. Qed.
Print Assumptions C108_get_step.
Example C108_get_step_example : rep_result demo_heap exn_hr exn_r /\ exists h', x_get_step exn_hr 2 demo_heap = (h', Err TypeError) /\ (length demo_heap < length h')%nat.
Proof. split; [exact exn_result|]. eexists. split; [vm_compute; reflexivity|vm_compute; repeat constructor]. Qed.

(** C108. A run that raises leaves the initial state, and every object that existed, as they were. *)
Theorem C108_run : forall C (ctl : xcontroller C) c0 s st n h h' out,
  only_makes ctl -> heap_ok h -> rep_state h s st ->
  x_run_sync ctl c0 s n h = (h', out) \/ x_run_async ctl c0 s n h = (h', out) ->
  (forall path, observe h' (HRef s) path = observe h (HRef s) path) /\
  (forall l, (l < length h)%nat -> nth_error h' l = nth_error h l).
Proof. exact C108_run_lemma. Qed.
Print Assumptions C108_run.
Example C108_run_example : only_makes exn_xc /\ heap_ok demo_heap /\ rep_state demo_heap 4 demo_st /\
  exists h' h'', x_run_sync exn_xc 0%nat 4 3 demo_heap = (h', Err KeyError) /\ x_run_async exn_xc 0%nat 4 3 demo_heap = (h'', Err KeyError) /\ (length demo_heap < length h')%nat.
Proof.
  split; [exact exn_makes|]. split; [apply demo_heap_ok; discriminate|]. split; [apply demo_state_rep|].
  eexists _, _. split; [vm_compute; reflexivity|]. split; [vm_compute; reflexivity|vm_compute; repeat constructor].
Qed.

(** C108. Apart from the heap after an exception, runs are those of C21 and C105. *)
Theorem C108_agrees : forall C (ctl : xcontroller C) c0 s n h,
  h_run_sync (answers_of ctl) c0 s n h = (do (r, h') <- answer (x_run_sync ctl c0 s n h); Ok (mkHO (fst r) (snd r) h')) /\
  h_run_async (answers_of ctl) c0 s n h = (do (r, h') <- answer (x_run_async ctl c0 s n h); Ok (mkHO (fst r) (snd r) h')).
Proof. exact C108_agrees_lemma. Qed.
Print Assumptions C108_agrees.
Example C108_agrees_example : exists out, h_run_sync (answers_of exn_xc) 0%nat 4 1 demo_heap = Ok out /\ h_run_sync (answers_of exn_xc) 0%nat 4 3 demo_heap = Err KeyError /\ observe (ho_heap out) (HRef (ho_output out)) to_A = Some (ShInt 1).
Proof. eexists. split; [vm_compute; reflexivity|]. split; vm_compute; reflexivity. Qed.
