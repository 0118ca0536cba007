(** Properties C05, C09, C11, C21, C72 and C105: states, results and runs as objects that may be shared. *)
From Verif Require Import Prelude Dict Val StateModel ResultModel RunnerModel HeapModel SpecHeap HeapFacts HeapMore HeapRun HeapDemo HeapSim HeapSimDemo.

(** C05. Right after s.copy() every look-up into the copy and into s gives what s gave before. *)
Theorem C05_copy_equal : forall h s m c h1, heap_ok h -> nth_error h s = Some (OState (HRef m)) ->
  h_copy h s = Ok (c, h1) ->
  forall path, observe h1 (HRef c) path = observe h (HRef s) path /\
               observe h1 (HRef s) path = observe h (HRef s) path.
Proof. exact C05_equal_lemma. Qed.
Print Assumptions C05_copy_equal.
Example C05_equal_example : heap_ok demo_heap /\ nth_error demo_heap 4 = Some (OState (HRef 3)) /\ exists c h1, h_copy demo_heap 4 = Ok (c, h1) /\ c <> 4%nat /\ observe h1 (HRef c) to_A = Some (ShInt 0).
Proof. split; [apply demo_heap_ok; discriminate|]. split; [reflexivity|]. eexists _, _. split; [reflexivity|]. split; [discriminate|reflexivity]. Qed.

(** C05. Whatever is done with the copy (and with objects sharing nothing with s) shows nowhere in s. *)
Theorem C05_copy_isolated : forall h s m c h1 others R h2, heap_ok h ->
  nth_error h s = Some (OState (HRef m)) -> h_copy h s = Ok (c, h1) ->
  (forall r x, In r others -> reach h1 r x -> ~ reach h1 s x) ->
  edits (c :: others) h1 R h2 ->
  forall path, observe h2 (HRef s) path = observe h (HRef s) path.
Proof. exact C05_copy_lemma. Qed.
Print Assumptions C05_copy_isolated.
Example C05_copy_example : exists c h1 h2 R, h_copy demo_heap 4 = Ok (c, h1) /\ edits [c; 7%nat] h1 R h2 /\ observe h2 (HRef c) to_A = Some (ShInt 9) /\ observe h2 (HRef 4) to_A = Some (ShInt 0) /\ (forall x, reach h1 7 x -> ~ reach h1 4 x).
Proof. exact copy_demo. Qed.

(** C05. Whatever is done with s (and with objects sharing nothing with the copy) shows nowhere in the copy. *)
Theorem C05_original_isolated : forall h s m c h1 others R h2, heap_ok h ->
  nth_error h s = Some (OState (HRef m)) -> h_copy h s = Ok (c, h1) ->
  (forall r x, In r others -> reach h1 r x -> ~ reach h1 c x) ->
  edits (s :: others) h1 R h2 ->
  forall path, observe h2 (HRef c) path = observe h (HRef s) path.
Proof. exact C05_original_lemma. Qed.
Print Assumptions C05_original_isolated.
Example C05_original_example : exists c h1 h2 R, h_copy demo_heap 4 = Ok (c, h1) /\ edits [4%nat; 7%nat] h1 R h2 /\ observe h2 (HRef 4) to_A = Some (ShInt 9) /\ observe h2 (HRef c) to_A = Some (ShInt 0).
Proof. exact original_demo. Qed.

(** C05. The mutating methods of SimulationState only do such edits. *)
Theorem C05_api_edits : forall h s R, reachable h R s ->
  (forall id u h', (forall m, u = HRef m -> reachable h R m) -> h_set_site_state h s id u = Ok h' ->
     exists R', edits R h R' h') /\
  (forall u h', (forall m, u = HRef m -> reachable h R m) -> h_set_general_state h s u = Ok h' ->
     exists R', edits R h R' h') /\
  (forall b h', (forall m, b = HRef m -> reachable h R m) -> h_batch_update h s b = Ok h' ->
     exists R', edits R h R' h').
Proof. exact C05_api_lemma. Qed.
Print Assumptions C05_api_edits.
Example C05_api_example : reachable demo_heap [4%nat; 7%nat] 4 /\ exists h', h_set_site_state demo_heap 4 (KInt 1) (HRef 7) = Ok h' /\ observe h' (HRef 4) to_A = Some (ShInt 9).
Proof. split; [exists 4%nat; split; [left; auto|apply reach_here]|]. eexists. split; reflexivity. Qed.

(** C05. SimulationState() is an empty state of its own: all its objects are new, and its site states and general state are different objects. *)
Theorem C05_new_state : forall h s h', heap_ok h -> h_state_of h HNone = (s, h') ->
  extends h h' /\ heap_ok h' /\ rep_state h' s s_empty /\ forall l, reach h' s l -> (length h <= l)%nat.
Proof. exact C05_new_lemma. Qed.
Print Assumptions C05_new_state.
Example C05_new_example : heap_ok demo_heap /\ exists s h' h2, h_state_of demo_heap HNone = (s, h') /\ h_set_site_state h' s (KInt 1) (HRef 7) = Ok h2 /\ observe h2 (HRef s) to_A = Some (ShInt 9).
Proof. split; [apply demo_heap_ok; discriminate|]. eexists _, _, _. split; [reflexivity|]. split; reflexivity. Qed.

(** C09. list(result.steps()) holds one object, which shows the last step. *)
Theorem C09_kept_list : forall h r R l h', rep_result h r R -> h_steps h r = Ok (l, h') ->
  exists live st, l = repeat live (length (r_diffs R)) /\
    foldM batch_update (r_diffs R) (r_init R) = Ok st /\ rep_state h' live st.
Proof. exact C09_kept_lemma. Qed.
Print Assumptions C09_kept_list.
Example C09_kept_example : rep_result demo_heap demo_hr (demo_r (VInt 5)) /\ exists l h', h_steps demo_heap demo_hr = Ok (l, h') /\ l = [18%nat].
Proof. split; [apply demo_result_rep; reflexivity|]. eexists _, _. split; reflexivity. Qed.

(** C09 is false for kept lists: an entry of list(steps()) differs from get_step of its index. *)
Theorem C09_kept_refuted : exists h r R l h' s s0 h0 path,
  heap_ok h /\ rep_result h r R /\ h_steps h r = Ok (l, h') /\ nth_error l 0 = Some s /\
  h_get_step h r 0 = Ok (s0, h0) /\
  observe h0 (HRef s0) path = Some (ShInt 0) /\ observe h' (HRef s) path = Some (ShInt 5).
Proof. exact C09_kept_refuted_lemma. Qed.
Print Assumptions C09_kept_refuted.

(** C11, part: steps not loaded into the cache, updates holding no lists, tuples or dictionaries as values. Missing: cached steps and updates with nested mutable values (both refuted below). *)
Theorem C11_edit_partial : forall h r R n s h1 others E h2,
  heap_ok h -> rep_result h r R -> Forall flat (r_diffs R) ->
  dget n (hr_stored r) = None -> h_get_step h r n = Ok (s, h1) ->
  (forall x y, In x others -> reach h1 x y -> ~ reachable h1 (roots_of r) y) ->
  edits (s :: others) h1 E h2 ->
  forall m, match get_step R m with
            | Ok st => exists s' h3, h_get_step h2 r m = Ok (s', h3) /\ rep_state h3 s' st
            | Err e => h_get_step h2 r m = Err e
            end.
Proof. exact C11_partial_lemma. Qed.
Print Assumptions C11_edit_partial.
Example C11_example : heap_ok demo_heap /\ rep_result demo_heap demo_hr (demo_r (VInt 5)) /\ Forall flat (r_diffs (demo_r (VInt 5))) /\ exists s h1, h_get_step demo_heap demo_hr 1 = Ok (s, h1) /\ observe h1 (HRef s) to_A = Some (ShInt 5).
Proof.
  split; [apply demo_heap_ok; discriminate|]. split; [apply demo_result_rep; reflexivity|]. split; [repeat constructor|].
  eexists _, _. split; reflexivity.
Qed.

(** C11 is false for loaded steps: get_step hands out the cached state itself. *)
Theorem C11_cached_refuted : exists h r R h1 r1 s h2 h3 s' h4 path,
  heap_ok h /\ rep_result h r R /\ Forall flat (r_diffs R) /\
  h_load_steps h r 1 = Ok (r1, h1) /\ h_get_step h1 r1 1 = Ok (s, h2) /\
  h_set_site_state h2 s (KInt 1) (HRef 7) = Ok h3 /\ h_get_step h3 r1 1 = Ok (s', h4) /\
  observe h2 (HRef s) path = Some (ShInt 5) /\ observe h4 (HRef s') path = Some (ShInt 9).
Proof. exact C11_cached_refuted_lemma. Qed.
Print Assumptions C11_cached_refuted.

(** C11 is false without a cache when a recorded update holds a mutable value, which the returned step then shares. *)
Theorem C11_nested_refuted : exists h r R s h2 E h3 s' h4 path,
  heap_ok h /\ rep_result h r R /\ hr_stored r = [] /\
  h_get_step h r 1 = Ok (s, h2) /\ edits [s] h2 E h3 /\ h_get_step h3 r 1 = Ok (s', h4) /\
  observe h2 (HRef s) path = Some (ShList 1) /\ observe h4 (HRef s') path = Some (ShList 2).
Proof. exact C11_nested_refuted_lemma. Qed.
Print Assumptions C11_nested_refuted.

(** C21. A run leaves the initial state (and every object that existed before) as it was, and step 0 stays the initial state whatever the caller does with those objects. *)
Theorem C21_initial_state : forall C (ctl : hcontroller C) c0 s st n h out,
  hands_off ctl -> heap_ok h -> rep_state h s st ->
  h_run_sync ctl c0 s n h = Ok out \/ h_run_async ctl c0 s n h = Ok out ->
  (forall path, observe (ho_heap out) (HRef s) path = observe h (HRef s) path) /\
  (forall l, (l < length h)%nat -> nth_error (ho_heap out) l = nth_error h l) /\
  (forall R h', edits (seq 0 (length h)) (ho_heap out) R h' ->
     exists s0 h'', h_get_step h' (ho_result out) 0 = Ok (s0, h'') /\ rep_state h'' s0 st).
Proof. exact C21_lemma. Qed.
Print Assumptions C21_initial_state.
Example C21_example : hands_off demo_hc /\ heap_ok demo_heap /\ rep_state demo_heap 4 demo_st /\
  exists out s h, h_run_sync demo_hc tt 4 2 demo_heap = Ok out /\ h_get_step (ho_heap out) (ho_result out) 2 = Ok (s, h) /\ observe h (HRef s) to_A = Some (ShInt 1).
Proof.
  split; [exact demo_hands_off|]. split; [apply demo_heap_ok; discriminate|]. split; [apply demo_state_rep|].
  eexists _, _, _. split; [vm_compute; reflexivity|]. split; [vm_compute; reflexivity|reflexivity].
Qed.

(** C72. batch_update on objects does what the plain-value model says, and touches only the two dictionaries of the state. *)
Theorem C72_batch : forall h s st b x, rep_state h s st -> rep (own_dict h s) h b x ->
  match batch_update st x with
  | Ok st' => exists h', h_batch_update h s b = Ok h' /\ rep_state h' s st' /\
                (forall l o, ~ own_dict h s l -> nth_error h l = Some o -> nth_error h' l = Some o)
  | Err e => h_batch_update h s b = Err e
  end.
Proof. exact C72_batch_lemma. Qed.
Print Assumptions C72_batch.
Example C72_batch_example : rep_state demo_heap 4 demo_st /\ rep (own_dict demo_heap 4) demo_heap (HRef 6) (VDict [(KInt 1, VDict [(A, VInt 5)])]) /\ exists h', h_batch_update demo_heap 4 (HRef 6) = Ok h' /\ observe h' (HRef 4) to_A = Some (ShInt 5).
Proof. split; [apply demo_state_rep|]. split; [exact batch_demo|]. eexists. split; reflexivity. Qed.

(** C72. get_step on objects returns an object standing for the step of the plain-value model, and changes no existing object. *)
Theorem C72_get_step : forall h r R n, rep_result h r R ->
  match get_step R n with
  | Ok st => exists s h', h_get_step h r n = Ok (s, h') /\ rep_state h' s st /\
               (forall l, (l < length h)%nat -> nth_error h' l = nth_error h l)
  | Err e => h_get_step h r n = Err e
  end.
Proof. exact C72_get_step_lemma. Qed.
Print Assumptions C72_get_step.
Example C72_get_step_example : rep_result demo_heap demo_hr (demo_r (VInt 5)) /\ exists st, get_step (demo_r (VInt 5)) 1 = Ok st /\ s_sites st = [(KInt 1, [(SITE_ID, VInt 1); (A, VInt 5)])].
Proof. split; [apply demo_result_rep; reflexivity|]. eexists. split; reflexivity. Qed.

(** C72. load_steps on objects caches what the plain-value model caches. *)
Theorem C72_load_steps : forall h r R k R' out, heap_ok h -> rep_result h r R -> load_steps R k = (R', out) ->
  match out with
  | Ok _ => exists r' h', h_load_steps h r k = Ok (r', h') /\ rep_result h' r' R' /\
              (forall l, (l < length h)%nat -> nth_error h' l = nth_error h l)
  | Err e => h_load_steps h r k = Err e
  end.
Proof. exact C72_load_lemma. Qed.
Print Assumptions C72_load_steps.
Example C72_load_example : heap_ok demo_heap /\ exists R' r' h', load_steps (demo_r (VInt 5)) 1 = (R', Ok tt) /\ h_load_steps demo_heap demo_hr 1 = Ok (r', h') /\ map fst (hr_stored r') = [0; 1].
Proof. split; [apply demo_heap_ok; discriminate|]. eexists _, _, _. split; [reflexivity|]. split; vm_compute; reflexivity. Qed.

(** C105. A synchronous run on objects: the result and the output of the run on plain values, or the same exception. *)
Theorem C105_sync : forall C (ctl : hcontroller C) (pc : controller C) K I c0 s st n h,
  mimics K I ctl pc -> heap_ok h -> rep_state h s st -> I c0 h -> (forall l, K c0 l -> ~ own_dict h s l) ->
  match run_sync pc c0 st n with
  | Ok out => exists o, h_run_sync ctl c0 s n h = Ok o /\
      rep_result (ho_heap o) (ho_result o) (o_result out) /\ rep_state (ho_heap o) (ho_output o) (o_output out) /\
      (forall l, (l < length h)%nat -> nth_error (ho_heap o) l = nth_error h l)
  | Err e => h_run_sync ctl c0 s n h = Err e
  end.
Proof. exact C105_sync_lemma. Qed.
Print Assumptions C105_sync.
Example C105_sync_example : mimics (fun c l => l = c) keeps_dict keeper keeper_plain /\ heap_ok demo_heap /\ rep_state demo_heap 4 demo_st /\ keeps_dict 7 demo_heap /\ ~ own_dict demo_heap 4 7 /\
  exists out, run_sync keeper_plain 7%nat demo_st 2 = Ok out /\ length (r_diffs (o_result out)) = 2%nat /\ s_sites (o_output out) = [(KInt 1, [(SITE_ID, VInt 1); (A, VInt 9)])].
Proof.
  split; [exact keeper_mimics|]. split; [apply demo_heap_ok; discriminate|]. split; [apply demo_state_rep|]. split; [reflexivity|]. split; [exact demo_own|].
  eexists. split; [reflexivity|]. split; reflexivity.
Qed.

(** C105. The same for asynchronous runs. *)
Theorem C105_async : forall C (ctl : hcontroller C) (pc : controller C) K I c0 s st n h,
  mimics K I ctl pc -> heap_ok h -> rep_state h s st -> I c0 h -> (forall l, K c0 l -> ~ own_dict h s l) ->
  match run_async pc c0 st n with
  | Ok out => exists o, h_run_async ctl c0 s n h = Ok o /\
      rep_result (ho_heap o) (ho_result o) (o_result out) /\ rep_state (ho_heap o) (ho_output o) (o_output out) /\
      (forall l, (l < length h)%nat -> nth_error (ho_heap o) l = nth_error h l)
  | Err e => h_run_async ctl c0 s n h = Err e
  end.
Proof. exact C105_async_lemma. Qed.
Print Assumptions C105_async.
Example C105_async_example : mimics (fun _ _ => False) (fun _ _ => True) echo echo_plain /\ heap_ok demo_heap /\ rep_state demo_heap 4 demo_st /\
  exists out, run_async echo_plain tt demo_st 2 = Ok out /\ length (r_diffs (o_result out)) = 2%nat.
Proof.
  split; [exact echo_mimics|]. split; [apply demo_heap_ok; discriminate|]. split; [apply demo_state_rep|].
  eexists. split; reflexivity.
Qed.
