(** Model of core/runner/*.py: merging of updates and the three ways to run. *)
From Verif Require Import Prelude Val StateModel ResultModel.

(** [d.update(x)] argument: must be a mapping.  Simplification: iterables of pairs,
    which Python also accepts, raise TypeError here. *)
Definition upd_arg (v : option val) : res pdict :=
  match v with None => Ok [] | Some (VDict d) => Ok d | Some _ => Err TypeError end.

(** [curr[k].update(d)]: KeyError without [k], AttributeError on a non-dict. *)
Definition update_in (k : key) (d : pdict) (curr : pdict) : res pdict :=
  match dget k curr with
  | None => Err KeyError
  | Some (VDict old) => Ok (dset k (VDict (dmerge old d)) curr)
  | Some _ => Err AttributeError
  end.

(** [set(map(type, d.keys())) == {int}] *)
Definition all_int_keys (d : pdict) : bool :=
  match d with
  | [] => false
  | _ => forallb (fun kv => match fst kv with KInt _ => true | KStr _ => false end) d
  end.

(** core/runner/common.py:4-24.  [None] arguments are [VNone]; arguments that are
    neither None nor dict raise (class simplified to TypeError).  Simplification: the
    argument of [update] is looked at before the dictionary to be updated; where both are
    malformed Python raises for the latter. *)
Definition merge_updates (new_updates curr_updates : val) (site_id : option key) : res val :=
  match new_updates with
  | VNone => Ok curr_updates
  | VDict nu =>
      do curr <- match curr_updates with
                 | VNone => Ok [(SITES, VDict []); (GENERAL, VDict [])]
                 | VDict c => Ok c
                 | _ => Err TypeError
                 end;
      if dmem SITES nu || dmem GENERAL nu then
        do ns <- upd_arg (dget SITES nu);
        do c1 <- update_in SITES ns curr;
        do ng <- upd_arg (dget GENERAL nu);
        do c2 <- update_in GENERAL ng c1;
        Ok (VDict c2)
      else if all_int_keys nu then
        do c1 <- update_in SITES nu curr; Ok (VDict c1)
      else
        match site_id with
        | Some id => do c1 <- update_in SITES [(id, VDict nu)] curr; Ok (VDict c1)
        | None => Err ValueError
        end
  | _ => Err TypeError
  end.

(** A controller: an arbitrary object with hidden state [C] (which also stands for
    random number generators); its methods may raise.  core/basic_controller.py:8-31.
    Assumption: the methods do not mutate the simulation states they are given, and
    instantiate_result is not overridden. *)
Record controller (C : Type) : Type := mkController {
  c_pre_run : C -> sstate -> res C;
  c_random_site : C -> sstate -> res (val * C);
  c_update : C -> key -> sstate -> res (val * C)
}.
Arguments c_pre_run {C} _.
Arguments c_random_site {C} _.
Arguments c_update {C} _.
Arguments mkController {C} _ _ _.

(** A pure rule as a controller without hidden state. *)
Definition pure_controller (f : key -> sstate -> res val) : controller unit :=
  mkController (fun c _ => Ok c) (fun c _ => Ok (VInt 0, c)) (fun c k s => do v <- f k s; Ok (v, c)).

Section Run.
  Context {C : Type} (ctl : controller C).

  (** core/runner/asynchronous_runner.py:62-67 (_add_sites_to_queue).
      Simplification: queue elements must be ints, bools or strings. *)
  Definition add_sites (live : sstate) (q : list key) (c : C) : res (list key * C) :=
    do (next_site, c') <- c_random_site ctl c live;
    match next_site with
    | VInt _ | VBool _ => do k <- val_key next_site; Ok (q ++ [k], c')
    | VList l => do ks <- mapM val_key l; Ok (q ++ ks, c')
    | _ => Ok (q, c')
    end.

  (** [site_queue.extend(next_sites)], asynchronous_runner.py:88.  Simplification: a string,
      of which Python would queue the characters, raises TypeError. *)
  Definition extend_arg (v : val) : res (list key) :=
    match v with
    | VList l | VTuple l => mapM val_key l
    | VDict d => Ok (map fst d)
    | _ => Err TypeError
    end.

  (** Local variables of the asynchronous loop. *)
  Record astate : Type := mkA {
    a_live : sstate;
    a_diffs : list val;
    a_queue : list key;
    a_ctl : C
  }.

  (** Unpacking the controller's answer: asynchronous_runner.py:80-84 *)
  Definition split_response (resp : val) : res (val * val) :=
    match resp with
    | VTuple [u; n] => Ok (u, n)
    | VTuple _ => Err ValueError
    | _ => Ok (resp, VList [])
    end.

  (** One iteration of the loop.  asynchronous_runner.py:74-92 *)
  Definition async_step (a : astate) : res astate :=
    match a_queue a with
    | [] => Err IndexError
    | site_id :: q1 =>
        do (resp, c1) <- c_update ctl (a_ctl a) site_id (a_live a);
        do (ups, next_sites) <- split_response resp;
        do state_updates <- merge_updates ups VNone (Some site_id);
        do live' <- batch_update (a_live a) state_updates;
        do ks <- extend_arg next_sites;
        let q2 := q1 ++ ks in
        let diffs' := a_diffs a ++ [state_updates] in
        match q2 with
        | [] => do (q3, c2) <- add_sites live' [] c1; Ok (mkA live' diffs' q3 c2)
        | _ => Ok (mkA live' diffs' q2 c1)
        end
    end.

  (** asynchronous_runner.py:74-95 ([break] when the queue stays empty) *)
  Fixpoint async_loop (n : nat) (a : astate) : res astate :=
    match n with
    | O => Ok a
    | S m =>
        do a' <- async_step a;
        match a_queue a' with
        | [] => Ok a'
        | _ => async_loop m a'
        end
    end.

  (** The result of run(): the SimulationResult and its [output] attribute. *)
  Record run_out : Type := mkRun { o_result : sresult; o_output : sstate }.

  (** core/runner/base_runner.py:63-70 with asynchronous_runner.py:30-98.
      [num_steps] negative behaves as 0 (range). *)
  Definition run_async (c0 : C) (initial : sstate) (num_steps : Z) : res run_out :=
    do c1 <- c_pre_run ctl c0 initial;
    do (q, c2) <- add_sites initial [] c1;
    match q with
    | [] => Err RuntimeError
    | _ =>
        do a <- async_loop (Z.to_nat num_steps) (mkA initial [] q c2);
        Ok (mkRun (mkR initial (a_diffs a) []) (a_live a))
    end.

  (** core/runner/synchronous_runner.py:117-125 *)
  Definition step_batch (id_batch : list key) (previous : sstate) (c : C) : res (val * C) :=
    foldM (fun '(batch_updates, c) site_id =>
             do (site_updates, c') <- c_update ctl c site_id previous;
             do b <- merge_updates site_updates batch_updates (Some site_id);
             Ok (b, c'))
          id_batch (VNone, c).

  (** core/runner/synchronous_runner.py:102-108 *)
  Definition take_step (state : sstate) (c : C) : res (val * C) := step_batch (site_ids state) state c.

  (** core/runner/synchronous_runner.py:75-79 *)
  Fixpoint sync_loop (n : nat) (live : sstate) (diffs : list val) (c : C) : res (sstate * list val * C) :=
    match n with
    | O => Ok (live, diffs, c)
    | S m =>
        do (updates, c') <- take_step live c;
        do live' <- batch_update live updates;
        sync_loop m live' (diffs ++ [updates]) c'
    end.

  (** core/runner/base_runner.py:63-70 with synchronous_runner.py:75-82 (serial) *)
  Definition run_sync (c0 : C) (initial : sstate) (num_steps : Z) : res run_out :=
    do c1 <- c_pre_run ctl c0 initial;
    do (live, diffs, _) <- sync_loop (Z.to_nat num_steps) initial [] c1;
    Ok (mkRun (mkR initial diffs []) live).

  (** [site_ids[i : i + chunk_size] for i in range(0, num_sites, chunk_size)].
      core/runner/synchronous_runner.py:88-90; a step of 0 raises ValueError. *)
  Definition site_batches (chunk_size : Z) (ids : list key) : res (list (list key)) :=
    if chunk_size =? 0 then Err ValueError
    else
      let n := Z.of_nat (length ids) in
      let count := (n + chunk_size - 1) / chunk_size in
      Ok (map (fun j => firstn (Z.to_nat chunk_size) (skipn (Z.to_nat (j * chunk_size)) ids))
              (zrange 0 count)).

  (** [math.ceil(num_sites / PROCESSES)], exact (true division of integers below 2^53).
      core/runner/synchronous_runner.py:61-62 *)
  Definition chunk_size_of (n p : Z) : res Z :=
    if p =? 0 then Err ZeroDivisionError else Ok (- ((- n) / p)).

  (** Worker processes: each has its own forked copy of the initial state and of the
      controller, indexed by worker number.  core/runner/synchronous_runner.py:50-66 *)
  Definition workers := nat -> sstate * C.
  Definition set_worker (ws : workers) (w : nat) (x : sstate * C) : workers :=
    fun i => if Nat.eqb i w then x else ws i.

  (** One task: core/runner/synchronous_runner.py:111-114 *)
  Definition worker_task (last_updates : val) (batch : list key) (l : sstate * C)
    : res (val * (sstate * C)) :=
    do s <- batch_update (fst l) last_updates;
    do (u, c') <- step_batch batch s (snd l);
    Ok (u, (s, c')).

  (** [pool.starmap]: results in task order; [sched b] is the worker that the pool gives
      task [b] to (arbitrary).  core/runner/synchronous_runner.py:92-95 *)
  Fixpoint starmap (sched : nat -> nat) (last_updates : val) (b : nat)
           (batches : list (list key)) (ws : workers) : res (list val * workers) :=
    match batches with
    | [] => Ok ([], ws)
    | batch :: rest =>
        let w := sched b in
        do (u, l') <- worker_task last_updates batch (ws w);
        do (us, ws') <- starmap sched last_updates (S b) rest (set_worker ws w l');
        Ok (u :: us, ws')
    end.

  (** core/runner/synchronous_runner.py:96-100 *)
  Definition merge_results (results : list val) : res val :=
    foldM (fun all_updates batch_update_res => merge_updates all_updates batch_update_res None)
          results VNone.

  (** core/runner/synchronous_runner.py:84-100 *)
  Definition take_step_parallel (sched : nat -> nat) (ids : list key) (updates : val) (chunk_size : Z)
             (ws : workers) : res (val * workers) :=
    do batches <- site_batches chunk_size ids;
    do (results, ws') <- starmap sched updates 0 batches ws;
    do all_updates <- merge_results results;
    Ok (all_updates, ws').

  (** core/runner/synchronous_runner.py:67-73; [sched t b]: worker for task [b] of step [t] *)
  Fixpoint par_loop (sched : nat -> nat -> nat) (t n : nat) (ids : list key) (chunk_size : Z)
           (updates : val) (diffs : list val) (ws : workers) : res (list val) :=
    match n with
    | O => Ok diffs
    | S m =>
        do (updates', ws') <- take_step_parallel (sched t) ids updates chunk_size ws;
        par_loop sched (S t) m ids chunk_size updates' (diffs ++ [updates']) ws'
    end.

  (** core/runner/base_runner.py:63-70 with synchronous_runner.py:50-73,81-82; the live
      state is never touched.  Pool(p) rejects p < 1 with ValueError. *)
  Definition run_parallel (p : Z) (sched : nat -> nat -> nat) (c0 : C) (initial : sstate)
             (num_steps : Z) : res run_out :=
    do c1 <- c_pre_run ctl c0 initial;
    do chunk_size <- chunk_size_of (size initial) p;
    if p <? 1 then Err ValueError
    else
      do diffs <- par_loop sched 0 (Z.to_nat num_steps) (site_ids initial) chunk_size
                           (VDict []) [] (fun _ => (initial, c1));
      Ok (mkRun (mkR initial diffs []) initial).
End Run.
Arguments mkA {C}.
Arguments a_live {C}.
Arguments a_diffs {C}.
Arguments a_queue {C}.
Arguments a_ctl {C}.
