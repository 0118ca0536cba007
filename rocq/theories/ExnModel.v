(** Model of the same code as HeapModel.v, following the heap through calls that raise:
    what a call has changed before the exception stays changed. *)
From Verif Require Import Prelude Val HeapModel.

(** A call: the heap it leaves behind, and what it returns or raises.  Models CPython, not
    repository code. *)
Definition act (A : Type) : Type := heap -> heap * res A.
Definition ret {A} (x : A) : act A := fun h => (h, Ok x).
Definition reads {A} (f : heap -> res A) : act A := fun h => (h, f h).
Definition makes (o : hobj) : act hval := fun h => let '(v, h') := alloc h o in (h', Ok v).
Definition writes (l : nat) (o : hobj) : act unit := fun h => (put h l o, Ok tt).
Definition next {A B} (x : act A) (f : A -> act B) : act B :=
  fun h => match x h with (h1, Ok a) => f a h1 | (h1, Err e) => (h1, Err e) end.
Notation "'run' x <- e1 ; e2" := (next e1 (fun x => e2))
  (at level 200, x pattern, e1 at level 100, e2 at level 200, right associativity).

(** A loop [for x in l: acc = f(acc, x)]. *)
Fixpoint loop {A B} (f : A -> B -> act A) (l : list B) (a : A) : act A :=
  match l with
  | [] => ret a
  | x :: t => run a' <- f a x; loop f t a'
  end.

(** [s.copy()].  core/simulation_state.py:167-176 *)
Definition x_copy (s : nat) : act nat :=
  fun h => match h_copy h s with Ok (c, h') => (h', Ok c) | Err e => (h, Err e) end.

(** core/simulation_state.py:113-123.  The look-ups come before the new dictionary is made;
    none of them changes anything. *)
Definition x_set_general_state (s : nat) (updates : hval) : act unit :=
  run old_state <- reads (fun h => h_get_general_state h s);
  run (_, old) <- reads (fun h => get_dict h old_state);
  run (_, upd) <- reads (fun h => get_dict h updates);
  run v <- reads (fun h => state_attr h s);
  run (st, d) <- reads (fun h => get_dict h v);
  run n <- makes (ODict (dmerge old upd));
  writes st (ODict (dset GENERAL n d)).

(** core/simulation_state.py:125-139.  The look-ups come before the new dictionary is made;
    none of them changes anything. *)
Definition x_set_site_state (s : nat) (id : key) (updates : hval) : act unit :=
  run old_state <- reads (fun h => h_get_site_state h s id);
  run old <- match old_state with
             | HNone => ret [(SITE_ID, key_hval id)]
             | _ => reads (fun h => do (_, od) <- get_dict h old_state; Ok od)
             end;
  run (_, upd) <- reads (fun h => get_dict h updates);
  run v <- reads (fun h => h_sites h s);
  run (a, sd) <- reads (fun h => get_dict h v);
  run n <- makes (ODict (dmerge old upd));
  writes a (ODict (dset id n sd)).

(** The loops of core/simulation_state.py:159-160 and 164-165; the same simplification as
    [h_set_sites]. *)
Definition x_set_sites (s : nat) (items : dict key hval) : act unit :=
  loop (fun _ kv => x_set_site_state s (fst kv) (snd kv)) items tt.

(** core/simulation_state.py:141-165 *)
Definition x_batch_update (s : nat) (update_batch : hval) : act unit :=
  run (_, b) <- reads (fun h => get_dict h update_batch);
  if dmem GENERAL b then
    run items <- match dget SITES b with
                 | None => ret []
                 | Some v => reads (fun h => match get_dict h v with Ok (_, d) => Ok d | Err _ => Err AttributeError end)
                 end;
    run _ <- x_set_sites s items;
    run (_, b1) <- reads (fun h => get_dict h update_batch);
    run g <- reads (fun _ => dgetE GENERAL b1);
    x_set_general_state s g
  else x_set_sites s b.

(** core/simulation_result.py:109-130 *)
Definition x_get_step (r : hresult) (step_no : Z) : act nat :=
  match dget step_no (hr_stored r) with
  | Some stored => ret stored
  | None =>
      run state <- x_copy (hr_init r);
      run _ <- loop (fun _ ud_idx =>
                       run d <- reads (fun _ => list_getE (hr_diffs r) ud_idx); x_batch_update state d)
                    (zrange 0 step_no) tt;
      ret state
  end.

(** The loop of load_steps; the cache keeps what was stored before an exception.
    core/simulation_result.py:100-107 *)
Fixpoint x_load_loop (interval : Z) (live : nat) (stored : dict Z nat) (ud_idx : Z)
         (diffs : list hval) (h : heap) : heap * (dict Z nat * res unit) :=
  match diffs with
  | [] => (h, (stored, Ok tt))
  | d :: rest =>
      let step_no := ud_idx + 1 in
      match x_batch_update live d h with
      | (h1, Err e) => (h1, (stored, Err e))
      | (h1, Ok _) =>
          if interval =? 0 then (h1, (stored, Err ZeroDivisionError))
          else if (step_no mod interval =? 0) && negb (dmem step_no stored)
               then match x_copy live h1 with
                    | (h2, Ok c) => x_load_loop interval live (dset step_no c stored) (ud_idx + 1) rest h2
                    | (h2, Err e) => (h2, (stored, Err e))
                    end
               else x_load_loop interval live stored (ud_idx + 1) rest h1
      end
  end.

(** core/simulation_result.py:97-107: the heap, the result object and the outcome. *)
Definition x_load_steps (r : hresult) (interval : Z) (h : heap) : heap * (hresult * res unit) :=
  match x_copy (hr_init r) h with
  | (h1, Err e) => (h1, (r, Err e))
  | (h1, Ok live) =>
      match x_copy (hr_init r) h1 with
      | (h2, Err e) => (h2, (r, Err e))
      | (h2, Ok first) =>
          let '(h3, (stored, out)) := x_load_loop interval live (dset 0 first (hr_stored r)) 0 (hr_diffs r) h2 in
          (h3, (mkHR (hr_init r) (hr_diffs r) stored, out))
      end
  end.

(** [curr[k].update(d)], in place.  Used by core/runner/common.py:15-22 *)
Definition x_update_in (k : key) (d : dict key hval) (curr : hval) : act unit :=
  run (_, c) <- reads (fun h => get_dict h curr);
  run v <- reads (fun _ => dgetE k c);
  run (l, old) <- reads (fun h => get_dict h v);
  writes l (ODict (dmerge old d)).

(** core/runner/common.py:4-24 *)
Definition x_merge_updates (new_updates curr_updates : hval) (site_id : option key) : act hval :=
  match new_updates with
  | HNone => ret curr_updates
  | _ =>
      run curr <- match curr_updates with
                  | HNone =>
                      run a <- makes (ODict []);
                      run g <- makes (ODict []);
                      makes (ODict [(SITES, a); (GENERAL, g)])
                  | _ => ret curr_updates
                  end;
      run (_, nu) <- reads (fun h => get_dict h new_updates);
      if dmem SITES nu || dmem GENERAL nu then
        run ns <- reads (fun h => h_upd_arg h (dget SITES nu));
        run _ <- x_update_in SITES ns curr;
        run ng <- reads (fun h => h_upd_arg h (dget GENERAL nu));
        run _ <- x_update_in GENERAL ng curr;
        ret curr
      else if match nu with
              | [] => false
              | _ => forallb (fun kv => match fst kv with KInt _ => true | KStr _ => false end) nu
              end
      then run _ <- x_update_in SITES nu curr; ret curr
      else
        match site_id with
        | Some id => run _ <- x_update_in SITES [(id, new_updates)] curr; ret curr
        | None => reads (fun _ => Err ValueError)
        end
  end.

(** A controller whose methods may change the heap and then raise.  Simplification: its own
    attributes are not followed through an exception (a run stops there).
    core/basic_controller.py:8-31 *)
Record xcontroller (C : Type) : Type := mkXC {
  xc_pre_run : C -> nat -> act C;
  xc_random_site : C -> nat -> act (hval * C);
  xc_update : C -> key -> nat -> act (hval * C)
}.
Arguments mkXC {C} _ _ _.
Arguments xc_pre_run {C} _.
Arguments xc_random_site {C} _.
Arguments xc_update {C} _.

Section Run.
  Context {C : Type} (ctl : xcontroller C).

  (** core/runner/asynchronous_runner.py:62-67 *)
  Definition x_add_sites (live : nat) (q : list key) (c : C) : act (list key * C) :=
    run (next_site, c') <- xc_random_site ctl c live;
    match next_site with
    | HInt _ | HBool _ => run k <- reads (fun _ => hval_key next_site); ret (q ++ [k], c')
    | HRef l =>
        run ks <- reads (fun h => match nth_error h l with Some (OList vs) => mapM hval_key vs | _ => Ok [] end);
        ret (q ++ ks, c')
    | _ => ret (q, c')
    end.

  (** core/runner/asynchronous_runner.py:74-98 *)
  Fixpoint x_async_loop (n : nat) (live : nat) (r : hresult) (q : list key) (c : C) : act hresult :=
    match n with
    | O => ret r
    | S m =>
        match q with
        | [] => reads (fun _ => Err IndexError)
        | site_id :: q1 =>
            run (resp, c1) <- xc_update ctl c site_id live;
            run (ups, next_sites) <- reads (fun h => h_split h resp);
            run state_updates <- x_merge_updates ups HNone (Some site_id);
            run _ <- x_batch_update live state_updates;
            run ks <- reads (fun h => h_extend_arg h next_sites);
            let r1 := h_add_step r state_updates in
            match q1 ++ ks with
            | [] =>
                run (q3, c2) <- x_add_sites live [] c1;
                match q3 with
                | [] => ret r1
                | _ => x_async_loop m live r1 q3 c2
                end
            | q2 => x_async_loop m live r1 q2 c1
            end
        end
    end.

  (** core/runner/base_runner.py:63-70 with asynchronous_runner.py:30-98: the result and
      its [output]. *)
  Definition x_run_async (c0 : C) (initial : nat) (num_steps : Z) : act (hresult * nat) :=
    run i0 <- x_copy initial;
    run c1 <- xc_pre_run ctl c0 initial;
    run live <- x_copy initial;
    run (q, c2) <- x_add_sites live [] c1;
    match q with
    | [] => reads (fun _ => Err RuntimeError)
    | _ => run r <- x_async_loop (Z.to_nat num_steps) live (mkHR i0 [] []) q c2; ret (r, live)
    end.

  (** core/runner/synchronous_runner.py:117-125 *)
  Definition x_step_batch (ids : list key) (previous : nat) (c : C) : act (hval * C) :=
    loop (fun '(batch_updates, c) site_id =>
            run (site_updates, c') <- xc_update ctl c site_id previous;
            run b <- x_merge_updates site_updates batch_updates (Some site_id);
            ret (b, c'))
         ids (HNone, c).

  (** core/runner/synchronous_runner.py:75-79,102-108 *)
  Fixpoint x_sync_loop (n : nat) (live : nat) (r : hresult) (c : C) : act hresult :=
    match n with
    | O => ret r
    | S m =>
        run ids <- reads (fun h => h_site_ids h live);
        run (updates, c') <- x_step_batch ids live c;
        run _ <- x_batch_update live updates;
        x_sync_loop m live (h_add_step r updates) c'
    end.

  (** core/runner/base_runner.py:63-70 with synchronous_runner.py:75-82 (serial) *)
  Definition x_run_sync (c0 : C) (initial : nat) (num_steps : Z) : act (hresult * nat) :=
    run i0 <- x_copy initial;
    run c1 <- xc_pre_run ctl c0 initial;
    run live <- x_copy initial;
    run r <- x_sync_loop (Z.to_nat num_steps) live (mkHR i0 [] []) c1;
    ret (r, live).
End Run.
