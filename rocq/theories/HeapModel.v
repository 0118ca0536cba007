(** Model of the same code as StateModel.v, ResultModel.v and RunnerModel.v with object
    identity: dictionaries, lists, tuples and states live in a heap and are shared by
    reference, so that aliasing between states, results and updates is visible. *)
From Verif Require Import Prelude Val.

(** References to values: immutable scalars, or the location of an object.  Models
    CPython, not repository code. *)
Inductive hval : Type :=
| HNone
| HBool (b : bool)
| HInt (z : Z)
| HFloat (m e : Z)
| HStr (s : string)
| HRef (l : nat).

(** Objects.  [OState v] is a SimulationState whose only attribute [_state] is [v]
    (core/simulation_state.py:41-55). *)
Inductive hobj : Type :=
| ODict (d : dict key hval)
| OList (l : list hval)
| OTuple (l : list hval)
| OState (v : hval).

(** The heap: location [l] holds the [l]-th object; new objects go to the end.
    Simplification: nothing is ever collected. *)
Notation heap := (list hobj).

Definition alloc (h : heap) (o : hobj) : hval * heap := (HRef (length h), h ++ [o]).

(** Overwriting the contents of an object in place. *)
Fixpoint put (h : heap) (l : nat) (o : hobj) : heap :=
  match h, l with
  | [], _ => []
  | _ :: t, O => o :: t
  | x :: t, S m => x :: put t m o
  end.

(** The dictionary a value refers to, with its location; TypeError otherwise
    (CPython raises TypeError or AttributeError depending on the use). *)
Definition get_dict (h : heap) (v : hval) : res (nat * dict key hval) :=
  match v with
  | HRef l => match nth_error h l with Some (ODict d) => Ok (l, d) | _ => Err TypeError end
  | _ => Err TypeError
  end.

(** A key as a value, and back. *)
Definition key_hval (k : key) : hval :=
  match k with KInt z => HInt z | KStr s => HStr s end.
Definition hval_key (v : hval) : res key :=
  match v with
  | HInt z => Ok (KInt z)
  | HBool b => Ok (KInt (if b then 1 else 0))
  | HStr s => Ok (KStr s)
  | _ => Err TypeError
  end.

(** [copy.deepcopy]: every object is copied to a fresh location, once (the memo keeps
    sharing and cycles).  Simplification: the whole heap is copied, not only what the
    value reaches; copies nobody refers to are garbage.  (CPython keeps a tuple without
    mutable parts uncopied; tuples are never written to.) *)
Definition shift (n : nat) (v : hval) : hval :=
  match v with HRef l => HRef (n + l) | _ => v end.
Definition shift_obj (n : nat) (o : hobj) : hobj :=
  match o with
  | ODict d => ODict (map (fun kv => (fst kv, shift n (snd kv))) d)
  | OList l => OList (map (shift n) l)
  | OTuple l => OTuple (map (shift n) l)
  | OState v => OState (shift n v)
  end.
Definition deepcopy (h : heap) (v : hval) : hval * heap :=
  (shift (length h) v, h ++ map (shift_obj (length h)) h).

(** [s._state] *)
Definition state_attr (h : heap) (s : nat) : res hval :=
  match nth_error h s with Some (OState v) => Ok v | _ => Err AttributeError end.

(** [SimulationState()].  core/simulation_state.py:49-53 *)
Definition h_new_state (h : heap) : nat * heap :=
  let '(a, h1) := alloc h (ODict []) in
  let '(g, h2) := alloc h1 (ODict []) in
  let '(st, h3) := alloc h2 (ODict [(SITES, a); (GENERAL, g)]) in
  (length h3, h3 ++ [OState st]).

(** [SimulationState(state)].  core/simulation_state.py:41-55 *)
Definition h_state_of (h : heap) (state : hval) : nat * heap :=
  match state with
  | HNone => h_new_state h
  | _ => let '(v, h1) := deepcopy h state in (length h1, h1 ++ [OState v])
  end.

(** copy().  core/simulation_state.py:167-176 *)
Definition h_copy (h : heap) (s : nat) : res (nat * heap) :=
  do v <- state_attr h s; Ok (h_state_of h v).

(** [self._state[SITES]].  core/simulation_state.py:75,86,101,135 *)
Definition h_sites (h : heap) (s : nat) : res hval :=
  do v <- state_attr h s;
  do (_, d) <- get_dict h v;
  dgetE SITES d.

(** core/simulation_state.py:68-75 *)
Definition h_site_ids (h : heap) (s : nat) : res (list key) :=
  do v <- h_sites h s;
  do (_, sd) <- get_dict h v;
  Ok (dkeys sd).

(** The live inner dictionary, or None.  core/simulation_state.py:88-101 *)
Definition h_get_site_state (h : heap) (s : nat) (id : key) : res hval :=
  do v <- h_sites h s;
  do (_, sd) <- get_dict h v;
  Ok (match dget id sd with Some w => w | None => HNone end).

(** The live inner dictionary, or None.  core/simulation_state.py:103-111 *)
Definition h_get_general_state (h : heap) (s : nat) : res hval :=
  do v <- state_attr h s;
  do (_, d) <- get_dict h v;
  Ok (match dget GENERAL d with Some w => w | None => HNone end).

(** core/simulation_state.py:113-123: a fresh dictionary replaces the old one *)
Definition h_set_general_state (h : heap) (s : nat) (updates : hval) : res heap :=
  do old_state <- h_get_general_state h s;
  do (_, old) <- get_dict h old_state;
  do (_, upd) <- get_dict h updates;
  do v <- state_attr h s;
  do (st, d) <- get_dict h v;
  let '(n, h1) := alloc h (ODict (dmerge old upd)) in
  Ok (put h1 st (ODict (dset GENERAL n d))).

(** core/simulation_state.py:125-139: a fresh dictionary replaces the old one *)
Definition h_set_site_state (h : heap) (s : nat) (id : key) (updates : hval) : res heap :=
  do old_state <- h_get_site_state h s id;
  do old <- match old_state with
            | HNone => Ok [(SITE_ID, key_hval id)]
            | _ => do (_, od) <- get_dict h old_state; Ok od
            end;
  do (_, upd) <- get_dict h updates;
  do v <- h_sites h s;
  do (a, sd) <- get_dict h v;
  let '(n, h1) := alloc h (ODict (dmerge old upd)) in
  Ok (put h1 a (ODict (dset id n sd))).

(** The loops of core/simulation_state.py:159-160 and 164-165.  Simplification: the items
    are those at the start of the loop (a batch that is the state's own dictionary of
    sites only has its values replaced meanwhile). *)
Definition h_set_sites (h : heap) (s : nat) (items : dict key hval) : res heap :=
  foldM (fun h kv => h_set_site_state h s (fst kv) (snd kv)) items h.

(** core/simulation_state.py:141-165 *)
Definition h_batch_update (h : heap) (s : nat) (update_batch : hval) : res heap :=
  do (_, b) <- get_dict h update_batch;
  if dmem GENERAL b then
    do items <- match dget SITES b with
                | None => Ok []
                | Some v => match get_dict h v with Ok (_, d) => Ok d | Err _ => Err AttributeError end
                end;
    do h1 <- h_set_sites h s items;
    do (_, b1) <- get_dict h1 update_batch;
    do g <- dgetE GENERAL b1;
    h_set_general_state h1 s g
  else h_set_sites h s b.

(** A SimulationResult: references to its initial state, its diffs and its cache.
    core/simulation_result.py:32-42 *)
Record hresult : Type := mkHR {
  hr_init : nat;
  hr_diffs : list hval;
  hr_stored : dict Z nat
}.

(** core/simulation_result.py:44-61: the update object itself is kept *)
Definition h_add_step (r : hresult) (updates : hval) : hresult :=
  mkHR (hr_init r) (hr_diffs r ++ [updates]) (hr_stored r).

(** core/simulation_result.py:109-130: a cached state is returned itself, otherwise a copy
    of the initial state is brought up to date *)
Definition h_get_step (h : heap) (r : hresult) (step_no : Z) : res (nat * heap) :=
  match dget step_no (hr_stored r) with
  | Some stored => Ok (stored, h)
  | None =>
      do (state, h1) <- h_copy h (hr_init r);
      do h2 <- foldM (fun h ud_idx =>
                        do d <- list_getE (hr_diffs r) ud_idx; h_batch_update h state d)
                     (zrange 0 step_no) h1;
      Ok (state, h2)
  end.

(** The loop of load_steps, which caches copies of the live state.
    core/simulation_result.py:100-107 *)
Fixpoint h_load_loop (interval : Z) (live : nat) (stored : dict Z nat) (ud_idx : Z)
         (diffs : list hval) (h : heap) : res (dict Z nat * heap) :=
  match diffs with
  | [] => Ok (stored, h)
  | d :: rest =>
      let step_no := ud_idx + 1 in
      do h1 <- h_batch_update h live d;
      if interval =? 0 then Err ZeroDivisionError
      else if (step_no mod interval =? 0) && negb (dmem step_no stored)
           then do (c, h2) <- h_copy h1 live;
                h_load_loop interval live (dset step_no c stored) (ud_idx + 1) rest h2
           else h_load_loop interval live stored (ud_idx + 1) rest h1
  end.

(** core/simulation_result.py:97-107.  Simplification: the effects of a call that raises
    are not followed (ExnModel.v does). *)
Definition h_load_steps (h : heap) (r : hresult) (interval : Z) : res (hresult * heap) :=
  do (live, h1) <- h_copy h (hr_init r);
  do (first, h2) <- h_copy h1 (hr_init r);
  do (stored, h3) <- h_load_loop interval live (dset 0 first (hr_stored r)) 0 (hr_diffs r) h2;
  Ok (mkHR (hr_init r) (hr_diffs r) stored, h3).

(** [list(result.steps())]: the generator yields the same live object each time.
    core/simulation_result.py:66-77 *)
Fixpoint h_steps_loop (live : nat) (diffs : list hval) (h : heap) : res (list nat * heap) :=
  match diffs with
  | [] => Ok ([], h)
  | d :: rest =>
      do h1 <- h_batch_update h live d;
      do (l, h2) <- h_steps_loop live rest h1;
      Ok (live :: l, h2)
  end.
Definition h_steps (h : heap) (r : hresult) : res (list nat * heap) :=
  do (live, h1) <- h_copy h (hr_init r);
  h_steps_loop live (hr_diffs r) h1.

(** [curr[k].update(d)], in place.  Used by core/runner/common.py:15-22 *)
Definition h_update_in (h : heap) (k : key) (d : dict key hval) (curr : hval) : res heap :=
  do (_, c) <- get_dict h curr;
  do v <- dgetE k c;
  do (l, old) <- get_dict h v;
  Ok (put h l (ODict (dmerge old d))).

(** The argument of [update]: a missing one is [{}]. *)
Definition h_upd_arg (h : heap) (v : option hval) : res (dict key hval) :=
  match v with None => Ok [] | Some w => do (_, d) <- get_dict h w; Ok d end.

(** core/runner/common.py:4-24 *)
Definition h_merge_updates (h : heap) (new_updates curr_updates : hval) (site_id : option key)
  : res (hval * heap) :=
  match new_updates with
  | HNone => Ok (curr_updates, h)
  | _ =>
      let '(curr, h0) :=
        match curr_updates with
        | HNone =>
            let '(a, h1) := alloc h (ODict []) in
            let '(g, h2) := alloc h1 (ODict []) in
            alloc h2 (ODict [(SITES, a); (GENERAL, g)])
        | _ => (curr_updates, h)
        end in
      do (_, nu) <- get_dict h0 new_updates;
      if dmem SITES nu || dmem GENERAL nu then
        do ns <- h_upd_arg h0 (dget SITES nu);
        do h3 <- h_update_in h0 SITES ns curr;
        do ng <- h_upd_arg h3 (dget GENERAL nu);
        do h4 <- h_update_in h3 GENERAL ng curr;
        Ok (curr, h4)
      else if match nu with
              | [] => false
              | _ => forallb (fun kv => match fst kv with KInt _ => true | KStr _ => false end) nu
              end
      then do h3 <- h_update_in h0 SITES nu curr; Ok (curr, h3)
      else
        match site_id with
        | Some id => do h3 <- h_update_in h0 SITES [(id, new_updates)] curr; Ok (curr, h3)
        | None => Err ValueError
        end
  end.

(** A controller: its methods see the heap and a state object in it, and return an object;
    they may allocate.  core/basic_controller.py:8-31 *)
Record hcontroller (C : Type) : Type := mkHC {
  hc_pre_run : C -> nat -> heap -> res (C * heap);
  hc_random_site : C -> nat -> heap -> res (hval * C * heap);
  hc_update : C -> key -> nat -> heap -> res (hval * C * heap)
}.
Arguments hc_pre_run {C} _.
Arguments hc_random_site {C} _.
Arguments hc_update {C} _.

Section Run.
  Context {C : Type} (ctl : hcontroller C).

  (** core/runner/asynchronous_runner.py:62-67 *)
  Definition h_add_sites (live : nat) (q : list key) (c : C) (h : heap) : res (list key * C * heap) :=
    do (next_site, c', h1) <- hc_random_site ctl c live h;
    match next_site with
    | HInt _ | HBool _ => do k <- hval_key next_site; Ok (q ++ [k], c', h1)
    | HRef l =>
        match nth_error h1 l with
        | Some (OList vs) => do ks <- mapM hval_key vs; Ok (q ++ ks, c', h1)
        | _ => Ok (q, c', h1)
        end
    | _ => Ok (q, c', h1)
    end.

  (** core/runner/asynchronous_runner.py:80-84; [None] stands for the empty list of
      next sites *)
  Definition h_split (h : heap) (resp : hval) : res (hval * option hval) :=
    match resp with
    | HRef l =>
        match nth_error h l with
        | Some (OTuple [u; n]) => Ok (u, Some n)
        | Some (OTuple _) => Err ValueError
        | _ => Ok (resp, None)
        end
    | _ => Ok (resp, None)
    end.

  (** [site_queue.extend(next_sites)] *)
  Definition h_extend_arg (h : heap) (v : option hval) : res (list key) :=
    match v with
    | None => Ok []
    | Some (HRef l) =>
        match nth_error h l with
        | Some (OList vs) | Some (OTuple vs) => mapM hval_key vs
        | Some (ODict d) => Ok (map fst d)
        | _ => Err TypeError
        end
    | Some _ => Err TypeError
    end.

  (** core/runner/asynchronous_runner.py:74-98 *)
  Fixpoint h_async_loop (n : nat) (live : nat) (r : hresult) (q : list key) (c : C) (h : heap)
    : res (hresult * heap) :=
    match n with
    | O => Ok (r, h)
    | S m =>
        match q with
        | [] => Err IndexError
        | site_id :: q1 =>
            do (resp, c1, h1) <- hc_update ctl c site_id live h;
            do (ups, next_sites) <- h_split h1 resp;
            do (state_updates, h2) <- h_merge_updates h1 ups HNone (Some site_id);
            do h3 <- h_batch_update h2 live state_updates;
            do ks <- h_extend_arg h3 next_sites;
            let r1 := h_add_step r state_updates in
            match q1 ++ ks with
            | [] =>
                do (q3, c2, h4) <- h_add_sites live [] c1 h3;
                match q3 with
                | [] => Ok (r1, h4)
                | _ => h_async_loop m live r1 q3 c2 h4
                end
            | q2 => h_async_loop m live r1 q2 c1 h3
            end
        end
    end.

  (** What [run] returns: the result, its [output] (the live state) and the heap. *)
  Record h_out : Type := mkHO { ho_result : hresult; ho_output : nat; ho_heap : heap }.

  (** core/runner/base_runner.py:63-70 with asynchronous_runner.py:30-98 *)
  Definition h_run_async (c0 : C) (initial : nat) (num_steps : Z) (h : heap) : res h_out :=
    do (i0, h1) <- h_copy h initial;
    let result := mkHR i0 [] [] in
    do (c1, h2) <- hc_pre_run ctl c0 initial h1;
    do (live, h3) <- h_copy h2 initial;
    do (q, c2, h4) <- h_add_sites live [] c1 h3;
    match q with
    | [] => Err RuntimeError
    | _ =>
        do (r, h5) <- h_async_loop (Z.to_nat num_steps) live result q c2 h4;
        Ok (mkHO r live h5)
    end.

  (** core/runner/synchronous_runner.py:117-125 *)
  Definition h_step_batch (ids : list key) (previous : nat) (c : C) (h : heap)
    : res (hval * C * heap) :=
    foldM (fun '(batch_updates, c, h) site_id =>
             do (site_updates, c', h1) <- hc_update ctl c site_id previous h;
             do (b, h2) <- h_merge_updates h1 site_updates batch_updates (Some site_id);
             Ok (b, c', h2))
          ids (HNone, c, h).

  (** core/runner/synchronous_runner.py:75-79,102-108 *)
  Fixpoint h_sync_loop (n : nat) (live : nat) (r : hresult) (c : C) (h : heap)
    : res (hresult * heap) :=
    match n with
    | O => Ok (r, h)
    | S m =>
        do ids <- h_site_ids h live;
        do (updates, c', h1) <- h_step_batch ids live c h;
        do h2 <- h_batch_update h1 live updates;
        h_sync_loop m live (h_add_step r updates) c' h2
    end.

  (** core/runner/base_runner.py:63-70 with synchronous_runner.py:75-82 (serial) *)
  Definition h_run_sync (c0 : C) (initial : nat) (num_steps : Z) (h : heap) : res h_out :=
    do (i0, h1) <- h_copy h initial;
    do (c1, h2) <- hc_pre_run ctl c0 initial h1;
    do (live, h3) <- h_copy h2 initial;
    do (r, h4) <- h_sync_loop (Z.to_nat num_steps) live (mkHR i0 [] []) c1 h3;
    Ok (mkHO r live h4).
End Run.
