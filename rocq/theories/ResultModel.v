(** Model of core/simulation_result.py (SimulationResult), value semantics. *)
From Verif Require Import Prelude Val StateModel.

(** core/simulation_result.py:32-42 *)
Record sresult : Type := mkR {
  r_init : sstate;
  r_diffs : list val;
  r_stored : dict Z sstate
}.
Definition new_result (s : sstate) : sresult := mkR s [] [].

(** core/simulation_result.py:44-61 *)
Definition add_step (r : sresult) (updates : val) : sresult :=
  mkR (r_init r) (r_diffs r ++ [updates]) (r_stored r).

(** core/simulation_result.py:63-64 *)
Definition rlen (r : sresult) : Z := Z.of_nat (length (r_diffs r)) + 1.

(** core/simulation_result.py:109-130 *)
Definition get_step (r : sresult) (step_no : Z) : res sstate :=
  match dget step_no (r_stored r) with
  | Some stored => Ok stored
  | None =>
      foldM (fun state ud_idx => do d <- list_getE (r_diffs r) ud_idx; batch_update state d)
            (zrange 0 step_no) (r_init r)
  end.

(** core/simulation_result.py:79-88 *)
Definition last_step (r : sresult) : res sstate := get_step r (rlen r - 1).

(** core/simulation_result.py:90-92 *)
Definition first_step (r : sresult) : res sstate := get_step r 0.

(** The loop of load_steps: state before the iteration, cache, remaining updates.
    An exception stops the loop but the cache entries written so far remain.
    core/simulation_result.py:100-107 *)
Fixpoint load_loop (interval : Z) (live : sstate) (stored : dict Z sstate)
         (ud_idx : Z) (diffs : list val) : dict Z sstate * res unit :=
  match diffs with
  | [] => (stored, Ok tt)
  | d :: rest =>
      let step_no := ud_idx + 1 in
      match batch_update live d with
      | Err e => (stored, Err e)
      | Ok live' =>
          if interval =? 0 then (stored, Err ZeroDivisionError)
          else
            let stored' :=
              if (step_no mod interval =? 0) &&
                 match dget step_no stored with None => true | Some _ => false end
              then dset step_no live' stored
              else stored in
            load_loop interval live' stored' (ud_idx + 1) rest
      end
  end.

(** core/simulation_result.py:97-107 *)
Definition load_steps (r : sresult) (interval : Z) : sresult * res unit :=
  let '(stored, out) :=
    load_loop interval (r_init r) (dset 0 (r_init r) (r_stored r)) 0 (r_diffs r) in
  (mkR (r_init r) (r_diffs r) stored, out).

(** The states the generator [steps()] yields when each one is inspected (or
    copied) before the next is requested; the exception, if any, that ends the
    iteration.  The last live state is never yielded.
    core/simulation_result.py:66-77 *)
Fixpoint steps_loop (live : sstate) (diffs : list val) : list sstate * res unit :=
  match diffs with
  | [] => ([], Ok tt)
  | d :: rest =>
      match batch_update live d with
      | Err e => ([live], Err e)
      | Ok live' => let '(l, out) := steps_loop live' rest in (live :: l, out)
      end
  end.
Definition steps_lazy (r : sresult) : list sstate * res unit := steps_loop (r_init r) (r_diffs r).
