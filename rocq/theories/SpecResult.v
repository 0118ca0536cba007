(** Vocabulary for SimulationResult: histories of API calls and what a step means. *)
From Verif Require Import Prelude Val StateModel ResultModel SpecState.

(** The state after applying the first [n] recorded updates, in order, to the initial one. *)
Definition replay (init : sstate) (updates : list val) (n : nat) : res sstate :=
  foldM batch_update (firstn n updates) init.

(** API calls on a result. *)
Inductive rop : Type :=
| RAdd (updates : val)
| RLoad (interval : Z)
| RGet (step_no : Z).

Definition apply_rop (r : sresult) (o : rop) : sresult :=
  match o with
  | RAdd d => add_step r d
  | RLoad k => fst (load_steps r k)   (* also when it raises half-way *)
  | RGet _ => r
  end.

(** The updates recorded by a history. *)
Definition added (h : list rop) : list val :=
  flat_map (fun o => match o with RAdd d => [d] | _ => [] end) h.

(** JSON data: string keys (unique), no tuples. *)
Fixpoint json_clean (v : val) : Prop :=
  match v with
  | VTuple _ => False
  | VList l => (fix go l := match l with [] => True | x :: t => json_clean x /\ go t end) l
  | VDict d => uniq d /\
      (fix go (d : list (key * val)) :=
         match d with
         | [] => True
         | (k, x) :: t => (exists s, k = KStr s) /\ json_clean x /\ go t
         end) d
  | _ => True
  end.

(** A dictionary from integer site ids to JSON data. *)
Definition int_keyed (d : pdict) : Prop :=
  uniq d /\ Forall (fun kv => (exists z, fst kv = KInt z) /\ json_clean (snd kv)) d.

(** States whose site ids are integers and whose data is JSON data. *)
Definition json_state (s : sstate) : Prop :=
  uniq (s_sites s) /\
  Forall (fun kv => (exists z, fst kv = KInt z) /\ json_clean (VDict (snd kv))) (s_sites s) /\
  json_clean (VDict (s_general s)).
