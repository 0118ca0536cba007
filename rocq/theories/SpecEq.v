(** Vocabulary: equality of values and states, irrespective of the order of keys. *)
From Verif Require Import Prelude Val StateModel SpecState.

Inductive same : val -> val -> Prop :=
| same_none : same VNone VNone
| same_bool b : same (VBool b) (VBool b)
| same_int z : same (VInt z) (VInt z)
| same_float m e : same (VFloat m e) (VFloat m e)
| same_str s : same (VStr s) (VStr s)
| same_list l l' : Forall2 same l l' -> same (VList l) (VList l')
| same_tuple l l' : Forall2 same l l' -> same (VTuple l) (VTuple l')
| same_dict d d' : (forall k, dget k d = None <-> dget k d' = None) ->
    (forall k v w, dget k d = Some v -> dget k d' = Some w -> same v w) -> same (VDict d) (VDict d').

Definition same_entry (o o' : option val) : Prop :=
  match o, o' with None, None => True | Some v, Some w => same v w | _, _ => False end.

(** The two states show the same sites and the same entries. *)
Definition alike (s s' : sstate) : Prop :=
  (forall i, In i (site_ids s) <-> In i (site_ids s')) /\
  (forall i k, same_entry (site_entry s i k) (site_entry s' i k)) /\
  (forall k, same_entry (general_entry s k) (general_entry s' k)).
