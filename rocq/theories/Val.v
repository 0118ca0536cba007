(** Dynamic Python values as they occur in simulation states and updates.
    This file models CPython's data, not repository code. *)
From Verif Require Import Prelude.

(** Dictionary keys: Python ints and strings.  Simplification: other hashable
    keys (floats, tuples, bools) are not represented. *)
Inductive key : Type :=
| KInt (z : Z)
| KStr (s : string).

Definition key_eqb (a b : key) : bool :=
  match a, b with
  | KInt x, KInt y => Z.eqb x y
  | KStr x, KStr y => String.eqb x y
  | _, _ => false
  end.
#[export] Instance Eqb_key : Eqb key := key_eqb.

(** Values.  [VFloat m e] is the finite float [m * 2^e].  Simplification: an
    int and a float (or a bool and an int) are never equal here, although
    Python has [1 == 1.0 == True]. *)
Inductive val : Type :=
| VNone
| VBool (b : bool)
| VInt (z : Z)
| VFloat (m e : Z)
| VStr (s : string)
| VList (l : list val)
| VTuple (l : list val)
| VDict (d : list (key * val)).

Notation pdict := (list (key * val)).

(** Python's [==] on values.  Dictionaries compare as maps (same size, and every
    entry of the left one is found in the right one); lists and tuples compare
    element by element and never equal each other. *)
Fixpoint val_eqb (a b : val) {struct a} : bool :=
  match a, b with
  | VNone, VNone => true
  | VBool x, VBool y => Bool.eqb x y
  | VInt x, VInt y => Z.eqb x y
  | VFloat m e, VFloat m' e' => Z.eqb m m' && Z.eqb e e'
  | VStr x, VStr y => String.eqb x y
  | VList x, VList y | VTuple x, VTuple y =>
      (fix go (l1 l2 : list val) {struct l1} : bool :=
         match l1, l2 with
         | [], [] => true
         | u :: t1, v :: t2 => val_eqb u v && go t1 t2
         | _, _ => false
         end) x y
  | VDict d1, VDict d2 =>
      Nat.eqb (length d1) (length d2) &&
      (fix go (l : list (key * val)) {struct l} : bool :=
         match l with
         | [] => true
         | (k, v) :: t =>
             match dget k d2 with
             | Some w => val_eqb v w
             | None => false
             end && go t
         end) d1
  | _, _ => false
  end.

Definition key_val (k : key) : val :=
  match k with KInt z => VInt z | KStr s => VStr s end.

(** Hashing a value as a dictionary key (see [key]); unhashable values raise. *)
Definition val_key (v : val) : res key :=
  match v with
  | VInt z => Ok (KInt z)
  | VBool b => Ok (KInt (if b then 1 else 0))
  | VStr s => Ok (KStr s)
  | _ => Err TypeError
  end.

(** Python dict equality [==] of two dictionaries. *)
Definition pdict_eqb (d1 d2 : pdict) : bool := val_eqb (VDict d1) (VDict d2).

(** Constants of the code base.  core/constants.py:1-7 *)
Definition SITE_ID : key := KStr "_site_id".
Definition SITE_CLASS : key := KStr "_site_class".
Definition LOCATION : key := KStr "_location".
Definition GENERAL : key := KStr "GENERAL".
Definition SITES : key := KStr "SITES".

(** [hash(v)]: lists and dictionaries (also inside tuples) raise TypeError. *)
Fixpoint hashable (v : val) : bool :=
  match v with
  | VList _ | VDict _ => false
  | VTuple l => forallb hashable l
  | _ => true
  end.
