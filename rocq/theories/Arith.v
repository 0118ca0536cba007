(** Arithmetic as a parameter, and numpy's one-dimensional array operations on
    top of it.  No repository code is modelled here; this file models the part
    of numpy that pylattica's geometry uses.

    The lattice and structure models are written once, over a record of
    operations.  [RealArith] gives the exact-real instance (used for the
    geometric properties), [FloatArith] an IEEE binary64 instance (used for the
    property about floating point). *)
From Verif Require Import Prelude.

Record arith (F : Type) := mkArith {
  a_add : F -> F -> F;
  a_sub : F -> F -> F;
  a_mul : F -> F -> F;
  a_div : F -> F -> F;
  a_sqrt : F -> F;
  a_abs : F -> F;
  a_ofZ : Z -> F;          (* an integer as a number *)
  a_floor : F -> F;        (* np.floor *)
  a_rint : F -> F;         (* np.round(x): nearest integer, ties to even *)
  a_eqb : F -> F -> bool;  (* x == y *)
  a_ltb : F -> F -> bool;  (* x < y *)
  a_inv : list (list F) -> res (list (list F))  (* np.linalg.inv *)
}.
Arguments a_add {F} _. Arguments a_sub {F} _. Arguments a_mul {F} _.
Arguments a_div {F} _. Arguments a_sqrt {F} _. Arguments a_abs {F} _.
Arguments a_ofZ {F} _. Arguments a_floor {F} _. Arguments a_rint {F} _.
Arguments a_eqb {F} _. Arguments a_ltb {F} _. Arguments a_inv {F} _.

(** Pairwise combination of two lists; the surplus of the longer one is dropped
    (Python's [zip]). *)
Fixpoint zipwith {A B C} (f : A -> B -> C) (l : list A) (m : list B) : list C :=
  match l, m with
  | x :: l', y :: m' => f x y :: zipwith f l' m'
  | _, _ => []
  end.

Section Numpy.
  Context {F : Type} (A : arith F).

  (** An elementwise binary operation on one-dimensional arrays: equal lengths,
      or one operand of length 1 which is repeated; anything else is numpy's
      "operands could not be broadcast together". *)
  Definition bcast (f : F -> F -> F) (u v : list F) : res (list F) :=
    if Nat.eqb (length u) (length v) then Ok (zipwith f u v)
    else match u, v with
         | [x], _ => Ok (map (f x) v)
         | _, [y] => Ok (map (fun x => f x y) u)
         | _, _ => Err ValueError
         end.

  (** [np.dot] of two vectors (also [np.square(v).sum()] with [u = v]). *)
  Fixpoint dot (u v : list F) : F :=
    match u, v with
    | x :: u', y :: v' => a_add A (a_mul A x y) (dot u' v')
    | _, _ => a_ofZ A 0
    end.

  Definition zeros (n : nat) : list F := repeat (a_ofZ A 0) n.

  (** [sum_i v_i * row_i] for rows of width [n]. *)
  Fixpoint comb (n : nat) (v : list F) (M : list (list F)) : list F :=
    match v, M with
    | x :: v', r :: M' => zipwith (a_add A) (map (a_mul A x) r) (comb n v' M')
    | _, _ => zeros n
    end.

  Definition width (M : list (list F)) : nat :=
    match M with r :: _ => length r | [] => 0%nat end.

  (** [np.dot(v, M)]: row vector times matrix. *)
  Definition vecmat (v : list F) (M : list (list F)) : res (list F) :=
    if Nat.eqb (length v) (length M) then Ok (comb (width M) v M) else Err ValueError.

  (** [M @ c]: matrix times column vector. *)
  Definition matvec (M : list (list F)) (c : list F) : res (list F) :=
    if Nat.eqb (width M) (length c) then Ok (map (fun r => dot r c) M) else Err ValueError.

  (** [np.linalg.norm(v)] *)
  Definition norm (v : list F) : F := a_sqrt A (dot v v).

  (** [np.round(x, k)] computes [rint(x * 10**k) / 10**k]. *)
  Definition roundk (p : Z) (x : F) : F := a_div A (a_rint A (a_mul A x (a_ofZ A p))) (a_ofZ A p).

  (** A boolean as a number ([np.array(periodic, dtype=int)]). *)
  Definition of_bool (b : bool) : F := a_ofZ A (if b then 1 else 0).

  (** [==] of two coordinate tuples, as a dictionary lookup compares keys. *)
  Definition vec_eqb (u v : list F) : bool := @list_eqb F (a_eqb A) u v.

  (** Row-major [reshape((d, d))] of a flat list of [d * d] numbers. *)
  Fixpoint chunks (k d : nat) (l : list F) : list (list F) :=
    match k with
    | O => []
    | S k' => firstn d l :: chunks k' d (skipn d l)
    end.
End Numpy.
