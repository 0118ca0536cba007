(** Specification vocabulary for neighbourhoods drawn anew on grids built in binary64. *)
From Coq Require Import Reals.
From Flocq Require Import Core BinarySingleNaN.
From Verif Require Import Prelude Arith FloatArith LatticeModel StructModel NbModel SpecGeom SpecNb SpecGrid SpecFloat64.
Local Open Scope Z_scope.

(** Each call of [N] draws a parameter satisfying [E] and answers with the cells at the
    offsets of the shape with this parameter; each such parameter can be drawn. *)
Definition fl_draws_shape (size : list Z) (s : structure b64) (E : list Z -> Prop) (shape : list Z -> list Z -> Prop) (N : nbhood b64) : Prop :=
  let answers o e := forall x i, length x = length size -> fl_cell size s x i ->
    exists l, neighbors_of o N i = Ok l /\ NoDup l /\
      forall j, In j l <-> j <> i /\ exists d, length d = length size /\ shape e d /\ fl_cell size s (shift x d) j in
  (forall o, legal o -> exists e, E e /\ answers o e) /\ (forall e, E e -> exists o, legal o /\ answers o e).
