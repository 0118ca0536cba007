(** Vocabulary: how wide the cell of a lattice is (C26, C37). *)
From Coq Require Import Reals.
From Verif Require Import Prelude RVec.
Open Scope R_scope.

(** Moving by [x] of a periodic vector, whatever is added of the others, moves
    a point by at least [w * |x|]: the two faces of the cell crossed by a
    periodic vector are at least [w] apart. *)
Definition wide (n : nat) (vs : list vec) (per : list bool) (w : R) : Prop :=
  forall f i x, length f = n -> nth_error per i = Some true -> nth_error f i = Some x ->
    w * Rabs x <= vlength (lincomb n f vs).
