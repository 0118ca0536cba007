(** Vocabulary for growth on honeycombs (C116). *)
From Verif Require Import Prelude.
Local Open Scope Z_scope.

(** Number of cells to cross from a cell of a honeycomb to the one [a] steps along
    the first and [b] steps along the second lattice direction. *)
Definition hex_distance (a b : Z) : Z := Z.max (Z.max (Z.abs a) (Z.abs b)) (Z.abs (a + b)).
