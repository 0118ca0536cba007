(** Vocabulary for honeycomb tilings. *)
From Coq Require Import Reals.
From Verif Require Import Prelude Arith RealArith LatticeModel StructModel NbModel GridModel SpecGeom SpecNb.
Local Open Scope Z_scope.

(** [s] is the honeycomb tiling with [n] x [m] cells. *)
Definition honeycomb (n m : Z) (s : structure R) : Prop :=
  exists b, HoneycombTilingBuilder RA = Ok b /\ build RA b (SzTuple [n; m]) = Ok s.

(** Steps along the two lattice directions to the six cells sharing an edge. *)
Definition hexes : list (Z * Z) := [(1, 0); (-1, 0); (0, 1); (0, -1); (1, -1); (-1, 1)].

(** Number of the cell (i, j) of the torus, cells counted row by row. *)
Definition hex_id (n m i j : Z) : Z := (i mod n) * m + j mod m.

(** The six cells around (i, j). *)
Definition six (n m i j : Z) : list Z := map (fun d => hex_id n m (i + fst d) (j + snd d)) hexes.

(** Where the centre of the cell (i, j) lies. *)
Definition hex_centre (i j : Z) : list R := [IZR i + IZR j / 2 + 3/4; (IZR j + 1/2) * (sqrt 3 / 2)]%R.
