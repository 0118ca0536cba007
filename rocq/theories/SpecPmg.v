(** Vocabulary for conversions to and from pymatgen. *)
From Coq Require Import Reals Permutation.
From Verif Require Import Prelude Val Arith RVec RealArith LatticeModel StructModel StateModel SpecGeom SpecSetup PmgModel.
Local Open Scope R_scope.

(** Three-dimensional crystals: independent vectors, three fractional
    coordinates per atom. *)
Definition crystal (P : pmg_struct R) : Prop :=
  basis 3 (g_matrix P) /\ Forall (fun a => length (snd a) = 3%nat) (g_sites P).

(** Periodic in every direction. *)
Definition everywhere : list bool := [true; true; true].

(** The species and Cartesian positions of the atoms. *)
Definition atoms (P : pmg_struct R) : list (string * vec) :=
  map (fun a => (fst a, lincomb 3 (snd a) (g_matrix P))) (g_sites P).

(** Equal to within half a thousandth in every coordinate. *)
Definition near (p q : vec) : Prop := Forall2 (fun x y => Rabs (x - y) <= 1/2000) p q.
