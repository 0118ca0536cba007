(** Property C100: structures and simulations written out and read back in binary64. *)
From Coq Require Import Reals Lra.
From Flocq Require Import Core BinarySingleNaN.
From Verif Require Import Prelude Dict Val Arith RealArith FloatArith LatticeModel JsonModel StructModel StateModel GridModel NbModel SimModel SetupModel SpecState SpecResult SpecGeom SpecNb SpecGrid SpecSetup SpecFloat64 SpecNuc FloatFacts FloatMore FloatOpen FloatMotif FloatOpen FloatJson.
Local Open Scope Z_scope.

(** C100, square lattices of every dimension with any sides open and one site per cell anywhere in the cell (in thousandths). *)
Theorem C100_reload_axes : forall n per L k z p s st, fl_axes n per L -> length k = n -> Forall (fun m => 1 <= m <= 2 ^ 20) k -> cell_position n z p ->
  build_from FA L k (MList [p]) false = Ok s -> json_state st ->
  exists s', struct_from_dict FA (struct_json s) = Ok s' /\ reloaded s s' /\ sim_from_dict FA (sim_json (mkSim st s)) = Ok (mkSim st s').
Proof. exact C100_lemma. Qed.
Print Assumptions C100_reload_axes.
Example C100_axes_example : exists L p s, fl_axes 3 [true; false; true] L /\ cell_position 3 [500; 0; 999] p /\ build_from FA L [3; 4; 2] (MList [p]) false = Ok s.
Proof.
  assert (Hz : Forall (fun a => 0 <= a < 1000) [500; 0; 999]) by (repeat constructor; lia). destruct (thousandths_exist _ Hz) as (p & Hp).
  assert (CP : cell_position 3 [500; 0; 999] p) by (split; [reflexivity|split; [exact Hz|exact Hp]]).
  assert (Hk : Forall (fun m => 1 <= m <= 2 ^ 20) [3; 4; 2]) by (repeat constructor; lia).
  assert (exists L, fl_axes 3 [true; false; true] L) as (L & FL) by (eexists; exists (PFlags [true; false; true]); split; [reflexivity|split; reflexivity]).
  destruct (C89_lemma 3 [true; false; true] L [3; 4; 2] [500; 0; 999] p) as (s & Es & _); auto; try lia. exists L, p, s. auto.
Qed.

(** C100, the 2D and 3D grids of the square_grid package. *)
Theorem C100_reload_grids : forall size s st, Forall (fun m => 1 <= m <= 2 ^ 20) size -> fl_square size s -> json_state st ->
  exists s', struct_from_dict FA (struct_json s) = Ok s' /\ reloaded s s' /\ sim_from_dict FA (sim_json (mkSim st s)) = Ok (mkSim st s').
Proof. exact C100_grids_lemma. Qed.
Print Assumptions C100_reload_grids.
Example C100_grids_example : exists s, fl_square [4; 6; 5] s.
Proof.
  assert (Hk : Forall (fun m => 1 <= m <= 2 ^ 20) [4; 6; 5]) by (repeat constructor; lia).
  destruct (square_box [4; 6; 5] (or_intror eq_refl) Hk) as (s & L & FS & _). exists s. exact FS.
Qed.
