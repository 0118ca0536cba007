(** Property C134 in binary64. *)
From Coq Require Import Reals Lra.
From Flocq Require Import Core BinarySingleNaN.
From Verif Require Import Prelude Dict Val Arith RealArith LatticeModel StructModel StateModel ResultModel NbModel GridModel SimModel SetupModel SpecGeom SpecGrid SpecState SpecSetup FloatArith SpecFloat64 SetupRaise SetupRaiseFl.
Local Open Scope Z_scope.

(** C134. Random particles on empty binary64 grids. *)
Theorem C134_float : forall dim sz k t r bulk ps pos ph m, dim = 2%nat \/ dim = 3%nat -> grid_size dim sz = k :: t -> length (k :: t) = dim ->
  Exists (fun k => k <= 0) (k :: t) -> Z.abs k <= 2 ^ 20 -> exists s, build_structure FA (Z.of_nat dim) sz = Ok s /\
    (m <= 0 -> setup_random_particles FA (Z.of_nat dim) sz r m bulk ps pos ph = Ok (mkSim s_empty s)) /\
    (1 <= m -> k = 0 -> setup_random_particles FA (Z.of_nat dim) sz r m bulk ps pos ph = Err ValueError) /\
    (1 <= m -> k <> 0 -> ps = [] -> setup_random_particles FA (Z.of_nat dim) sz r m bulk ps pos ph = Err IndexError) /\
    (k <> 0 -> ps <> [] -> setup_random_particles FA (Z.of_nat dim) sz r m bulk ps pos ph = Ok (mkSim s_empty s)).
Proof. exact C134_float_lemma. Qed.
Print Assumptions C134_float.
Example C134_float_example : grid_size 2 (SzTuple [-4; 3]) = [-4; 3] /\ Exists (fun k => k <= 0) [-4; 3] /\ Z.abs (-4) <= 2 ^ 20.
Proof. split; [reflexivity|]. split; [left; lia|lia]. Qed.
