(** Property C131 on binary64 grids. *)
From Coq Require Import Reals Lra Permutation.
From Flocq Require Import Core BinarySingleNaN.
From Verif Require Import Prelude Dict Val Arith RealArith FloatArith LatticeModel StructModel StateModel ResultModel RunnerModel GridModel NbModel SimModel SetupModel RulesModel SpecGeom SpecNb SpecGrid SpecRules SpecState SpecSetup SpecPlant SpecFloat64 SpecNuc SpecPlantFl SpecDraw SpecHex FloatFacts FloatCoord FloatMore FloatNb FloatNuc FloatTorus SetupFacts RulesMore StructMore StructBuild FloatOpen GrowAll DrawFloat HexFloat.
Local Open Scope Z_scope.

(** C131. The region grown on binary64 grids. *)
Theorem C131_float : forall size s k e b N bg ords rnd ids c0 init n, Forall (fun m => 1 <= m <= 2 ^ 20) size -> fl_square size s -> Forall (fun m => ~ falls_short m m) size -> hex_diagonal (length size) k e ->
  (length size = 2%nat /\ PseudoHexagonalNeighborhoodBuilder2D FA = Ok b \/ length size = 3%nat /\ PseudoHexagonalNeighborhoodBuilder3D FA = Ok b) -> growth_nbhood FA s (Some b) = Ok N ->
  (forall t, legal (ords t)) -> (forall t l, length l = hex_members (length size) -> o_choice (ords t) l = k) -> Permutation ids (map s_id (sites s None)) -> phased ids init ->
  (exists o, run_sync (growth_controller N bg ords rnd) c0 init n = Ok o /\ rlen (o_result o) = Z.max 0 n + 1 /\
     forall t, 0 <= t <= Z.max 0 n -> exists st, get_step (o_result o) t = Ok st /\
       forall p i, length p = length size -> fl_cell size s p i -> (occupied bg st i <-> exists d j, length d = length size /\ hex_within e t d /\ fl_cell size s (shift p d) j /\ occupied bg init j)) /\
  (forall q sched, 1 <= q -> exists o, run_parallel (growth_controller N bg ords rnd) q sched c0 init n = Ok o /\ rlen (o_result o) = Z.max 0 n + 1 /\
     forall t, 0 <= t <= Z.max 0 n -> exists st, get_step (o_result o) t = Ok st /\
       forall p i, length p = length size -> fl_cell size s p i -> (occupied bg st i <-> exists d j, length d = length size /\ hex_within e t d /\ fl_cell size s (shift p d) j /\ occupied bg init j)).
Proof. exact C131_float_lemma. Qed.
Print Assumptions C131_float.
Example C131_float_example : exists s b N st, fl_square [30; 30] s /\ Forall (fun m => ~ falls_short m m) [30; 30] /\ hex_diagonal 2 1 [-1; 1] /\ PseudoHexagonalNeighborhoodBuilder2D FA = Ok b /\ growth_nbhood FA s (Some b) = Ok N /\
  phased (map s_id (sites s None)) st.
Proof.
  assert (Hk : Forall (fun m => 1 <= m <= 2 ^ 20) [30; 30]) by (repeat constructor; lia). destruct (square_box [30; 30] (or_introl eq_refl) Hk) as (s & L & FS & _).
  assert (FG : fl_setup 2 (SzInt 30) s) by (split; [split; [auto|split; [reflexivity|]]|split; [|exact FS]]; repeat constructor; lia).
  destruct (setup_facts 2 (SzInt 30) s FG) as (_ & _ & _ & _ & L' & BU). pose proof (C47_solid_lemma _ FA L' s "a"%string BU) as CF.
  assert (NF : Forall (fun m => ~ falls_short m m) [30; 30]) by (constructor; [apply C30_adjacent_lemma; lia|]; constructor; [apply C30_adjacent_lemma; lia|constructor]).
  destruct (proj1 (proj1 (C123_lemma [30; 30] s Hk FS) eq_refl)) as (b & Eb & GOOD & _). destruct (GOOD NF) as (N & EN & _).
  exists s, b, N, (setup_solid_phase s "a"%string). split; auto. split; auto. split; [left; split; reflexivity|]. split; auto. split; [exact EN|]. now apply (config_phased s _ _ L' FA BU CF).
Qed.
