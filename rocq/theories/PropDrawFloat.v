(** Property C123: drawn neighbourhoods on binary64 grids. *)
From Coq Require Import Reals Lra Permutation.
From Flocq Require Import Core BinarySingleNaN.
From Verif Require Import Prelude Dict Val Arith RealArith FloatArith LatticeModel StructModel StateModel ResultModel RunnerModel GridModel NbModel SimModel SetupModel RulesModel SpecGeom SpecNb SpecGrid SpecRules SpecState SpecSetup SpecPlant SpecFloat64 SpecNuc SpecPlantFl SpecDraw FloatFacts FloatCoord FloatMore FloatNb FloatNuc FloatTorus SetupFacts RulesMore StructMore StructBuild FloatOpen GrowAll DrawFloat.
Local Open Scope Z_scope.

(** C123. The neighbourhoods drawn on binary64 grids. *)
Theorem C123_draws : forall size s, Forall (fun m => 1 <= m <= 2 ^ 20) size -> fl_square size s ->
  let builds B E shape := exists b, B = Ok b /\
    (Forall (fun m => ~ falls_short m m) size -> exists N, nb_get FA b s None = Ok N /\ fl_draws_shape size s E shape N) /\
    (Exists (fun m => falls_short m m) size -> nb_get FA b s None = Err TypeError) in
  (length size = 2%nat -> builds (PseudoHexagonalNeighborhoodBuilder2D FA) (diagonal_of 2) hexagonal /\ builds (PseudoPentagonalNeighborhoodBuilder FA) (direction_of 2) half_moore) /\
  (length size = 3%nat -> builds (PseudoHexagonalNeighborhoodBuilder3D FA) (diagonal_of 3) hexagonal).
Proof. exact C123_lemma. Qed.
Print Assumptions C123_draws.
Example C123_example : (exists s, fl_square [3; 48] s /\ Forall (fun m => ~ falls_short m m) [3; 48]) /\ (exists s, fl_square [49; 49] s /\ Exists (fun m => falls_short m m) [49; 49]).
Proof.
  split.
  - destruct (fl_core 3 48 ltac:(unfold M20; lia) ltac:(unfold M20; lia)) as (s & FG & _). exists s. split; [now apply fl_square_grid|]. constructor; [apply C30_adjacent_lemma; lia|]. constructor; [apply C30_adjacent_lemma; lia|constructor].
  - destruct (fl_core 49 49 ltac:(unfold M20; lia) ltac:(unfold M20; lia)) as (s & FG & _). exists s. split; [now apply fl_square_grid|]. left. apply short_at_border; [unfold M20; lia|vm_compute; reflexivity].
Qed.

(** C123. Growth with pseudo-hexagonal neighbourhoods. *)
Theorem C123_hexagonal : forall size s b bg ords rnd ids c0 init k, Forall (fun m => 1 <= m <= 2 ^ 20) size -> fl_square size s ->
  (length size = 2%nat /\ PseudoHexagonalNeighborhoodBuilder2D FA = Ok b \/ length size = 3%nat /\ PseudoHexagonalNeighborhoodBuilder3D FA = Ok b) ->
  (forall t, legal (ords t)) -> Permutation ids (map s_id (sites s None)) -> phased ids init ->
  let between r := rlen r = Z.max 0 k + 1 /\ forall t, 0 <= t <= Z.max 0 k -> exists st, get_step r t = Ok st /\ phased ids st /\ forall p i, length p = length size -> fl_cell size s p i ->
    (forall d j, length d = length size -> within_vn t d -> fl_cell size s (shift p d) j -> occupied bg init j -> occupied bg st i) /\
    (occupied bg st i -> exists d j, length d = length size /\ within_moore t d /\ fl_cell size s (shift p d) j /\ occupied bg init j) in
  (Forall (fun m => ~ falls_short m m) size -> exists N, growth_nbhood FA s (Some b) = Ok N /\
     (exists o, run_sync (growth_controller N bg ords rnd) c0 init k = Ok o /\ between (o_result o)) /\
     (forall q sched, 1 <= q -> exists o, run_parallel (growth_controller N bg ords rnd) q sched c0 init k = Ok o /\ between (o_result o))) /\
  (Exists (fun m => falls_short m m) size -> growth_nbhood FA s (Some b) = Err TypeError).
Proof. exact C123_hexagonal_lemma. Qed.
Print Assumptions C123_hexagonal.
Example C123_hexagonal_example : exists s b st, fl_square [30; 30] s /\ PseudoHexagonalNeighborhoodBuilder2D FA = Ok b /\ phased (map s_id (sites s None)) st.
Proof.
  assert (Hk : Forall (fun m => 1 <= m <= 2 ^ 20) [30; 30]) by (repeat constructor; lia). destruct (square_box [30; 30] (or_introl eq_refl) Hk) as (s & L & FS & _).
  assert (FG : fl_setup 2 (SzInt 30) s) by (split; [split; [auto|split; [reflexivity|]]|split; [|exact FS]]; repeat constructor; lia).
  destruct (setup_facts 2 (SzInt 30) s FG) as (_ & _ & _ & _ & L' & BU). pose proof (C47_solid_lemma _ FA L' s "a"%string BU) as CF.
  destruct (proj1 (proj1 (C123_lemma [30; 30] s Hk FS) eq_refl)) as (b & Eb & _).
  exists s, b, (setup_solid_phase s "a"%string). split; auto. split; auto. now apply (config_phased s _ _ L' FA BU CF).
Qed.

(** C123. Growth with pseudo-pentagonal neighbourhoods. *)
Theorem C123_pentagonal : forall size s b bg ords rnd ids c0 init k, Forall (fun m => 1 <= m <= 2 ^ 20) size -> fl_square size s -> length size = 2%nat -> PseudoPentagonalNeighborhoodBuilder FA = Ok b ->
  (forall t, legal (ords t)) -> Permutation ids (map s_id (sites s None)) -> phased ids init ->
  let within_reach r := rlen r = Z.max 0 k + 1 /\ forall t, 0 <= t <= Z.max 0 k -> exists st, get_step r t = Ok st /\ phased ids st /\ forall p i, length p = 2%nat -> fl_cell size s p i ->
    (occupied bg init i -> occupied bg st i) /\
    (occupied bg st i -> exists d j, length d = 2%nat /\ within_moore t d /\ fl_cell size s (shift p d) j /\ occupied bg init j) in
  (Forall (fun m => ~ falls_short m m) size -> exists N, growth_nbhood FA s (Some b) = Ok N /\
     (exists o, run_sync (growth_controller N bg ords rnd) c0 init k = Ok o /\ within_reach (o_result o)) /\
     (forall q sched, 1 <= q -> exists o, run_parallel (growth_controller N bg ords rnd) q sched c0 init k = Ok o /\ within_reach (o_result o))) /\
  (Exists (fun m => falls_short m m) size -> growth_nbhood FA s (Some b) = Err TypeError).
Proof. exact C123_pentagonal_lemma. Qed.
Print Assumptions C123_pentagonal.
Example C123_pentagonal_example : exists s, fl_square [49; 49] s /\ (forall b, PseudoHexagonalNeighborhoodBuilder2D FA = Ok b -> growth_nbhood FA s (Some b) = Err TypeError) /\ (exists b, PseudoPentagonalNeighborhoodBuilder FA = Ok b /\ growth_nbhood FA s (Some b) = Err TypeError).
Proof.
  destruct draws_49 as (s & FS & H1 & H2). exists s. split; auto. split; auto. destruct (proj2 (proj1 (C123_lemma [49; 49] s ltac:(repeat constructor; lia) FS) eq_refl)) as (b & Eb & _). eauto.
Qed.

(** C123. grow with the pseudo-hexagonal builder. *)
Theorem C123_grow : forall size s n bg amts buffer b rnd ords ords' rnd' p sched np_sum,
  fl_setup 2 (SzInt size) s -> 1 <= n -> fl_amounts bg amts -> (n + 1) * (Z.of_nat (length amts) + 2) <= 2 ^ 44 ->
  (forall t, legal (ords t)) -> (forall t, legal (ords' t)) -> summation FA np_sum -> 1 <= p -> PseudoHexagonalNeighborhoodBuilder2D FA = Ok b -> fl_buffer [size; size] buffer ->
  exists g, (forall f1 f2, (n + 1) * Z.of_nat (length amts) <= Z.of_nat f1 -> 1000 * n + 2 <= Z.of_nat f2 ->
      grow FA f1 f2 np_sum rnd ords ords' rnd' p sched 2 size n bg amts (Some b) buffer = Some g) /\
    (falls_short size size -> g = Err RuntimeError \/ g = Err TypeError) /\
    (~ falls_short size size -> g = Err RuntimeError \/ exists st, g = Ok (mkSim st s) /\
       site_ids st = map (fun x => KInt (s_id x)) (sites s None) /\
       forall i x, get_site s i = Some x -> exists q, holds st i q /\ q <> bg /\ In q (dkeys amts)).
Proof. exact C123_grow_lemma. Qed.
Print Assumptions C123_grow.
Example C123_grow_example : fl_amounts "bg" uneven /\ legal fl_oracle /\ summation FA right_sum /\ (25 + 1) * (Z.of_nat (length uneven) + 2) <= 2 ^ 44 /\ (exists s, fl_setup 2 (SzInt 30) s) /\ exists b, PseudoHexagonalNeighborhoodBuilder2D FA = Ok b.
Proof.
  split; [apply uneven_ok|]. split; [exact fl_oracle_legal|]. split; [exact right_sum_ok|]. split; [vm_compute; discriminate|].
  assert (Hk : Forall (fun m => 1 <= m <= 2 ^ 20) [30; 30]) by (repeat constructor; lia). destruct (square_box [30; 30] (or_introl eq_refl) Hk) as (s & L & FS & _).
  split; [exists s; split; [split; [auto|split; [reflexivity|]]|split; [|exact FS]]; repeat constructor; lia|].
  destruct (proj1 (proj1 (C123_lemma [30; 30] s Hk FS) eq_refl)) as (b & Eb & _). eauto.
Qed.
