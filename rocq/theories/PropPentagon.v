(** Properties C125 and C126: growth with pseudo-pentagonal neighbourhoods, and the draws used in serial runs. *)
From Coq Require Import Reals Lra Permutation.
From Flocq Require Import Core BinarySingleNaN.
From Verif Require Import Prelude Dict Val Arith RealArith FloatArith LatticeModel StructModel StateModel ResultModel RunnerModel GridModel NbModel SimModel SetupModel RulesModel SpecGeom SpecNb SpecGrid SpecState SpecResult SpecRunner SpecSetup SpecFloat64 SpecPlant SpecNuc SpecDraw GridFacts GridMore RulesFacts RulesMore SetupFacts NbShapes GridNb NbFacts StructMore FloatFacts FloatCoord FloatMore FloatNb FloatTorus FloatOpen DrawFloat SpecRules SpecVisit AsyncStall SyncDrawn.
Local Open Scope Z_scope.

(** C125. Pseudo-pentagonal neighbourhoods on square grids. *)
Theorem C125_pentagonal : forall size s b N bg rnd c0 init n, square_grid size s -> length size = 2%nat -> PseudoPentagonalNeighborhoodBuilder RA = Ok b -> growth_nbhood RA s (Some b) = Ok N ->
  let m := Z.of_nat (length (sites s None)) in phased (zrange 0 m) init ->
  (forall ords, (forall t, legal (ords t)) ->
     exists o, run_async (growth_controller N bg ords rnd) c0 init n = Ok o /\ rlen (o_result o) = Z.max 0 n + 1 /\
       forall t, 0 <= t <= Z.max 0 n -> exists st, get_step (o_result o) t = Ok st /\ phased (zrange 0 m) st /\
         forall i, In i (zrange 0 m) -> (occupied bg init i -> occupied bg st i) /\
           (occupied bg st i -> exists j l, occupied bg init j /\ walk (offset_by (cell s) 2 (within_moore 1)) j l i /\ in_order l (map (fun k => Z.of_nat (rnd (c0 + 2 * k)%nat) mod m) (seq 0 (Z.to_nat t))))) /\
  (forall z, Forall (fun k => 3 <= k) size -> (forall i, In i (zrange 0 m) -> (occupied bg init i <-> i = z)) ->
     exists ords, (forall t, legal (ords t)) /\ exists o, run_async (growth_controller N bg ords rnd) c0 init n = Ok o /\ rlen (o_result o) = Z.max 0 n + 1 /\
       forall t, 0 <= t <= Z.max 0 n -> exists st, get_step (o_result o) t = Ok st /\ phased (zrange 0 m) st /\ forall i, In i (zrange 0 m) -> (occupied bg st i <-> i = z)).
Proof. exact C125_lemma. Qed.
Print Assumptions C125_pentagonal.
Example C125_example : exists s b N, square_grid [3; 4] s /\ PseudoPentagonalNeighborhoodBuilder RA = Ok b /\ growth_nbhood RA s (Some b) = Ok N /\
  let m := Z.of_nat (length (sites s None)) in phased (zrange 0 m) (seed_state m 5) /\ forall i, In i (zrange 0 m) -> (occupied "bg" (seed_state m 5) i <-> i = 5).
Proof.
  destruct (C67_exists_lemma [3; 4]) as [s SG]; [repeat constructor; lia|auto|]. exists s. destruct (proj2 (proj1 (C42_shapes_lemma _ s SG) eq_refl)) as (b & N & Eb & EN & _).
  exists b, N. split; [exact SG|]. split; [exact Eb|]. split; [exact EN|]. intros m. destruct (seed_facts m 5) as (A & _ & B). auto.
Qed.

(** C125. The same on binary64 grids. *)
Theorem C125_float : forall size s b bg rnd c0 init n, Forall (fun m => 1 <= m <= 2 ^ 20) size -> fl_square size s -> Forall (fun m => ~ falls_short m m) size ->
  length size = 2%nat -> PseudoPentagonalNeighborhoodBuilder FA = Ok b ->
  let m := Z.of_nat (length (sites s None)) in phased (zrange 0 m) init ->
  exists N, growth_nbhood FA s (Some b) = Ok N /\
  (forall ords, (forall t, legal (ords t)) ->
     exists o, run_async (growth_controller N bg ords rnd) c0 init n = Ok o /\ rlen (o_result o) = Z.max 0 n + 1 /\
       forall t, 0 <= t <= Z.max 0 n -> exists st, get_step (o_result o) t = Ok st /\ phased (zrange 0 m) st /\
         forall i, In i (zrange 0 m) -> (occupied bg init i -> occupied bg st i) /\
           (occupied bg st i -> exists j l, occupied bg init j /\ walk (offset_by (fl_cell size s) 2 (within_moore 1)) j l i /\ in_order l (map (fun k => Z.of_nat (rnd (c0 + 2 * k)%nat) mod m) (seq 0 (Z.to_nat t))))) /\
  (forall z, Forall (fun k => 3 <= k) size -> (forall i, In i (zrange 0 m) -> (occupied bg init i <-> i = z)) ->
     exists ords, (forall t, legal (ords t)) /\ exists o, run_async (growth_controller N bg ords rnd) c0 init n = Ok o /\ rlen (o_result o) = Z.max 0 n + 1 /\
       forall t, 0 <= t <= Z.max 0 n -> exists st, get_step (o_result o) t = Ok st /\ phased (zrange 0 m) st /\ forall i, In i (zrange 0 m) -> (occupied bg st i <-> i = z)).
Proof. exact C125_float_lemma. Qed.
Print Assumptions C125_float.
Example C125_float_example : exists s b, fl_square [30; 30] s /\ PseudoPentagonalNeighborhoodBuilder FA = Ok b /\ Forall (fun m => ~ falls_short m m) [30; 30] /\
  let m := Z.of_nat (length (sites s None)) in phased (zrange 0 m) (seed_state m 5) /\ forall i, In i (zrange 0 m) -> (occupied "bg" (seed_state m 5) i <-> i = 5).
Proof.
  assert (Hk : Forall (fun m => 1 <= m <= 2 ^ 20) [30; 30]) by (repeat constructor; lia). destruct (square_box [30; 30] (or_introl eq_refl) Hk) as (s & L & FS & _).
  destruct (proj2 (proj1 (C123_lemma [30; 30] s Hk FS) eq_refl)) as (b & Eb & _). exists s, b. split; auto. split; auto. split; [repeat constructor; apply C30_adjacent_lemma; lia|].
  intros m. destruct (seed_facts m 5) as (A & _ & B). auto.
Qed.

(** C126. The draw used for every site and step of a serial run. *)
Theorem C126_draws : forall F (N : nbhood F) bg ords rnd ids c0 init n,
  (forall t, legal (ords t)) -> NoDup ids -> ids <> [] -> has_neighbours ids N -> phased ids init -> swf init ->
  exists o, run_sync (growth_controller N bg ords rnd) c0 init n = Ok o /\ rlen (o_result o) = Z.max 0 n + 1 /\
    forall t, 0 <= t <= Z.max 0 n -> exists st, get_step (o_result o) t = Ok st /\ phased ids st /\
      (t < Z.max 0 n -> exists st', get_step (o_result o) (t + 1) = Ok st' /\
         forall k i, nth_error ids k = Some i -> exists l, neighbors_of (ords (c0 + Z.to_nat t * length ids + k)%nat) N i = Ok l /\
           (forall p, holds st i p -> p <> bg -> holds st' i p) /\
           (holds st i bg -> (forall j, In j l -> holds st j bg) -> holds st' i bg) /\
           (holds st i bg -> (exists j, In j l /\ occupied bg st j) ->
              exists q, holds st' i q /\ q <> bg /\ 0 < count_in st l q /\ forall r, r <> bg -> count_in st l r <= count_in st l q)).
Proof. exact C126_lemma. Qed.
Print Assumptions C126_draws.
Example C126_example : has_neighbours [0; 1; 2; 3; 4] (NGraph row_graph) /\ phased [0; 1; 2; 3; 4] (seed_state 5 2) /\ swf (seed_state 5 2) /\
  exists o st, run_sync (growth_controller (NGraph row_graph) "bg" (fun _ => list_oracle) (fun _ => 0%nat)) 7%nat (seed_state 5 2) 1 = Ok o /\ get_step (o_result o) 1 = Ok st /\
    occupied "bg" st 1 /\ occupied "bg" st 3 /\ ~ occupied "bg" st 0.
Proof.
  destruct (seed_facts 5 2) as (A & B & _). split; [exact row_neighbours|]. split; [exact A|]. split; [exact B|]. do 2 eexists. split; [vm_compute; reflexivity|]. split; [vm_compute; reflexivity|].
  split; [exists "a"%string; split; [reflexivity|discriminate]|]. split; [exists "a"%string; split; [reflexivity|discriminate]|]. intros (p & H & NE). injection H as <-. now apply NE.
Qed.

(** C126. Serial growth with pseudo-pentagonal neighbourhoods can stall. *)
Theorem C126_stalls : forall size s b N bg rnd c0 z ids init n, square_grid size s -> length size = 2%nat -> Forall (fun k => 3 <= k) size ->
  PseudoPentagonalNeighborhoodBuilder RA = Ok b -> growth_nbhood RA s (Some b) = Ok N ->
  Permutation ids (map s_id (sites s None)) -> phased ids init -> swf init -> (forall i, In i ids -> (occupied bg init i <-> i = z)) ->
  exists ords, (forall t, legal (ords t)) /\ exists o, run_sync (growth_controller N bg ords rnd) c0 init n = Ok o /\ rlen (o_result o) = Z.max 0 n + 1 /\
    forall t, 0 <= t <= Z.max 0 n -> exists st, get_step (o_result o) t = Ok st /\ phased ids st /\ forall i, In i ids -> (occupied bg st i <-> i = z).
Proof. exact C126_stalls_lemma. Qed.
Print Assumptions C126_stalls.
Example C126_stalls_example : exists s b N, square_grid [3; 4] s /\ PseudoPentagonalNeighborhoodBuilder RA = Ok b /\ growth_nbhood RA s (Some b) = Ok N /\
  let ids := map s_id (sites s None) in let st := seed_state (Z.of_nat (length ids)) 5 in phased ids st /\ swf st /\ forall i, In i ids -> (occupied "bg" st i <-> i = 5).
Proof.
  destruct (C67_exists_lemma [3; 4]) as [s SG]; [repeat constructor; lia|auto|]. exists s. destruct (proj2 (proj1 (C42_shapes_lemma _ s SG) eq_refl)) as (b & N & Eb & EN & _). destruct (square_facts _ _ SG) as [L G].
  exists b, N. split; [exact SG|]. split; [exact Eb|]. split; [exact EN|]. intros ids st. unfold st. replace (length ids) with (length (sites s None)) by (unfold ids; now rewrite map_length).
  unfold ids. rewrite (built_dense RA L s (gf_built _ _ _ G) : _ = _). apply seed_facts.
Qed.

(** C126. The same on binary64 grids. *)
Theorem C126_stalls_float : forall size s b bg rnd c0 z ids init n, Forall (fun m => 3 <= m <= 2 ^ 20) size -> fl_square size s -> Forall (fun m => ~ falls_short m m) size -> length size = 2%nat ->
  PseudoPentagonalNeighborhoodBuilder FA = Ok b ->
  Permutation ids (map s_id (sites s None)) -> phased ids init -> swf init -> (forall i, In i ids -> (occupied bg init i <-> i = z)) ->
  exists N ords, growth_nbhood FA s (Some b) = Ok N /\ (forall t, legal (ords t)) /\ exists o, run_sync (growth_controller N bg ords rnd) c0 init n = Ok o /\ rlen (o_result o) = Z.max 0 n + 1 /\
    forall t, 0 <= t <= Z.max 0 n -> exists st, get_step (o_result o) t = Ok st /\ phased ids st /\ forall i, In i ids -> (occupied bg st i <-> i = z).
Proof. exact C126_stalls_float_lemma. Qed.
Print Assumptions C126_stalls_float.
Example C126_stalls_float_example : exists s b, fl_square [30; 30] s /\ PseudoPentagonalNeighborhoodBuilder FA = Ok b /\ Forall (fun m => ~ falls_short m m) [30; 30] /\
  let ids := map s_id (sites s None) in let st := seed_state (Z.of_nat (length ids)) 5 in phased ids st /\ swf st /\ forall i, In i ids -> (occupied "bg" st i <-> i = 5).
Proof.
  assert (Hk : Forall (fun m => 1 <= m <= 2 ^ 20) [30; 30]) by (repeat constructor; lia). destruct (square_box [30; 30] (or_introl eq_refl) Hk) as (s & L & FS & _).
  destruct (proj2 (proj1 (C123_lemma [30; 30] s Hk FS) eq_refl)) as (b & Eb & _). exists s, b. split; auto. split; auto. split; [repeat constructor; apply C30_adjacent_lemma; lia|].
  intros ids st. unfold st. replace (length ids) with (length (sites s None)) by (unfold ids; now rewrite map_length). unfold ids. rewrite (torus_dense [30; 30] s Hk FS : _ = _). apply seed_facts.
Qed.
