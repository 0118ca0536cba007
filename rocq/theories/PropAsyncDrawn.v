(** Property C124: asynchronous growth with neighbourhoods drawn anew. *)
From Coq Require Import Reals Lra Permutation.
From Flocq Require Import Core BinarySingleNaN.
From Verif Require Import Prelude Dict Val Arith RealArith FloatArith LatticeModel StructModel StateModel ResultModel RunnerModel GridModel NbModel SimModel SetupModel RulesModel SpecGeom SpecNb SpecGrid SpecRules SpecState SpecResult SpecRunner SpecSetup SpecFloat64 SpecPlant SpecNuc SpecPlantFl FloatNuc SpecDraw GridFacts GridMore RulesFacts RulesMore SetupFacts NbShapes GridNb NbFacts StructMore FloatFacts FloatCoord FloatMore FloatNb FloatTorus FloatOpen GrowAll DrawFloat SpecRules SpecVisit AsyncDrawn.
Local Open Scope Z_scope.

(** C124. The sites occupied after t steps of asynchronous growth. *)
Theorem C124_reached : forall F (N : nbhood F) bg ords rnd m c0 init n,
  (forall t, legal (ords t)) -> 0 < m -> has_neighbours (zrange 0 m) N -> phased (zrange 0 m) init ->
  exists o, run_async (growth_controller N bg ords rnd) c0 init n = Ok o /\ rlen (o_result o) = Z.max 0 n + 1 /\
    forall t, 0 <= t <= Z.max 0 n -> exists st, get_step (o_result o) t = Ok st /\ phased (zrange 0 m) st /\
      forall i, In i (zrange 0 m) -> (occupied bg st i <->
        reached (occupied bg init) (fun k => Z.of_nat (rnd (c0 + 2 * k)%nat) mod m)
          (fun k i j => exists l, neighbors_of (ords (S (c0 + 2 * k))) N i = Ok l /\ In j l) (Z.to_nat t) i).
Proof. exact C124_lemma. Qed.
Print Assumptions C124_reached.
Example C124_example : let N := NGraph row_graph in has_neighbours (zrange 0 5) N /\ phased (zrange 0 5) (row_state ["a"; "bg"; "bg"; "bg"; "b"]%string) /\
  exists o st, run_async (growth_controller N "bg" (fun _ => list_oracle) (fun c => match c with 2%nat => 1%nat | 4%nat => 2%nat | _ => 3%nat end)) 2%nat (row_state ["a"; "bg"; "bg"; "bg"; "bg"]%string) 2 = Ok o /\
    get_step (o_result o) 2 = Ok st /\ occupied "bg" st 2 /\ ~ occupied "bg" st 3.
Proof.
  split; [exact row_neighbours|]. split; [now apply (row_phased ["a"; "bg"; "bg"; "bg"; "b"]%string)|]. do 2 eexists. split; [vm_compute; reflexivity|]. split; [vm_compute; reflexivity|]. split.
  - exists "a"%string. split; [reflexivity|discriminate].
  - intros (p & H & NE). injection H as <-. now apply NE.
Qed.

(** C124. Neighbourhoods that lie between two relations. *)
Theorem C124_between : forall F (N : nbhood F) bg ords rnd m c0 init n (lo up : Z -> Z -> Prop),
  (forall t, legal (ords t)) -> 0 < m -> has_neighbours (zrange 0 m) N -> phased (zrange 0 m) init ->
  (forall o i l j, legal o -> In i (zrange 0 m) -> neighbors_of o N i = Ok l -> (lo i j -> In j l) /\ (In j l -> up i j)) ->
  let path nbr t i := exists j l, occupied bg init j /\ walk nbr j l i /\ in_order l (map (fun k => Z.of_nat (rnd (c0 + 2 * k)%nat) mod m) (seq 0 (Z.to_nat t))) in
  exists o, run_async (growth_controller N bg ords rnd) c0 init n = Ok o /\ rlen (o_result o) = Z.max 0 n + 1 /\
    forall t, 0 <= t <= Z.max 0 n -> exists st, get_step (o_result o) t = Ok st /\ phased (zrange 0 m) st /\
      forall i, In i (zrange 0 m) -> (path lo t i -> occupied bg st i) /\ (occupied bg st i -> path up t i).
Proof. exact C124_between_lemma. Qed.
Print Assumptions C124_between.
Example C124_between_example : let N := NGraph row_graph in forall o i l j, legal o -> In i (zrange 0 5) -> neighbors_of o N i = Ok l -> (j = i - 1 /\ 0 <= j -> In j l) /\ (In j l -> Z.abs (i - j) <= 1).
Proof.
  intros N o i l j [PO _] Hi El. change (In i [0; 1; 2; 3; 4]) in Hi. injection El as <-. unfold g_neighbors.
  pose proof (PO (dedup (g_successors row_graph i))) as P. split.
  - intros [-> H0]. apply (Permutation_in _ (Permutation_sym P)) || apply (Permutation_in _ P). destruct Hi as [<-|[<-|[<-|[<-|[<-|[]]]]]]; vm_compute in H0 |- *; intuition congruence.
  - intros Hj. apply (Permutation_in j (Permutation_sym P)) in Hj. destruct Hi as [<-|[<-|[<-|[<-|[<-|[]]]]]]; vm_compute in Hj; intuition (subst; cbn; lia).
Qed.

(** C124. Pseudo-hexagonal neighbourhoods on square grids. *)
Theorem C124_hexagonal : forall size s b N bg ords rnd c0 init n, square_grid size s ->
  (length size = 2%nat /\ PseudoHexagonalNeighborhoodBuilder2D RA = Ok b \/ length size = 3%nat /\ PseudoHexagonalNeighborhoodBuilder3D RA = Ok b) ->
  growth_nbhood RA s (Some b) = Ok N -> (forall t, legal (ords t)) ->
  let m := Z.of_nat (length (sites s None)) in phased (zrange 0 m) init ->
  let path near t i := exists j l, occupied bg init j /\ walk (offset_by (cell s) (length size) near) j l i /\
    in_order l (map (fun k => Z.of_nat (rnd (c0 + 2 * k)%nat) mod m) (seq 0 (Z.to_nat t))) in
  exists o, run_async (growth_controller N bg ords rnd) c0 init n = Ok o /\ rlen (o_result o) = Z.max 0 n + 1 /\
    forall t, 0 <= t <= Z.max 0 n -> exists st, get_step (o_result o) t = Ok st /\ phased (zrange 0 m) st /\
      forall i, In i (zrange 0 m) -> (path (within_vn 1) t i -> occupied bg st i) /\ (occupied bg st i -> path (within_moore 1) t i).
Proof. exact C124_hexagonal_lemma. Qed.
Print Assumptions C124_hexagonal.
Example C124_hexagonal_example : exists s b N st, square_grid [3; 4] s /\ PseudoHexagonalNeighborhoodBuilder2D RA = Ok b /\ growth_nbhood RA s (Some b) = Ok N /\ phased (zrange 0 (Z.of_nat (length (sites s None)))) st.
Proof.
  destruct (C67_exists_lemma [3; 4]) as [s SG]; [repeat constructor; lia|auto|]. destruct (square_facts _ _ SG) as [L G].
  pose proof (C47_solid_lemma R RA L s "a"%string (gf_built _ _ _ G)) as CF. exists s. destruct (proj1 (proj1 (C42_shapes_lemma _ s SG) eq_refl)) as (b & N & Eb & EN & _).
  exists b, N, (setup_solid_phase s "a"%string). split; [exact SG|]. split; [exact Eb|]. split; [exact EN|]. rewrite <- (built_dense RA L s (gf_built _ _ _ G)). now apply (config_phased s _ _ L RA (gf_built _ _ _ G) CF).
Qed.

(** C124. The same on binary64 grids. *)
Theorem C124_float : forall size s b bg ords rnd c0 init n, Forall (fun m => 1 <= m <= 2 ^ 20) size -> fl_square size s -> Forall (fun m => ~ falls_short m m) size ->
  (length size = 2%nat /\ PseudoHexagonalNeighborhoodBuilder2D FA = Ok b \/ length size = 3%nat /\ PseudoHexagonalNeighborhoodBuilder3D FA = Ok b) ->
  (forall t, legal (ords t)) ->
  let m := Z.of_nat (length (sites s None)) in phased (zrange 0 m) init ->
  let path near t i := exists j l, occupied bg init j /\ walk (offset_by (fl_cell size s) (length size) near) j l i /\
    in_order l (map (fun k => Z.of_nat (rnd (c0 + 2 * k)%nat) mod m) (seq 0 (Z.to_nat t))) in
  exists N o, growth_nbhood FA s (Some b) = Ok N /\ run_async (growth_controller N bg ords rnd) c0 init n = Ok o /\ rlen (o_result o) = Z.max 0 n + 1 /\
    forall t, 0 <= t <= Z.max 0 n -> exists st, get_step (o_result o) t = Ok st /\ phased (zrange 0 m) st /\
      forall i, In i (zrange 0 m) -> (path (within_vn 1) t i -> occupied bg st i) /\ (occupied bg st i -> path (within_moore 1) t i).
Proof. exact C124_float_lemma. Qed.
Print Assumptions C124_float.
Example C124_float_example : exists s b st, fl_square [30; 30] s /\ PseudoHexagonalNeighborhoodBuilder2D FA = Ok b /\ phased (zrange 0 (Z.of_nat (length (sites s None)))) st /\ Forall (fun m => ~ falls_short m m) [30; 30].
Proof.
  assert (Hk : Forall (fun m => 1 <= m <= 2 ^ 20) [30; 30]) by (repeat constructor; lia). destruct (square_box [30; 30] (or_introl eq_refl) Hk) as (s & L & FS & _).
  assert (FG : fl_setup 2 (SzInt 30) s) by (split; [split; [auto|split; [reflexivity|]]|split; [|exact FS]]; repeat constructor; lia).
  destruct (setup_facts 2 (SzInt 30) s FG) as (_ & _ & _ & _ & L' & BU). pose proof (C47_solid_lemma _ FA L' s "a"%string BU) as CF.
  destruct (proj1 (proj1 (C123_lemma [30; 30] s Hk FS) eq_refl)) as (b & Eb & _).
  exists s, b, (setup_solid_phase s "a"%string). split; auto. split; auto. split; [|repeat constructor; apply C30_adjacent_lemma; lia].
  rewrite <- (torus_dense [30; 30] s Hk FS : _ = _). now apply (config_phased s _ _ L' FA BU CF).
Qed.
