(** Properties C130 and C131: controllers with the same answers, and growth with draws that always pick the same member. *)
From Coq Require Import Reals Lra Permutation.
From Verif Require Import Prelude Dict Val Arith RealArith LatticeModel StructModel StateModel ResultModel RunnerModel GridModel NbModel SimModel SetupModel RulesModel SpecGeom SpecNb SpecGrid SpecState SpecResult SpecRunner SpecSetup SpecPlant SpecNuc SpecSame SpecHex GridFacts GridMore RulesFacts RulesMore SetupFacts NbShapes GridNb NbFacts StructMore SpecRules SpecVisit AsyncStall SameRuns ConstDraw.
Local Open Scope Z_scope.

(** C130. Controllers with the same answers give the same runs. *)
Theorem C130_same : forall C C' (R : C -> C' -> Prop) (ctl : controller C) (ctl' : controller C') c0 c0' init n, alike R ctl ctl' -> R c0 c0' ->
  run_sync ctl c0 init n = run_sync ctl' c0' init n /\ run_async ctl c0 init n = run_async ctl' c0' init n /\
  forall p sched, run_parallel ctl p sched c0 init n = run_parallel ctl' p sched c0' init n.
Proof. exact C130_same_lemma. Qed.
Print Assumptions C130_same.
Example C130_same_example :
  let ctl : controller nat := mkController (fun c _ => Ok (S c)) (fun c _ => Ok (VInt 0, c)) (fun c _ _ => Ok (VDict [(KStr "x", VInt 1)], S c)) in
  let ctl' : controller unit := mkController (fun c _ => Ok c) (fun c _ => Ok (VInt 0, c)) (fun c _ _ => Ok (VDict [(KStr "x", VInt 1)], c)) in
  alike (fun _ _ => True) ctl ctl' /\ exists o, run_sync ctl 5%nat (seed_state 2 1) 2 = Ok o /\ run_sync ctl' tt (seed_state 2 1) 2 = Ok o.
Proof. cbv zeta. split; [split; cbn; auto|]. eexists. split; reflexivity. Qed.

(** C130. Growth with draws that always pick the same member. *)
Theorem C130_constant : forall F (l : list (nbhood F)) k M bg ords rnd c0 init n, nth_error l k = Some M -> (forall t, o_choice (ords t) l = k) ->
  run_sync (growth_controller (NStochastic l) bg ords rnd) c0 init n = run_sync (growth_controller M bg ords rnd) c0 init n /\
  run_async (growth_controller (NStochastic l) bg ords rnd) c0 init n = run_async (growth_controller M bg ords rnd) c0 init n /\
  forall p sched, run_parallel (growth_controller (NStochastic l) bg ords rnd) p sched c0 init n = run_parallel (growth_controller M bg ords rnd) p sched c0 init n.
Proof. exact C130_constant_lemma. Qed.
Print Assumptions C130_constant.
Example C130_constant_example : let l := [NGraph g_empty; NGraph row_graph] in nth_error l 1 = Some (NGraph row_graph) /\
  (forall t : nat, o_choice (mkOracle (F := Z) (fun l => l) (fun _ => 1%nat)) l = 1%nat) /\
  exists o st, run_sync (growth_controller (NStochastic l) "bg" (fun _ => mkOracle (fun l => l) (fun _ => 1%nat)) (fun _ => 0%nat)) 0%nat (seed_state 5 2) 1 = Ok o /\
    get_step (o_result o) 1 = Ok st /\ occupied "bg" st 1 /\ ~ occupied "bg" st 0.
Proof.
  cbv zeta. split; [reflexivity|]. split; [reflexivity|]. do 2 eexists. split; [vm_compute; reflexivity|]. split; [vm_compute; reflexivity|].
  split; [exists "a"%string; split; [reflexivity|discriminate]|]. intros (p & H & NE). injection H as <-. now apply NE.
Qed.

(** C131. The region grown, in two and three dimensions. *)
Theorem C131_hexagon : forall size s k e b N bg ords rnd ids c0 init n, square_grid size s -> hex_diagonal (length size) k e ->
  (length size = 2%nat /\ PseudoHexagonalNeighborhoodBuilder2D RA = Ok b \/ length size = 3%nat /\ PseudoHexagonalNeighborhoodBuilder3D RA = Ok b) -> growth_nbhood RA s (Some b) = Ok N ->
  (forall t, legal (ords t)) -> (forall t l, length l = hex_members (length size) -> o_choice (ords t) l = k) -> Permutation ids (map s_id (sites s None)) -> phased ids init ->
  (exists o, run_sync (growth_controller N bg ords rnd) c0 init n = Ok o /\ rlen (o_result o) = Z.max 0 n + 1 /\
     forall t, 0 <= t <= Z.max 0 n -> exists st, get_step (o_result o) t = Ok st /\
       forall p i, length p = length size -> cell s p i -> (occupied bg st i <-> exists d j, length d = length size /\ hex_within e t d /\ cell s (shift p d) j /\ occupied bg init j)) /\
  (forall q sched, 1 <= q -> exists o, run_parallel (growth_controller N bg ords rnd) q sched c0 init n = Ok o /\ rlen (o_result o) = Z.max 0 n + 1 /\
     forall t, 0 <= t <= Z.max 0 n -> exists st, get_step (o_result o) t = Ok st /\
       forall p i, length p = length size -> cell s p i -> (occupied bg st i <-> exists d j, length d = length size /\ hex_within e t d /\ cell s (shift p d) j /\ occupied bg init j)).
Proof. exact C131_hexagon_lemma. Qed.
Print Assumptions C131_hexagon.
Example C131_hexagon_example : exists s b N, square_grid [7; 8; 9] s /\ hex_diagonal 3 2 [1; 1; 1] /\ PseudoHexagonalNeighborhoodBuilder3D RA = Ok b /\ growth_nbhood RA s (Some b) = Ok N /\
  legal (F := R) (mkOracle (fun l => l) (fun l => if Nat.leb 3 (length l) then 2%nat else 0%nat)) /\ phased (map s_id (sites s None)) (seed_state (Z.of_nat (length (sites s None))) 5) /\
  hex_within [1; 1; 1] 3 [2; 2; 3] /\ ~ hex_within [1; 1; 1] 3 [2; -2; 0].
Proof.
  destruct (C67_exists_lemma [7; 8; 9]) as [s SG]; [repeat constructor; lia|auto|]. exists s. destruct (proj2 (C42_shapes_lemma _ s SG) eq_refl) as (b & N & Eb & EN & _). destruct (square_facts _ _ SG) as [L G].
  exists b, N. split; [exact SG|]. split; [right; split; reflexivity|]. split; [exact Eb|]. split; [exact EN|]. split.
  { split; [intros; apply Permutation_refl|]. cbn [o_choice]. intros l NE. destruct (Nat.leb 3 (length l)) eqn:E; [apply Nat.leb_le in E; lia|]. destruct l; [congruence|simpl; lia]. }
  split; [rewrite (built_dense RA L s (gf_built _ _ _ G) : _ = _); apply seed_facts|]. split; [exists 2; cbv; discriminate|].
  intros [m H]. unfold shift in H. cbn [zipwith map fold_right] in H. lia.
Qed.

(** C131. The hexagons of the plane. *)
Theorem C131_plane : forall size s k e b N bg ords rnd ids c0 init n, square_grid size s -> length size = 2%nat -> (k = 0%nat /\ e = -1 \/ k = 1%nat /\ e = 1) ->
  PseudoHexagonalNeighborhoodBuilder2D RA = Ok b -> growth_nbhood RA s (Some b) = Ok N ->
  (forall t, legal (ords t)) -> (forall t l, length l = 2%nat -> o_choice (ords t) l = k) -> Permutation ids (map s_id (sites s None)) -> phased ids init ->
  exists o, run_sync (growth_controller N bg ords rnd) c0 init n = Ok o /\
     forall t, 0 <= t <= Z.max 0 n -> exists st, get_step (o_result o) t = Ok st /\
       forall a b i, cell s [a; b] i ->
         (occupied bg st i <-> exists x y j, Z.abs x <= t /\ Z.abs y <= t /\ Z.abs (x + e * y) <= t /\ cell s [a + x; b + y] j /\ occupied bg init j).
Proof. exact C131_plane_lemma. Qed.
Print Assumptions C131_plane.
Example C131_plane_example : exists s b N, square_grid [7; 8] s /\ PseudoHexagonalNeighborhoodBuilder2D RA = Ok b /\ growth_nbhood RA s (Some b) = Ok N /\
  legal (F := R) (mkOracle (fun l => l) (fun l => if Nat.leb 2 (length l) then 1%nat else 0%nat)) /\ phased (map s_id (sites s None)) (seed_state (Z.of_nat (length (sites s None))) 5).
Proof.
  destruct (C67_exists_lemma [7; 8]) as [s SG]; [repeat constructor; lia|auto|]. exists s. destruct (proj1 (proj1 (C42_shapes_lemma _ s SG) eq_refl)) as (b & N & Eb & EN & _). destruct (square_facts _ _ SG) as [L G].
  exists b, N. split; [exact SG|]. split; [exact Eb|]. split; [exact EN|]. split.
  { split; [intros; apply Permutation_refl|]. cbn [o_choice]. intros l NE. destruct (Nat.leb 2 (length l)) eqn:E; [apply Nat.leb_le in E; lia|]. destruct l; [congruence|simpl; lia]. }
  rewrite (built_dense RA L s (gf_built _ _ _ G) : _ = _). apply seed_facts.
Qed.
