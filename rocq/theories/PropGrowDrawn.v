(** Property C122: growth with neighbourhoods drawn anew. *)
From Coq Require Import Reals Lra Permutation.
From Verif Require Import Prelude Dict Val Arith RealArith LatticeModel StructModel StateModel ResultModel RunnerModel GridModel NbModel SimModel SetupModel RulesModel SpecGeom SpecNb SpecGrid SpecRules SpecState SpecSetup SpecPlant SpecNuc GridFacts GridMore RulesFacts RulesMore SetupFacts NbShapes GridNb NucMore GrowAll GrowBetween.
Local Open Scope Z_scope.

(** C122. Growth stays between the balls of any two relations between which the neighbourhoods lie. *)
Theorem C122_between : forall F (N : nbhood F) bg ords rnd ids c0 init n (lo up : Z -> Z -> Prop),
  (forall t, legal (ords t)) -> NoDup ids -> ids <> [] -> has_neighbours ids N -> phased ids init ->
  (forall o i l j, legal o -> In i ids -> neighbors_of o N i = Ok l -> (lo i j -> In j l) /\ (In j l -> up i j)) ->
  let between r := rlen r = Z.max 0 n + 1 /\ forall t, 0 <= t <= Z.max 0 n -> exists st, get_step r t = Ok st /\ phased ids st /\ forall i, In i ids ->
    (forall j, within lo (Z.to_nat t) i j -> occupied bg init j -> occupied bg st i) /\ (occupied bg st i -> exists j, within up (Z.to_nat t) i j /\ occupied bg init j) in
  (exists o, run_sync (growth_controller N bg ords rnd) c0 init n = Ok o /\ between (o_result o)) /\
  (forall q sched, 1 <= q -> exists o, run_parallel (growth_controller N bg ords rnd) q sched c0 init n = Ok o /\ between (o_result o)).
Proof. exact C122_lemma. Qed.
Print Assumptions C122_between.
Example C122_example : let N := NGraph row_graph in has_neighbours [0; 1; 2; 3; 4] N /\ phased [0; 1; 2; 3; 4] (row_state ["a"; "bg"; "bg"; "bg"; "b"]%string) /\
  forall o i l j, legal o -> In i [0; 1; 2; 3; 4] -> neighbors_of o N i = Ok l -> (j = i - 1 /\ 0 <= j -> In j l) /\ (In j l -> Z.abs (i - j) <= 1).
Proof.
  split; [exact row_neighbours|]. split; [now apply row_phased|]. intros o i l j [PO _] Hi El. injection El as <-. unfold g_neighbors.
  pose proof (PO (dedup (g_successors row_graph i))) as P. split.
  - intros [-> H0]. apply (Permutation_in _ (Permutation_sym P)) || apply (Permutation_in _ P). destruct Hi as [<-|[<-|[<-|[<-|[<-|[]]]]]]; vm_compute in H0 |- *; intuition congruence.
  - intros Hj. apply (Permutation_in j (Permutation_sym P)) in Hj. destruct Hi as [<-|[<-|[<-|[<-|[<-|[]]]]]]; vm_compute in Hj; intuition (subst; cbn; lia).
Qed.

(** C122. Pseudo-hexagonal neighbourhoods on square grids. *)
Theorem C122_hexagonal : forall size s b N bg ords rnd ids c0 init n, square_grid size s ->
  (length size = 2%nat /\ PseudoHexagonalNeighborhoodBuilder2D RA = Ok b \/ length size = 3%nat /\ PseudoHexagonalNeighborhoodBuilder3D RA = Ok b) ->
  growth_nbhood RA s (Some b) = Ok N -> (forall t, legal (ords t)) -> Permutation ids (map s_id (sites s None)) -> phased ids init ->
  let between r := rlen r = Z.max 0 n + 1 /\ forall t, 0 <= t <= Z.max 0 n -> exists st, get_step r t = Ok st /\ phased ids st /\ forall p i, length p = length size -> cell s p i ->
    (forall d j, length d = length size -> within_vn t d -> cell s (shift p d) j -> occupied bg init j -> occupied bg st i) /\
    (occupied bg st i -> exists d j, length d = length size /\ within_moore t d /\ cell s (shift p d) j /\ occupied bg init j) in
  (exists o, run_sync (growth_controller N bg ords rnd) c0 init n = Ok o /\ between (o_result o)) /\
  (forall q sched, 1 <= q -> exists o, run_parallel (growth_controller N bg ords rnd) q sched c0 init n = Ok o /\ between (o_result o)).
Proof. exact C122_hexagonal_lemma. Qed.
Print Assumptions C122_hexagonal.
Example C122_hexagonal_example : exists s b N st, square_grid [3; 4] s /\ PseudoHexagonalNeighborhoodBuilder2D RA = Ok b /\ growth_nbhood RA s (Some b) = Ok N /\ phased (map s_id (sites s None)) st.
Proof.
  destruct (C67_exists_lemma [3; 4]) as [s SG]; [repeat constructor; lia|auto|]. destruct (square_facts _ _ SG) as [L G].
  pose proof (C47_solid_lemma R RA L s "a"%string (gf_built _ _ _ G)) as CF. exists s. destruct (proj1 (proj1 (C42_shapes_lemma _ s SG) eq_refl)) as (b & N & Eb & EN & _).
  exists b, N, (setup_solid_phase s "a"%string). split; [exact SG|]. split; [exact Eb|]. split; [exact EN|]. now apply (config_phased s _ _ L RA (gf_built _ _ _ G) CF).
Qed.

(** C122. Pseudo-pentagonal neighbourhoods on square grids. *)
Theorem C122_pentagonal : forall size s b N bg ords rnd ids c0 init n, square_grid size s -> length size = 2%nat -> PseudoPentagonalNeighborhoodBuilder RA = Ok b ->
  growth_nbhood RA s (Some b) = Ok N -> (forall t, legal (ords t)) -> Permutation ids (map s_id (sites s None)) -> phased ids init ->
  let within_reach r := rlen r = Z.max 0 n + 1 /\ forall t, 0 <= t <= Z.max 0 n -> exists st, get_step r t = Ok st /\ phased ids st /\ forall p i, length p = 2%nat -> cell s p i ->
    (occupied bg init i -> occupied bg st i) /\
    (occupied bg st i -> exists d j, length d = 2%nat /\ within_moore t d /\ cell s (shift p d) j /\ occupied bg init j) in
  (exists o, run_sync (growth_controller N bg ords rnd) c0 init n = Ok o /\ within_reach (o_result o)) /\
  (forall q sched, 1 <= q -> exists o, run_parallel (growth_controller N bg ords rnd) q sched c0 init n = Ok o /\ within_reach (o_result o)).
Proof. exact C122_pentagonal_lemma. Qed.
Print Assumptions C122_pentagonal.
Example C122_pentagonal_example : exists s b N st, square_grid [3; 4] s /\ PseudoPentagonalNeighborhoodBuilder RA = Ok b /\ growth_nbhood RA s (Some b) = Ok N /\ phased (map s_id (sites s None)) st.
Proof.
  destruct (C67_exists_lemma [3; 4]) as [s SG]; [repeat constructor; lia|auto|]. destruct (square_facts _ _ SG) as [L G].
  pose proof (C47_solid_lemma R RA L s "a"%string (gf_built _ _ _ G)) as CF. exists s. destruct (proj2 (proj1 (C42_shapes_lemma _ s SG) eq_refl)) as (b & N & Eb & EN & _).
  exists b, N, (setup_solid_phase s "a"%string). split; [exact SG|]. split; [exact Eb|]. split; [exact EN|]. now apply (config_phased s _ _ L RA (gf_built _ _ _ G) CF).
Qed.

(** C122. grow with the pseudo-hexagonal builder in two dimensions. *)
Theorem C122_grow : forall size n bg amts buffer b rnd ords ords' rnd' p sched np_sum,
  1 <= size -> 1 <= n -> amounts_ok bg amts -> (forall t, legal (ords t)) -> (forall t, legal (ords' t)) -> summation RA np_sum -> 1 <= p -> PseudoHexagonalNeighborhoodBuilder2D RA = Ok b ->
  exists g, (forall f1 f2, (n + 1) * Z.of_nat (length amts) <= Z.of_nat f1 -> 1000 * n + 2 <= Z.of_nat f2 ->
      grow RA f1 f2 np_sum rnd ords ords' rnd' p sched 2 size n bg amts (Some b) buffer = Some g) /\
    (g = Err RuntimeError \/ exists s st, g = Ok (mkSim st s) /\ square_grid [size; size] s /\
       site_ids st = map (fun x => KInt (s_id x)) (sites s None) /\
       forall i x, get_site s i = Some x -> exists q, holds st i q /\ q <> bg /\ In q (dkeys amts)).
Proof. exact C122_grow_lemma. Qed.
Print Assumptions C122_grow.
Example C122_grow_example : amounts_ok "bg" [("a"%string, 1%R); ("b"%string, 2%R)] /\ legal plain_oracle /\ exists b, PseudoHexagonalNeighborhoodBuilder2D RA = Ok b.
Proof.
  split; [|split; [apply plain_legal|eexists; reflexivity]].
  split; [repeat constructor; simpl; intuition discriminate|]. split; [simpl; intuition discriminate|]. split; [|unfold sum; simpl; lra].
  intros p a [E|[E|[]]]; injection E as _ <-; lra.
Qed.
