(** Property C137: phase fractions in growth runs. *)
From Coq Require Import Reals.
From Flocq Require Import Core Binary BinarySingleNaN Bits.
From Verif Require Import Prelude Dict Val ValFacts Arith RealArith LatticeModel StructModel StateModel ResultModel RunnerModel NbModel RulesModel AnalyzerModel SpecState SpecResult SpecRunner SpecNb SpecRules SpecAnalyze RulesMore FloatArith SpecFloat64 GrowCount.
Local Open Scope Z_scope.

(** C137. Serial growth. *)
Theorem C137_serial : forall F (N : nbhood F) bg ords rnd ids c0 init n,
  (forall t, legal (ords t)) -> NoDup ids -> ids <> [] -> has_neighbours ids N -> phased ids init -> ided init ->
  exists o, run_sync (growth_controller N bg ords rnd) c0 init n = Ok o /\
  forall t t' p, 0 <= t -> t <= t' -> t' <= Z.max 0 n ->
    (exists x x', phase_fraction_at RA (o_result o) t (VStr p) = Ok x /\ phase_fraction_at RA (o_result o) t' (VStr p) = Ok x' /\ (p = bg -> x' <= x)%R /\ (p <> bg -> x <= x')%R) /\
    (Z.of_nat (length ids) < 2 ^ 53 ->
     exists x x', phase_fraction_at FA (o_result o) t (VStr p) = Ok x /\ phase_fraction_at FA (o_result o) t' (VStr p) = Ok x' /\ is_finite x = true /\ is_finite x' = true /\ (p = bg -> B2R x' <= B2R x)%R /\ (p <> bg -> B2R x <= B2R x')%R).
Proof. exact C137_serial_lemma. Qed.
Print Assumptions C137_serial.
Example C137_serial_example : NoDup [0; 1; 2; 3; 4] /\ has_neighbours [0; 1; 2; 3; 4] (NGraph row_graph) /\ phased [0; 1; 2; 3; 4] (row_state ["a"; "bg"; "bg"; "bg"; "b"]%string) /\ ided (row_state ["a"; "bg"; "bg"; "bg"; "b"]%string).
Proof.
  split; [repeat constructor; simpl; intuition lia|]. split; [exact row_neighbours|]. split; [now apply row_phased|]. split; [repeat constructor; simpl; intuition congruence|].
  intros k d E. unfold get_site_state in E. cbn [row_state s_sites combine map fst snd dget] in E.
  repeat match type of E with (if eqb k ?x then _ else _) = _ => destruct (eqb_spec k x) as [->|]; [injection E as <-; reflexivity|] end. discriminate.
Qed.

(** C137. Asynchronous growth. *)
Theorem C137_async : forall F (N : nbhood F) bg ords rnd m c0 init n,
  (forall t, legal (ords t)) -> 0 < m -> has_neighbours (zrange 0 m) N -> phased (zrange 0 m) init -> ided init ->
  exists o, run_async (growth_controller N bg ords rnd) c0 init n = Ok o /\
  forall t t' p, 0 <= t -> t <= t' -> t' <= Z.max 0 n ->
    (exists x x', phase_fraction_at RA (o_result o) t (VStr p) = Ok x /\ phase_fraction_at RA (o_result o) t' (VStr p) = Ok x' /\ (p = bg -> x' <= x)%R /\ (p <> bg -> x <= x')%R) /\
    (m < 2 ^ 53 ->
     exists x x', phase_fraction_at FA (o_result o) t (VStr p) = Ok x /\ phase_fraction_at FA (o_result o) t' (VStr p) = Ok x' /\ is_finite x = true /\ is_finite x' = true /\ (p = bg -> B2R x' <= B2R x)%R /\ (p <> bg -> B2R x <= B2R x')%R).
Proof. exact C137_async_lemma. Qed.
Print Assumptions C137_async.
Example C137_async_example : has_neighbours (zrange 0 5) (NGraph row_graph) /\ phased (zrange 0 5) (row_state ["a"; "bg"; "bg"; "bg"; "b"]%string).
Proof. split; [exact row_neighbours|now apply row_phased]. Qed.

(** C137. Parallel growth: the background. *)
Theorem C137_parallel : forall F (N : nbhood F) bg ords rnd ids w sched c0 init n,
  (forall t, legal (ords t)) -> NoDup ids -> ids <> [] -> has_neighbours ids N -> phased ids init -> ided init -> 1 <= w ->
  exists o, run_parallel (growth_controller N bg ords rnd) w sched c0 init n = Ok o /\
  forall t t', 0 <= t -> t <= t' -> t' <= Z.max 0 n ->
    (exists x x', phase_fraction_at RA (o_result o) t (VStr bg) = Ok x /\ phase_fraction_at RA (o_result o) t' (VStr bg) = Ok x' /\ (x' <= x)%R) /\
    (Z.of_nat (length ids) < 2 ^ 53 ->
     exists x x', phase_fraction_at FA (o_result o) t (VStr bg) = Ok x /\ phase_fraction_at FA (o_result o) t' (VStr bg) = Ok x' /\ is_finite x = true /\ is_finite x' = true /\ (B2R x' <= B2R x)%R).
Proof. exact C137_parallel_lemma. Qed.
Print Assumptions C137_parallel.
Example C137_parallel_example : exists o, run_parallel (growth_controller (NGraph row_graph) "bg" (fun _ => list_oracle) (fun _ => 0%nat)) 2 late 0%nat (row_state ["a"; "bg"; "bg"; "bg"; "b"]%string) 3 = Ok o /\ rlen (o_result o) = 4.
Proof. eexists. split; vm_compute; reflexivity. Qed.

(** C137. In parallel runs other phases can lose cells. *)
Theorem C137_parallel_falls : exists (N : nbhood Z) bg ords rnd ids w sched init n o t t' a k k' st st',
  (forall t, legal (ords t)) /\ NoDup ids /\ has_neighbours ids N /\ phased ids init /\ ided init /\ 1 <= w /\ (forall t b, Z.of_nat (sched t b) < w) /\
  run_parallel (growth_controller N bg ords rnd) w sched 0%nat init n = Ok o /\ 0 <= t <= t' /\ a <> bg /\
  get_step (o_result o) t = Ok st /\ get_step (o_result o) t' = Ok st' /\
  cell_count (F := Z) None st (VStr a) = Ok k /\ cell_count (F := Z) None st' (VStr a) = Ok k' /\ k' < k.
Proof. exact C137_falls_lemma. Qed.
Print Assumptions C137_parallel_falls.
