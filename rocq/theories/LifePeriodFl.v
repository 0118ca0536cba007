(** Runs of life-like automata on binary64 grids repeat (C135). *)
From Coq Require Import Reals Permutation.
From Flocq Require Import Core BinarySingleNaN.
From Verif Require Import Prelude Dict Val ValFacts Arith LatticeModel StructModel StateModel ResultModel RunnerModel NbModel GridModel SimModel SetupModel RulesModel
  SpecState SpecResult SpecRunner SpecGeom SpecNb SpecGrid SpecSetup SpecRules StateFacts ResultFacts RunnerFacts SyncFacts ParFacts ParRun GenRun
  LatticeFacts StructFacts StructMore NbFacts NbMore GridFacts GridMore GridNb SetupFacts RulesFacts LifeFacts LifeGen
  FloatArith SpecFloat64 FloatFacts FloatCoord FloatGrid FloatMore FloatNb LifeFloat LifeAsync LifeFlAll LifePeriod.
Local Open Scope Z_scope.

Lemma C135_float_lemma : forall n m s variant ords rnd ctl born survive init, 1 <= n <= 2 ^ 20 -> 1 <= m <= 2 ^ 20 -> fl_grid [n; m] s -> ~ falls_short n n -> ~ falls_short m m -> (forall t, legal (ords t)) ->
  process_variant_string variant = Ok (born, survive) -> life_init FA s ords rnd variant = Ok ctl ->
  Permutation (site_ids init) (map (fun x => KInt (s_id x)) (sites s None)) ->
  (forall x y, holds init (y mod n * m + x mod m) "alive" \/ holds init (y mod n * m + x mod m) "dead") ->
  exists start period, 0 <= start /\ 1 <= period /\ start + period <= 2 ^ (n * m) /\
  forall k,
  (exists o, run_sync ctl (None, 0%nat) init k = Ok o /\
     forall t, start <= t -> t + period <= k -> exists st st', get_step (o_result o) t = Ok st /\ get_step (o_result o) (t + period) = Ok st' /\
       forall x y q, holds st (y mod n * m + x mod m) q <-> holds st' (y mod n * m + x mod m) q) /\
  (forall p sched, 1 <= p -> exists o, run_parallel ctl p sched (None, 0%nat) init k = Ok o /\
     forall t, start <= t -> t + period <= k -> exists st st', get_step (o_result o) t = Ok st /\ get_step (o_result o) (t + period) = Ok st' /\
       forall x y q, holds st (y mod n * m + x mod m) q <-> holds st' (y mod n * m + x mod m) q).
Proof.
  intros n m s variant ords rnd ctl born survive init Hn Hm FG Sn Sm LO EV EI PI HV. unfold life_init in EI. rewrite EV in EI. cbn [bind] in EI. injection EI as <-.
  rewrite <- map_map in PI. apply map_KInt_inv in PI as (ids & EI & PI).
  destruct (fl_life_nb n m s ords Hn Hm FG Sn Sm LO) as (N & nbs & EP & NB0 & NIN). destruct (fl_life_ids n m s Hn Hm FG ids PI) as [PZ IDS].
  assert (INF : forall x y, In (fcell n m x y) ids) by (intros; apply IDS; eauto).
  assert (NI : NoDup ids) by (apply (Permutation_NoDup (Permutation_sym PZ)), zrange_NoDup).
  assert (NE : ids <> []) by (intros E; specialize (INF 0 0); rewrite E in INF; destruct INF).
  assert (NB : forall o i, legal o -> In i ids -> exists l, neighbors_of o N i = Ok l /\ Permutation l (nbs i)) by (intros o i Lo Hi; apply IDS in Hi as (x & y & ->); auto).
  assert (HI : forall i, In i ids -> incl (nbs i) ids) by (intros i Hi j Hj; apply IDS in Hi as (x & y & ->); apply NIN in Hj as (_ & dx & dy & _ & _ & ->); apply INF).
  pose (a := fun i => phase_at init i "alive").
  assert (LV : lives ids init a).
  { intros i Hi. apply IDS in Hi as (x & y & ->). unfold a. destruct (HV x y) as [H|H]; fold (fcell n m x y) in H; rewrite (holds_phase _ _ _ _ H); exact H. }
  destruct (after_repeats born survive ids nbs HI a) as (x & y & Lxy & By & RP).
  assert (LEN : Z.of_nat (length ids) = n * m) by (apply Permutation_length in PZ; rewrite PZ; unfold zrange; rewrite map_length, seq_length; nia).
  exists (Z.of_nat x), (Z.of_nat y - Z.of_nat x). split; [lia|]. split; [lia|]. split.
  { rewrite <- LEN. replace (Z.of_nat x + (Z.of_nat y - Z.of_nat x)) with (Z.of_nat y) by lia. apply inj_le in By. rewrite Nat2Z.inj_pow in By. exact By. }
  assert (SAME : forall r k, (forall t, 0 <= t <= Z.max 0 k -> exists st, get_step r t = Ok st /\ site_ids st = site_ids init /\ lives ids st (graph_after born survive nbs (Z.to_nat t) a)) ->
    forall t, Z.of_nat x <= t -> t + (Z.of_nat y - Z.of_nat x) <= k -> exists st st', get_step r t = Ok st /\ get_step r (t + (Z.of_nat y - Z.of_nat x)) = Ok st' /\
       forall u v q, holds st (fcell n m u v) q <-> holds st' (fcell n m u v) q).
  { intros r k HS t H1 H2. destruct (HS t ltac:(lia)) as (st & E1 & _ & V1). destruct (HS (t + (Z.of_nat y - Z.of_nat x)) ltac:(lia)) as (st' & E2 & _ & V2). exists st, st'. split; [exact E1|]. split; [exact E2|].
    intros u v q. pose proof (INF u v) as Hi'. specialize (V1 _ Hi'). specialize (V2 _ Hi').
    replace (Z.to_nat t) with (x + (Z.to_nat t - x))%nat in V1 by lia. replace (Z.to_nat (t + (Z.of_nat y - Z.of_nat x))) with (y + (Z.to_nat t - x))%nat in V2 by lia.
    rewrite (RP _ _ Hi') in V1. split; intros H; [rewrite (holds_fun _ _ _ _ H V1); exact V2|rewrite (holds_fun _ _ _ _ H V2); exact V1]. }
  intros k. destruct (life_graph FA s born survive ords rnd ids N nbs LO NI NE EP NB HI init a k EI LV) as [(o & E & _ & HS) PAR]. split.
  - exists o. split; [exact E|]. exact (SAME _ _ HS).
  - intros p sched Hp. destruct (PAR p sched Hp) as (op & Ep & _ & HP). exists op. split; [exact Ep|]. exact (SAME _ _ HP).
Qed.
