(** Life-like automata on grids of every size built in binary64: serial, parallel and asynchronous runs (C84, C110). *)
From Coq Require Import Reals Permutation.
From Flocq Require Import Core BinarySingleNaN.
From Verif Require Import Prelude Dict Val ValFacts Arith LatticeModel StructModel StateModel ResultModel RunnerModel NbModel GridModel SimModel SetupModel RulesModel
  SpecState SpecResult SpecRunner SpecGeom SpecNb SpecGrid SpecSetup SpecRules StateFacts ResultFacts RunnerFacts SyncFacts ParFacts ParRun GenRun
  LatticeFacts StructFacts StructMore NbFacts NbMore GridFacts GridMore GridNb SetupFacts RulesFacts LifeFacts LifeGen
  FloatArith SpecFloat64 FloatFacts FloatCoord FloatGrid FloatMore FloatNb LifeFloat LifeAsync.
Local Open Scope Z_scope.

Section FlLife.
  Context (n m : Z) (s : structure b64) (ords : nat -> @nb_oracle b64).
  Hypothesis Hn : 1 <= n <= 2 ^ 20.
  Hypothesis Hm : 1 <= m <= 2 ^ 20.
  Hypothesis FG : fl_grid [n; m] s.
  Hypothesis Sn : ~ falls_short n n.
  Hypothesis Sm : ~ falls_short m m.
  Hypothesis LO : forall t, legal (ords t).

  Lemma fl_life_nb : exists N nbs, (forall c st, life_pre_run FA s c st = Ok (Some N, snd c)) /\
    (forall o x y, legal o -> exists l, neighbors_of o N (fcell n m x y) = Ok l /\ Permutation l (nbs (fcell n m x y))) /\
    (forall x y, NoDup (nbs (fcell n m x y)) /\ forall j, In j (nbs (fcell n m x y)) <-> j <> fcell n m x y /\ exists dx dy, Z.abs dx <= 1 /\ Z.abs dy <= 1 /\ j = fcell n m (x + dx) (y + dy)).
  Proof.
    destruct (C75_moore_lemma n m 1 s Hn Hm ltac:(lia) FG) as (b & Eb & OKC & _).
    pose proof (lost_1 n ltac:(unfold M20; lia)) as LN. pose proof (lost_1 m ltac:(unfold M20; lia)) as LM.
    destruct OKC as (N & EN & HN); [tauto|tauto|].
    assert (HN' : forall o x y, legal o -> exists l, neighbors_of o N (fcell n m x y) = Ok l /\ NoDup l /\
      forall j, In j l <-> j <> fcell n m x y /\ exists dx dy, Z.abs dx <= 1 /\ Z.abs dy <= 1 /\ j = fcell n m (x + dx) (y + dy)).
    { intros o x y Lo. pose proof (Z.mod_pos_bound x m ltac:(lia)) as Bx. pose proof (Z.mod_pos_bound y n ltac:(lia)) as By.
      destruct (HN (y mod n) (x mod m) By Bx o Lo) as (l & El & ND & IN). exists l. split; [exact El|]. split; [exact ND|]. intros j. rewrite IN. fold (fcell n m x y).
      split; intros (D & dx & dy & A1 & A2 & E); (split; [exact D|]); exists dx, dy; (split; [exact A1|]); (split; [exact A2|]); rewrite E.
      - unfold fcell. now rewrite !Zplus_mod_idemp_l.
      - unfold fcell. now rewrite !Zplus_mod_idemp_l. }
    exists N, (fun i => match neighbors_of (ords 0%nat) N i with Ok l => l | Err _ => [] end). split; [|split].
    - intros c st. unfold life_pre_run. rewrite Eb. cbn [bind]. rewrite EN. reflexivity.
    - intros o x y Lo. destruct (HN' o x y Lo) as (l & El & ND & IN). destruct (HN' (ords 0%nat) x y (LO _)) as (l0 & El0 & ND0 & IN0). exists l. split; [exact El|]. rewrite El0.
      apply NoDup_Permutation; auto. intros j. rewrite IN, IN0. tauto.
    - intros x y. destruct (HN' (ords 0%nat) x y (LO _)) as (l0 & El0 & ND0 & IN0). rewrite El0. auto.
  Qed.

  Lemma fl_life_ids ids : Permutation ids (map s_id (sites s None)) ->
    Permutation ids (zrange 0 (n * m)) /\ (forall i, In i ids <-> exists x y, i = fcell n m x y).
  Proof.
    intros PI. destruct (fl_any n m s ltac:(unfold M20; lia) ltac:(unfold M20; lia) FG) as (DE & CT & GS & ALL & _).
    assert (PZ : Permutation ids (zrange 0 (n * m))) by (unfold dense in DE; rewrite DE, CT in PI; exact PI).
    assert (BND : forall x y, In (fcell n m x y) ids).
    { intros x y. apply (Permutation_in _ (Permutation_sym PZ)), zrange_In. unfold fcell. pose proof (Z.mod_pos_bound x m ltac:(lia)). pose proof (Z.mod_pos_bound y n ltac:(lia)). nia. }
    assert (OUT : forall i, In i ids -> exists x y, 0 <= x < m /\ 0 <= y < n /\ i = fcell n m x y).
    { intros i Hi. apply (Permutation_in _ PI) in Hi. apply in_map_iff in Hi as (z & <- & Hz). destruct (ALL z Hz) as (y & x & Hy & Hx & Gz).
      exists x, y. split; auto. split; auto. rewrite fcell_small by auto. destruct (GS y x Hy Hx) as (u & v & Gz' & _). rewrite Gz in Gz'. injection Gz' as ->. reflexivity. }
    split; [exact PZ|]. intros i. split; [intros H; destruct (OUT i H) as (x & y & _ & _ & E); eauto|]. intros (x & y & ->). apply BND.
  Qed.
End FlLife.

Lemma C84_every_lemma : forall n m s variant ords rnd ctl born survive init k, 1 <= n <= 2 ^ 20 -> 1 <= m <= 2 ^ 20 -> fl_grid [n; m] s -> ~ falls_short n n -> ~ falls_short m m -> (forall t, legal (ords t)) ->
  process_variant_string variant = Ok (born, survive) -> life_init FA s ords rnd variant = Ok ctl ->
  Permutation (site_ids init) (map (fun x => KInt (s_id x)) (sites s None)) ->
  (forall x y, holds init (y mod n * m + x mod m) "alive" \/ holds init (y mod n * m + x mod m) "dead") ->
  let rule := fun st st' x y => forall l, NoDup l ->
    (forall j, In j l <-> j <> y mod n * m + x mod m /\ exists dx dy, Z.abs dx <= 1 /\ Z.abs dy <= 1 /\ j = (y + dy) mod n * m + (x + dx) mod m) ->
    exists p, holds st (y mod n * m + x mod m) p /\ (p = "alive" \/ p = "dead")%string /\
      holds st' (y mod n * m + x mod m) (if existsb (Z.eqb (count_in st l "alive")) (if eqb p "alive"%string then survive else born) then "alive" else "dead") in
  (exists o, run_sync ctl (None, 0%nat) init k = Ok o /\ rlen (o_result o) = Z.max 0 k + 1 /\ get_step (o_result o) 0 = Ok init /\
     forall t, 0 <= t < Z.max 0 k -> exists st st', get_step (o_result o) t = Ok st /\ get_step (o_result o) (t + 1) = Ok st' /\ forall x y, rule st st' x y) /\
  (forall p sched, 1 <= p -> exists o, run_parallel ctl p sched (None, 0%nat) init k = Ok o /\ rlen (o_result o) = Z.max 0 k + 1 /\
     (exists st, get_step (o_result o) 0 = Ok st /\ forall x y q, holds st (y mod n * m + x mod m) q <-> holds init (y mod n * m + x mod m) q) /\
     forall t, 0 <= t < Z.max 0 k -> exists st st', get_step (o_result o) t = Ok st /\ get_step (o_result o) (t + 1) = Ok st' /\ forall x y, rule st st' x y) /\
  (exists o, run_async ctl (None, 0%nat) init k = Ok o /\ rlen (o_result o) = Z.max 0 k + 1 /\ get_step (o_result o) 0 = Ok init /\
     forall t, 0 <= t < Z.max 0 k -> exists st st' x y, get_step (o_result o) t = Ok st /\ get_step (o_result o) (t + 1) = Ok st' /\
       y mod n * m + x mod m = Z.of_nat (rnd (2 * Z.to_nat t)%nat) mod (n * m) /\ rule st st' x y /\
       forall j q, j <> y mod n * m + x mod m -> (holds st' j q <-> holds st j q)).
Proof.
  intros n m s variant ords rnd ctl born survive init k Hn Hm FG Sn Sm LO EV EI PI HV rule. unfold life_init in EI. rewrite EV in EI. cbn [bind] in EI. injection EI as <-.
  rewrite <- map_map in PI. apply map_KInt_inv in PI as (ids & EI & PI).
  destruct (fl_life_nb n m s ords Hn Hm FG Sn Sm LO) as (N & nbs & EP & NB0 & NIN). destruct (fl_life_ids n m s Hn Hm FG ids PI) as [PZ IDS].
  assert (INF : forall x y, In (fcell n m x y) ids) by (intros; apply IDS; eauto).
  assert (NI : NoDup ids) by (apply (Permutation_NoDup (Permutation_sym PZ)), zrange_NoDup).
  assert (NE : ids <> []) by (intros E; specialize (INF 0 0); rewrite E in INF; destruct INF).
  assert (NB : forall o i, legal o -> In i ids -> exists l, neighbors_of o N i = Ok l /\ Permutation l (nbs i)) by (intros o i Lo Hi; apply IDS in Hi as (x & y & ->); auto).
  assert (HI : forall i, In i ids -> incl (nbs i) ids) by (intros i Hi j Hj; apply IDS in Hi as (x & y & ->); apply NIN in Hj as (_ & dx & dy & _ & _ & ->); apply INF).
  pose (a := fun i => phase_at init i "alive").
  assert (LV : lives ids init a).
  { intros i Hi. apply IDS in Hi as (x & y & ->). unfold a. destruct (HV x y) as [H|H]; fold (fcell n m x y) in H; rewrite (holds_phase _ _ _ _ H); exact H. }
  assert (RULE : forall st st' b x y, lives ids st b -> holds st' (fcell n m x y) (if graph_next born survive nbs b (fcell n m x y) then "alive" else "dead") -> rule st st' x y).
  { intros st st' b x y L1 L2 l ND IN. fold (fcell n m x y) in *. exists (if b (fcell n m x y) then "alive"%string else "dead"%string). split; [apply L1, INF|]. split; [destruct (b _); auto|].
    assert (P : Permutation l (nbs (fcell n m x y))) by (destruct (NIN x y) as [ND0 IN0]; apply NoDup_Permutation; auto; intros j; rewrite IN, IN0; tauto).
    rewrite (lives_count ids st b l _ L1 (HI _ (INF x y)) P). unfold graph_next in L2. destruct (b (fcell n m x y)); exact L2. }
  destruct (life_graph FA s born survive ords rnd ids N nbs LO NI NE EP NB HI init a k EI LV) as [(o & E & RL & HS) PAR]. split; [|split].
  - exists o. split; [exact E|]. split; [exact RL|]. split.
    + destruct (HS 0 ltac:(lia)) as (st & E0 & _). rewrite E0. f_equal. unfold run_sync in E. apply bind_Ok in E as (c1 & _ & E). apply bind_Ok in E as ([[live ds] c2] & _ & E). injection E as <-.
      cbn [o_result] in E0. change 0 with (Z.of_nat 0) in E0. rewrite get_step_fresh, replay_0 in E0 by lia. congruence.
    + intros t Ht. destruct (HS t ltac:(lia)) as (st & E1 & _ & L1). destruct (HS (t + 1) ltac:(lia)) as (st' & E2 & _ & L2). exists st, st'. split; [exact E1|]. split; [exact E2|].
      replace (Z.to_nat (t + 1)) with (S (Z.to_nat t)) in L2 by lia. intros x y. exact (RULE st st' _ x y L1 (L2 _ (INF x y))).
  - intros p sched Hp. destruct (PAR p sched Hp) as (op & Ep & RLp & HP). exists op. split; [exact Ep|]. split; [exact RLp|]. split.
    + destruct (HP 0 ltac:(lia)) as (st & E0 & _ & L0). exists st. split; [exact E0|]. intros x y q. change (Z.to_nat 0) with 0%nat in L0. cbn [graph_after] in L0. fold (fcell n m x y).
      pose proof (L0 _ (INF x y)) as A1. pose proof (LV _ (INF x y)) as A2. split; intros H; [rewrite (holds_fun _ _ _ _ H A1)|rewrite (holds_fun _ _ _ _ H A2)]; auto.
    + intros t Ht. destruct (HP t ltac:(lia)) as (st & E1 & _ & L1). destruct (HP (t + 1) ltac:(lia)) as (st' & E2 & _ & L2). exists st, st'. split; [exact E1|]. split; [exact E2|].
      replace (Z.to_nat (t + 1)) with (S (Z.to_nat t)) in L2 by lia. intros x y. exact (RULE st st' _ x y L1 (L2 _ (INF x y))).
  - assert (HM : 0 < n * m) by nia.
    destruct (async_life FA s born survive ords rnd ids (n * m) N nbs LO HM PZ EP NB HI init a EI LV k) as (oa & Ea & RLa & GST).
    exists oa. split; [exact Ea|]. split; [exact RLa|]. split; [exact (GST 0 ltac:(lia))|]. intros t Ht.
    destruct (sts_shape born survive rnd ids (n * m) nbs HM PZ init a EI LV (Z.to_nat t)) as (_ & L1 & OTH). destruct (sts_shape born survive rnd ids (n * m) nbs HM PZ init a EI LV (S (Z.to_nat t))) as (_ & L2 & _).
    pose proof (drawn_In rnd ids (n * m) HM PZ (2 * Z.to_nat t)) as Hd. destruct (proj1 (IDS _) Hd) as (x & y & Exy).
    eexists. eexists. exists x, y. split; [apply GST; lia|]. split; [rewrite GST by lia; replace (Z.to_nat (t + 1)) with (S (Z.to_nat t)) by lia; reflexivity|].
    fold (fcell n m x y). split; [symmetry; exact Exy|]. split.
    + apply (RULE _ _ _ x y L1). pose proof (L2 _ (INF x y)) as X. cbn [pat] in X. rewrite <- Exy, Z.eqb_refl in X. rewrite <- Exy. exact X.
    + intros j q D. apply OTH. congruence.
Qed.
