(** Growth with neighbourhoods that are drawn anew (C122). *)
From Coq Require Import Reals Permutation Wf_nat.
From Verif Require Import Prelude Dict Val ValFacts Arith RealArith LatticeModel StructModel StateModel ResultModel RunnerModel NbModel GridModel SimModel SetupModel RulesModel
  SpecState SpecResult SpecRunner SpecGeom SpecNb SpecGrid SpecSetup SpecRules StateFacts ResultFacts RunnerFacts SyncFacts ParFacts ParRun GenRun
  LatticeFacts StructFacts StructMore NbFacts NbMore GridFacts GridMore GridNb NbShapes SetupFacts SetupMore NucFacts NucMore RulesFacts RulesMore LifeFacts GrowBall GrowAll.
Local Open Scope Z_scope.

Section Between.
  Context {F : Type} (N : nbhood F) (bg : string) (ords : nat -> @nb_oracle F) (rnd : nat -> nat) (ids : list Z).
  Hypothesis (LO : forall t, legal (ords t)) (NI : NoDup ids) (HN : has_neighbours ids N).
  Variables (init : sstate) (U : nat -> dict key pdict) (n : nat).
  Hypothesis PI : phased ids init.
  Hypothesis HU : forall t, (t < n)%nat -> NoDup (dkeys (U t)) /\ Permutation (dkeys (U t)) (map KInt ids) /\
    forall id u, In (id, u) (U t) -> exists v, view U init t v /\ phased ids v /\ ans_on (growth_controller N bg ords rnd) grow_upd (fun _ => True) v id u.
  Notation upd t i q := (dget (KInt i) (U t) = Some [(KStr "DISCRETE_OCCUPANCY", VStr q)]).

  Lemma any_seen t v i : (t <= n)%nat -> view U init t v -> In i ids -> occupied bg init i \/ (exists t' q, t = S t' /\ upd t' i q) -> occupied bg v i.
  Proof.
    intros L V. revert L i. induction V as [|t|t t' w V IH L']; intros L i Hi H.
    - destruct H as [H|(t' & q & E & _)]; [auto|discriminate].
    - destruct (HU t ltac:(lia)) as (A & B & D). destruct (upd_of_site N bg ords rnd ids LO HN init U n HU t i ltac:(lia) Hi) as (u & Eu & [Eu'|(q & Eu')] & _); subst u.
      + destruct H as [(p & Hp & Dp)|(t' & q & E & Eq)]; [|injection E as <-; congruence]. exists p. split; auto. eapply step_keep; eauto.
      + exists q. split; [eapply step_put; eauto|]. apply (assigned N bg ords rnd ids LO NI HN init U n PI HU t ltac:(lia) i q); auto.
    - destruct (HU t ltac:(lia)) as (A & B & D). assert (Pw : phased ids w) by (apply (view_phased N bg ords rnd ids LO NI init U n PI HU t'); auto; lia).
      destruct (upd_of_site N bg ords rnd ids LO HN init U n HU t i ltac:(lia) Hi) as (u & Eu & [Eu'|(q & Eu')] & _); subst u.
      + destruct H as [H|(t2 & q & E & Eq)]; [|injection E as <-; congruence].
        destruct (IH ltac:(lia) i Hi (or_introl H)) as (p & Hp & Dp). exists p. split; auto. eapply step_keep; eauto.
      + exists q. split; [eapply step_put; eauto|]. apply (assigned N bg ords rnd ids LO NI HN init U n PI HU t ltac:(lia) i q); auto.
  Qed.
  Lemma put_occ t i q : (t < n)%nat -> In i ids -> upd t i q -> occupied bg (after U init (S t)) i.
  Proof.
    intros Ht Hi E. destruct (HU t Ht) as (A & B & D). rewrite after_S. exists q. split; [eapply step_put; eauto; apply (spread_phased N bg ords rnd ids LO NI init U n PI HU); lia|].
    apply (assigned N bg ords rnd ids LO NI HN init U n PI HU t Ht i q); auto.
  Qed.
  Lemma stay_le t t' i : (t <= t' <= n)%nat -> In i ids -> occupied bg (after U init t) i -> occupied bg (after U init t') i.
  Proof.
    intros [L L'] Hi H. induction L as [|t' L IH]; auto. apply (occupied_stays N bg ords rnd ids LO NI HN init U n PI HU); auto. apply IH. lia.
  Qed.
  (** What a worker sees as occupied is occupied. *)
  Lemma view_occ t v : (t <= n)%nat -> view U init t v -> forall i, In i ids -> occupied bg v i -> occupied bg (after U init t) i.
  Proof.
    intros L V. revert L. induction V as [|t|t t' w V IH L']; intros L i Hi (p & Hp & Dp).
    - exists p. auto.
    - destruct (step_holds N bg ords rnd ids LO HN init U n HU init t i p ltac:(lia) Hi PI Hp) as [[_ H]|H].
      + apply (stay_le 0); auto; [lia|exists p; auto].
      + apply (put_occ t i p); auto.
    - destruct (step_holds N bg ords rnd ids LO HN init U n HU w t i p ltac:(lia) Hi) as [[_ H]|H]; auto.
      + apply (view_phased N bg ords rnd ids LO NI init U n PI HU t'); auto. lia.
      + apply (stay_le t'); [lia|exact Hi|]. apply IH; [lia|exact Hi|exists p; auto].
      + apply (put_occ t i p); auto.
  Qed.

  Variables lo up : Z -> Z -> Prop.
  Hypothesis HLO : forall o i l j, legal o -> In i ids -> neighbors_of o N i = Ok l -> lo i j -> In j l.
  Hypothesis HUP : forall o i l j, legal o -> In i ids -> neighbors_of o N i = Ok l -> In j l -> up i j.

  Lemma one_hop t : (t < n)%nat -> forall i m, In i ids -> lo i m -> occupied bg (after U init t) m -> occupied bg (after U init (S t)) i.
  Proof.
    induction t as [|t IH]; intros Ht i m Hi R O.
    - destruct (upd_of_site N bg ords rnd ids LO HN init U n HU 0 i Ht Hi) as (u & Eu & _ & v & c & l & Vv & Pv & EL & IL & _ & _ & U3).
      pose proof (HLO (ords c) i l m (LO c) Hi EL R) as Hm.
      assert (Ov : occupied bg v m) by (apply (any_seen 0 v m); auto; lia).
      destruct (proj2 Pv i Hi) as [p Hp]. destruct (eqb_spec p bg) as [->|D].
      + destruct (U3 Hp (ex_intro _ m (conj Hm Ov))) as (q & -> & _). now apply (put_occ 0 i q).
      + apply (stay_le 0); auto. apply (view_occ 0 v); auto; [lia|exists p; auto].
    - destruct (HN (ords 0%nat) i (LO 0%nat) Hi) as (l0 & El0 & Il0). pose proof (Il0 _ (HLO _ _ _ _ (LO 0%nat) Hi El0 R)) as Im.
      destruct O as (p & Hp & Dp). rewrite after_S in Hp. pose proof (spread_phased N bg ords rnd ids LO NI init U n PI HU t ltac:(lia)) as Pt.
      destruct (step_holds N bg ords rnd ids LO HN init U n HU _ t m p ltac:(lia) Im Pt Hp) as [[_ H]|H].
      + apply (stay_le (S t)); auto. apply (IH ltac:(lia) i m Hi R). exists p. auto.
      + destruct (upd_of_site N bg ords rnd ids LO HN init U n HU (S t) i Ht Hi) as (u & Eu & _ & v & c & l & Vv & Pv & EL & IL & _ & _ & U3).
        pose proof (HLO (ords c) i l m (LO c) Hi EL R) as Hm.
        assert (Ov : occupied bg v m) by (apply (any_seen (S t) v m); auto; [lia|right; exists t, p; auto]).
        destruct (proj2 Pv i Hi) as [r Hr]. destruct (eqb_spec r bg) as [->|D].
        * destruct (U3 Hr (ex_intro _ m (conj Hm Ov))) as (q & -> & _). now apply (put_occ (S t) i q).
        * apply (stay_le (S t)); auto. apply (view_occ (S t) v); auto; [lia|exists r; auto].
  Qed.
  Lemma at_least t : (t <= n)%nat -> forall i j, In i ids -> within lo t i j -> occupied bg init j -> occupied bg (after U init t) i.
  Proof.
    induction t as [|t IH]; intros Ht i j Hi W O.
    - inversion W; subst. exact O.
    - inversion W as [? ?|? ? m ? R W']; subst.
      + apply (stay_le 0); auto. lia.
      + destruct (HN (ords 0%nat) i (LO 0%nat) Hi) as (l0 & El0 & Il0). pose proof (Il0 _ (HLO _ _ _ _ (LO 0%nat) Hi El0 R)) as Im.
        apply (one_hop t ltac:(lia) i m); auto. apply (IH ltac:(lia) m j); auto.
  Qed.

  Lemma view_up t v : (t <= n)%nat -> (forall t', (t' < t)%nat -> forall i q, In i ids -> upd t' i q -> near bg init up (S t') i) ->
    view U init t v -> forall i, In i ids -> occupied bg v i -> near bg init up t i.
  Proof.
    intros L HQ V. revert L HQ. induction V as [|t|t t' w V IH L']; intros L HQ i Hi (p & Hp & Dp).
    - exists i. split; [constructor|exists p; auto].
    - destruct (step_holds N bg ords rnd ids LO HN init U n HU init t i p ltac:(lia) Hi PI Hp) as [[_ H]|H]; [exists i; split; [constructor|exists p; auto]|]. apply (HQ t ltac:(lia) i p); auto.
    - destruct (step_holds N bg ords rnd ids LO HN init U n HU w t i p ltac:(lia) Hi) as [[_ H]|H]; auto.
      + apply (view_phased N bg ords rnd ids LO NI init U n PI HU t'); auto. lia.
      + apply near_le with t'; auto. apply (IH ltac:(lia)); auto; [|exists p; auto]. intros s Hs. apply HQ. lia.
      + apply (HQ t ltac:(lia) i p); auto.
  Qed.
  Lemma assigned_up t : (t < n)%nat -> forall i q, In i ids -> upd t i q -> near bg init up (S t) i.
  Proof.
    induction t as [t IH] using lt_wf_ind. intros Ht i q Hi E. destruct (upd_of_site N bg ords rnd ids LO HN init U n HU t i Ht Hi) as (u & Eu & _ & v & c & l & Vv & Pv & EL & IL & U1 & U2 & U3).
    rewrite E in Eu. injection Eu as <-. destruct (proj2 Pv i Hi) as [p Hp]. destruct (eqb_spec p bg) as [Ep|D].
    2:{ exfalso. specialize (U1 (ex_intro _ p (conj Hp D))). discriminate. }
    subst p. destruct (existsb (fun j => negb (phase_at v j bg)) l) eqn:X.
    - apply existsb_exists in X as (j & Hj & X). apply near_hop with j; [eapply HUP; eauto|].
      apply (view_up t v ltac:(lia)); auto.
      + intros t' Ht' i' q'. apply IH; lia.
      + destruct (proj2 Pv j (IL j Hj)) as [r Hr]. exists r. split; auto. intros ->. rewrite (holds_phase _ _ _ _ Hr), eqb_refl in X. discriminate.
    - exfalso. specialize (U2 Hp). assert (X2 : [(KStr "DISCRETE_OCCUPANCY", VStr q)] = []); [|discriminate]. apply U2. intros j Hj.
      destruct (proj2 Pv j (IL j Hj)) as [r Hr]. destruct (eqb_spec r bg) as [Er|D]; [congruence|].
      exfalso. assert (existsb (fun j => negb (phase_at v j bg)) l = true); [|congruence]. apply existsb_exists. exists j. split; auto.
      rewrite (holds_phase _ _ _ _ Hr), eqb_neq; auto.
  Qed.
  Lemma at_most t : (t <= n)%nat -> forall i, In i ids -> occupied bg (after U init t) i -> near bg init up t i.
  Proof. intros L i Hi H. apply (view_up t (after U init t) L); auto using after_view. intros t' Ht'. apply assigned_up. lia. Qed.
End Between.

Lemma C122_lemma : forall F (N : nbhood F) bg ords rnd ids c0 init n (lo up : Z -> Z -> Prop),
  (forall t, legal (ords t)) -> NoDup ids -> ids <> [] -> has_neighbours ids N -> phased ids init ->
  (forall o i l j, legal o -> In i ids -> neighbors_of o N i = Ok l -> (lo i j -> In j l) /\ (In j l -> up i j)) ->
  let between r := rlen r = Z.max 0 n + 1 /\ forall t, 0 <= t <= Z.max 0 n -> exists st, get_step r t = Ok st /\ phased ids st /\ forall i, In i ids ->
    (forall j, within lo (Z.to_nat t) i j -> occupied bg init j -> occupied bg st i) /\ (occupied bg st i -> exists j, within up (Z.to_nat t) i j /\ occupied bg init j) in
  (exists o, run_sync (growth_controller N bg ords rnd) c0 init n = Ok o /\ between (o_result o)) /\
  (forall q sched, 1 <= q -> exists o, run_parallel (growth_controller N bg ords rnd) q sched c0 init n = Ok o /\ between (o_result o)).
Proof.
  intros F N bg ords rnd ids c0 init n lo up LO NI NE HN PI HB between.
  assert (HLO : forall o i l j, legal o -> In i ids -> neighbors_of o N i = Ok l -> lo i j -> In j l) by (intros o i l j Lo Hi El; apply (HB o i l j Lo Hi El)).
  assert (HUP : forall o i l j, legal o -> In i ids -> neighbors_of o N i = Ok l -> In j l -> up i j) by (intros o i l j Lo Hi El; apply (HB o i l j Lo Hi El)).
  assert (FIN : forall U r, (forall t, (t <= Z.to_nat n)%nat -> get_step r (Z.of_nat t) = Ok (after U init t)) -> rlen r = Z.max 0 n + 1 ->
    (forall t, (t < Z.to_nat n)%nat -> NoDup (dkeys (U t)) /\ Permutation (dkeys (U t)) (map KInt ids) /\
       forall id u, In (id, u) (U t) -> exists v, view U init t v /\ phased ids v /\ ans_on (growth_controller N bg ords rnd) grow_upd (fun _ => True) v id u) -> between r).
  { intros U r GS RL HU. split; auto. intros t Ht. exists (after U init (Z.to_nat t)). split; [rewrite <- (GS (Z.to_nat t)) by lia; f_equal; lia|].
    split; [apply (spread_phased N bg ords rnd ids LO NI init U (Z.to_nat n) PI HU); lia|]. intros i Hi. split.
    - intros j W O. apply (at_least N bg ords rnd ids LO NI HN init U (Z.to_nat n) PI HU lo up HLO HUP) with (j := j); auto. lia.
    - intros O. apply (at_most N bg ords rnd ids LO NI HN init U (Z.to_nat n) PI HU lo up HLO HUP (Z.to_nat t)); auto. lia. }
  split.
  - destruct (grow_sync N bg ords rnd ids LO NI NE HN c0 init n PI) as (U & o & E & L & _ & GS & HU). exists o. split; auto. apply (FIN U); auto.
    intros s Hs. destruct (HU s Hs) as (A & B & D & G). split; auto. split; auto. intros id u H. exists (after U init s). split; [apply after_view|auto].
  - intros q sched Hq. destruct (grow_par N bg ords rnd ids LO NI NE HN q sched c0 init n PI Hq) as (U & o & E & L & GS & HU). exists o. split; auto. apply (FIN U); auto.
Qed.

(** Neighbourhoods that draw one of several shapes on a torus. *)
Lemma torus_between size s E shape (N : nbhood R) (P Q : nat -> list Z -> Prop) bg ords rnd ids c0 init n : square_grid size s -> draws_shape size s E shape N ->
  balls (length size) P -> balls (length size) Q -> (forall e d, E e -> length d = length size -> (P 1%nat d -> shape e d) /\ (shape e d -> Q 1%nat d)) ->
  (forall t, legal (ords t)) -> Permutation ids (map s_id (sites s None)) -> phased ids init ->
  let between r := rlen r = Z.max 0 n + 1 /\ forall t, 0 <= t <= Z.max 0 n -> exists st, get_step r t = Ok st /\ phased ids st /\ forall p i, length p = length size -> cell s p i ->
    (forall d j, length d = length size -> P (Z.to_nat t) d -> cell s (shift p d) j -> occupied bg init j -> occupied bg st i) /\
    (occupied bg st i -> exists d j, length d = length size /\ Q (Z.to_nat t) d /\ cell s (shift p d) j /\ occupied bg init j) in
  (exists o, run_sync (growth_controller N bg ords rnd) c0 init n = Ok o /\ between (o_result o)) /\
  (forall q sched, 1 <= q -> exists o, run_parallel (growth_controller N bg ords rnd) q sched c0 init n = Ok o /\ between (o_result o)).
Proof.
  intros SG [DS _] BP BQ SH LO PI PH between. destruct (square_facts _ _ SG) as [L G].
  assert (TOT : forall p, length p = length size -> exists i, cell s p i) by (intros p Lp; eexists; apply (gf_cell _ _ _ G p Lp)).
  assert (SHI : forall p q d i j, length p = length size -> length q = length size -> length d = length size -> cell s p i -> cell s q i -> cell s (shift p d) j -> cell s (shift q d) j).
  { intros p q d i j Lp Lq Ld Cp Cq Cs. apply (cell_same size s L (shift p d)); auto; [rewrite shift_length; congruence|]. apply same_shift; [now rewrite extents_length|].
    apply (cell_iff size s L p q i i); auto. }
  assert (NI : NoDup ids) by (apply (Permutation_NoDup (Permutation_sym PI)), dense_NoDup, (built_dense RA L s (gf_built _ _ _ G))).
  assert (NE : ids <> []).
  { pose proof (gf_count _ _ _ G) as CT. pose proof (prod_pos _ (gf_pos _ _ _ G)). intros X. rewrite X in PI. apply Permutation_nil, map_eq_nil in PI. rewrite PI in CT. simpl in CT. lia. }
  assert (IDS : forall i, In i ids <-> exists p, length p = length size /\ cell s p i).
  { intros i. split.
    + intros Hi. apply (Permutation_in _ PI) in Hi. apply (get_site_ids RA L s i (gf_built _ _ _ G)) in Hi as [z Gz]. destruct (site_cell _ _ _ _ _ G Gz) as (p & Lp & _ & _ & Cp & _). eauto.
    + intros (p & Lp & Cp). apply (Permutation_in _ (Permutation_sym PI)). apply (get_site_ids RA L s i (gf_built _ _ _ G)). unfold cell, id_at in Cp.
      apply bind_Ok in Cp as (o & X & Cp). destruct o as [y|]; [|discriminate]. injection Cp as <-. exists y.
      pose proof (site_at_found RA L s _ y (gf_built _ _ _ G) X) as H. destruct (built_inv RA L s (gf_built _ _ _ G)) as [h I]. apply (inv_get_site RA L h s _ y I). auto. }
  assert (HN : has_neighbours ids N).
  { intros o i Lo Hi. apply IDS in Hi as (p & Lp & Cp). destruct (DS o Lo) as (e & _ & A). destruct (A p i Lp Cp) as (l & El & _ & IN). exists l. split; auto.
    intros j Hj. apply IN in Hj as (_ & d & Ld & _ & Cd). apply IDS. exists (shift p d). split; auto. rewrite shift_length; congruence. }
  assert (HB : forall o i l j, legal o -> In i ids -> neighbors_of o N i = Ok l -> (ball_rel (cell s) (length size) P i j -> In j l) /\ (In j l -> ball_rel (cell s) (length size) Q i j)).
  { intros o i l j Lo Hi El. apply IDS in Hi as (p & Lp & Cp). destruct (DS o Lo) as (e & He & A). destruct (A p i Lp Cp) as (l' & El' & _ & IN). rewrite El in El'. injection El' as <-. rewrite IN. split.
    - intros (Nj & q & d & Lq & Ld & Bd & Cq & Cd). split; auto. exists d. split; auto. split; [now apply (SH e d He Ld)|]. apply (SHI q p d i j); auto.
    - intros (Nj & d & Ld & Sd & Cd). split; auto. exists p, d. split; auto. split; auto. split; [now apply (SH e d He Ld)|]. auto. }
  assert (FIN : forall r, (rlen r = Z.max 0 n + 1 /\ forall t, 0 <= t <= Z.max 0 n -> exists st, get_step r t = Ok st /\ phased ids st /\ forall i, In i ids ->
    (forall j, within (ball_rel (cell s) (length size) P) (Z.to_nat t) i j -> occupied bg init j -> occupied bg st i) /\
    (occupied bg st i -> exists j, within (ball_rel (cell s) (length size) Q) (Z.to_nat t) i j /\ occupied bg init j)) -> between r).
  { intros r [RL H]. split; auto. intros t Ht. destruct (H t Ht) as (st & Es & Ps & K). exists st. split; auto. split; auto. intros p i Lp Cp.
    destruct (K i ltac:(apply IDS; eauto)) as [K1 K2]. split.
    - intros d j Ld Pd Cd O. apply (K1 j); auto. apply (reach_iff (cell s) (length size) P TOT (cell_fun s) SHI BP _ p i j Lp Cp). eauto.
    - intros O. destruct (K2 O) as (j & W & Oj). apply (reach_iff (cell s) (length size) Q TOT (cell_fun s) SHI BQ _ p i j Lp Cp) in W as (d & Ld & Qd & Cd). exists d, j. auto. }
  destruct (C122_lemma R N bg ords rnd ids c0 init n _ _ LO NI NE HN PH HB) as [(o & Eo & B1) PAR]. split.
  - exists o. split; auto.
  - intros q sched Hq. destruct (PAR q sched Hq) as (o' & Eo' & B2). exists o'. split; auto.
Qed.

Lemma vn1_abs d : within_vn 1 d -> Forall (fun a => Z.abs a <= 1) d.
Proof. intros H. apply vn_moore in H. exact H. Qed.

Lemma C122_hexagonal_lemma : forall size s b N bg ords rnd ids c0 init n, square_grid size s ->
  (length size = 2%nat /\ PseudoHexagonalNeighborhoodBuilder2D RA = Ok b \/ length size = 3%nat /\ PseudoHexagonalNeighborhoodBuilder3D RA = Ok b) ->
  growth_nbhood RA s (Some b) = Ok N -> (forall t, legal (ords t)) -> Permutation ids (map s_id (sites s None)) -> phased ids init ->
  let between r := rlen r = Z.max 0 n + 1 /\ forall t, 0 <= t <= Z.max 0 n -> exists st, get_step r t = Ok st /\ phased ids st /\ forall p i, length p = length size -> cell s p i ->
    (forall d j, length d = length size -> within_vn t d -> cell s (shift p d) j -> occupied bg init j -> occupied bg st i) /\
    (occupied bg st i -> exists d j, length d = length size /\ within_moore t d /\ cell s (shift p d) j /\ occupied bg init j) in
  (exists o, run_sync (growth_controller N bg ords rnd) c0 init n = Ok o /\ between (o_result o)) /\
  (forall q sched, 1 <= q -> exists o, run_parallel (growth_controller N bg ords rnd) q sched c0 init n = Ok o /\ between (o_result o)).
Proof.
  intros size s b N bg ords rnd ids c0 init n SG HB EN LO PI PH between. unfold growth_nbhood in EN. cbn [bind] in EN.
  assert (T : draws_shape size s (diagonal_of (length size)) hexagonal N).
  { destruct (C42_shapes_lemma size s SG) as [H2 H3]. destruct HB as [[D Eb]|[D Eb]]; rewrite D.
    - destruct (proj1 (H2 D)) as (b1 & N1 & Eb1 & EN' & T). assert (b = b1) by congruence. subst. assert (N = N1) by congruence. now subst.
    - destruct (H3 D) as (b1 & N1 & Eb1 & EN' & T). assert (b = b1) by congruence. subst. assert (N = N1) by congruence. now subst. }
  destruct (torus_between size s _ _ N (fun k => within_vn (1 * Z.of_nat k)) (fun k => within_moore (1 * Z.of_nat k)) bg ords rnd ids c0 init n SG T (vn_balls _ 1 ltac:(lia)) (moore_balls _ 1 ltac:(lia))) as [(o & Eo & RL & H) PAR]; auto.
  { intros e d [Le He] Ld. change (1 * Z.of_nat 1) with 1. split; [unfold hexagonal; auto|]. intros [V|[->| ->]].
    - now apply vn_moore.
    - unfold within_moore. eapply Forall_impl; [|exact He]. cbn; intros; lia.
    - unfold within_moore. rewrite Forall_map. eapply Forall_impl; [|exact He]. cbn; intros; lia. }
  split.
  - exists o. split; auto. split; auto. intros t Ht. destruct (H t Ht) as (st & Es & Ps & K). exists st. split; auto. split; auto. intros p i Lp Cp. specialize (K p i Lp Cp). rewrite Z2Nat.id, Z.mul_1_l in K by lia. exact K.
  - intros q sched Hq. destruct (PAR q sched Hq) as (o' & Eo' & RL' & H'). exists o'. split; auto. split; auto. intros t Ht. destruct (H' t Ht) as (st & Es & Ps & K). exists st. split; auto. split; auto.
    intros p i Lp Cp. specialize (K p i Lp Cp). rewrite Z2Nat.id, Z.mul_1_l in K by lia. exact K.
Qed.

Lemma C122_pentagonal_lemma : forall size s b N bg ords rnd ids c0 init n, square_grid size s -> length size = 2%nat -> PseudoPentagonalNeighborhoodBuilder RA = Ok b ->
  growth_nbhood RA s (Some b) = Ok N -> (forall t, legal (ords t)) -> Permutation ids (map s_id (sites s None)) -> phased ids init ->
  let within_reach r := rlen r = Z.max 0 n + 1 /\ forall t, 0 <= t <= Z.max 0 n -> exists st, get_step r t = Ok st /\ phased ids st /\ forall p i, length p = 2%nat -> cell s p i ->
    (occupied bg init i -> occupied bg st i) /\
    (occupied bg st i -> exists d j, length d = 2%nat /\ within_moore t d /\ cell s (shift p d) j /\ occupied bg init j) in
  (exists o, run_sync (growth_controller N bg ords rnd) c0 init n = Ok o /\ within_reach (o_result o)) /\
  (forall q sched, 1 <= q -> exists o, run_parallel (growth_controller N bg ords rnd) q sched c0 init n = Ok o /\ within_reach (o_result o)).
Proof.
  intros size s b N bg ords rnd ids c0 init n SG D Eb EN LO PI PH within_reach. unfold growth_nbhood in EN. cbn [bind] in EN.
  assert (T : draws_shape size s (direction_of 2) half_moore N).
  { destruct (C42_shapes_lemma size s SG) as [H2 _]. destruct (proj2 (H2 D)) as (b1 & N1 & Eb1 & EN' & T). assert (b = b1) by congruence. subst. assert (N = N1) by congruence. now subst. }
  assert (Z0 : forall d, within_vn 0 d -> Forall (fun a => a = 0) d).
  { intros d H. apply vn_moore in H. eapply Forall_impl; [|exact H]. cbn; intros; lia. }
  destruct (torus_between size s _ _ N (fun k => within_vn (0 * Z.of_nat k)) (fun k => within_moore (1 * Z.of_nat k)) bg ords rnd ids c0 init n SG T (vn_balls _ 0 ltac:(lia)) (moore_balls _ 1 ltac:(lia))) as [(o & Eo & RL & H) PAR]; auto.
  { intros e d [Le He] Ld. change (1 * Z.of_nat 1) with 1. change (0 * Z.of_nat 1) with 0. split; [|now intros [M _]]. intros V. apply Z0 in V. split.
    - unfold within_moore. eapply Forall_impl; [|exact V]. cbn; intros; lia.
    - rewrite D in Ld. destruct d as [|a [|c [|]]]; try discriminate. destruct e as [|x [|y [|]]]; try discriminate. inversion V as [|? ? -> V']; subst. inversion V' as [|? ? -> _]; subst. cbn. lia. }
  rewrite D in *.
  assert (K0 : forall st t p i, length p = 2%nat -> cell s p i ->
    (forall d j, length d = 2%nat -> within_vn (0 * Z.of_nat (Z.to_nat t)) d -> cell s (shift p d) j -> occupied bg init j -> occupied bg st i) -> occupied bg init i -> occupied bg st i).
  { intros st t p i Lp Cp K O. apply (K [0; 0] i); auto; [unfold within_vn; cbn; lia|]. rewrite shift_zero; auto. }
  split.
  - exists o. split; auto. split; auto. intros t Ht. destruct (H t Ht) as (st & Es & Ps & K). exists st. split; auto. split; auto. intros p i Lp Cp. destruct (K p i Lp Cp) as [K1 K2].
    split; [apply (K0 st t p i Lp Cp K1)|]. rewrite Z2Nat.id, Z.mul_1_l in K2 by lia. exact K2.
  - intros q sched Hq. destruct (PAR q sched Hq) as (o' & Eo' & RL' & H'). exists o'. split; auto. split; auto. intros t Ht. destruct (H' t Ht) as (st & Es & Ps & K). exists st. split; auto. split; auto.
    intros p i Lp Cp. destruct (K p i Lp Cp) as [K1 K2]. split; [apply (K0 st t p i Lp Cp K1)|]. rewrite Z2Nat.id, Z.mul_1_l in K2 by lia. exact K2.
Qed.

Lemma C122_grow_lemma : forall size n bg amts buffer b rnd ords ords' rnd' p sched np_sum,
  1 <= size -> 1 <= n -> amounts_ok bg amts -> (forall t, legal (ords t)) -> (forall t, legal (ords' t)) -> summation RA np_sum -> 1 <= p -> PseudoHexagonalNeighborhoodBuilder2D RA = Ok b ->
  exists g, (forall f1 f2, (n + 1) * Z.of_nat (length amts) <= Z.of_nat f1 -> 1000 * n + 2 <= Z.of_nat f2 ->
      grow RA f1 f2 np_sum rnd ords ords' rnd' p sched 2 size n bg amts (Some b) buffer = Some g) /\
    (g = Err RuntimeError \/ exists s st, g = Ok (mkSim st s) /\ square_grid [size; size] s /\
       site_ids st = map (fun x => KInt (s_id x)) (sites s None) /\
       forall i x, get_site s i = Some x -> exists q, holds st i q /\ q <> bg /\ In q (dkeys amts)).
Proof.
  intros size n bg amts buffer b rnd ords ords' rnd' p sched np_sum S1 N1 AO LO LO' SM P1 Eb.
  assert (GS : good_size 2 (SzInt size)) by (split; [auto|split; [reflexivity|cbn; repeat constructor; lia]]).
  destruct (random_run 2 (SzInt size) n bg amts buffer rnd ords np_sum GS ltac:(lia) AO LO SM) as (g & Er & [->|(s & st0 & -> & SG & CF & CN & _)]).
  { exists (Err RuntimeError). split; auto. intros f1 f2 H1 H2. unfold grow. change 2 with (Z.of_nat 2). rewrite (Er f1 f2 H1 H2). reflexivity. }
  cbn [grid_size repeat] in SG. destruct (square_facts _ _ SG) as [L G]. pose proof (gf_built _ _ _ G) as BU.
  destruct (proj1 (proj1 (C42_shapes_lemma _ s SG) eq_refl)) as (b1 & N & Eb1 & EN & _). assert (b = b1) by congruence. subst b1.
  set (ids := map s_id (sites s None)). destruct (config_phased s st0 _ L RA BU CF) as [PH PP]. fold ids in PH, PP.
  destruct (C122_hexagonal_lemma [size; size] s b N bg ords' rnd' ids 0%nat st0 size SG (or_introl (conj eq_refl Eb)) EN LO' (Permutation_refl _) PH) as [_ PAR].
  destruct (PAR p sched P1) as (o & Eo & RL & H). destruct (H size ltac:(lia)) as (st & Es & PH' & K).
  assert (FR : forall i q, In i ids -> holds st i q -> q = bg \/ exists j, In j ids /\ holds st0 j q).
  { assert (NI : NoDup ids) by (apply dense_NoDup, (built_dense RA L s BU)).
    assert (IDS : forall i, In i ids <-> exists p, length p = 2%nat /\ cell s p i).
    { intros i. split.
      + intros Hi. apply (get_site_ids RA L s i BU) in Hi as [z Gz]. destruct (site_cell _ _ _ _ _ G Gz) as (y & Ly & _ & _ & Cy & _). eauto.
      + intros (y & Ly & Cy). apply (get_site_ids RA L s i BU). unfold cell, id_at in Cy.
        apply bind_Ok in Cy as (o' & X & Cy). destruct o' as [z|]; [|discriminate]. injection Cy as <-. exists z.
        pose proof (site_at_found RA L s _ z BU X) as HX. destruct (built_inv RA L s BU) as [h IV]. apply (inv_get_site RA L h s _ z IV). auto. }
    destruct (proj1 (proj1 (C42_shapes_lemma _ s SG) eq_refl)) as (b2 & N2 & Eb2 & EN2 & (DS & _)). assert (b = b2) by congruence. subst b2. assert (N = N2) by congruence. subst N2.
    assert (HN : has_neighbours ids N).
    { intros o' i Lo Hi. apply IDS in Hi as (y & Ly & Cy). destruct (DS o' Lo) as (e & _ & A). destruct (A y i Ly Cy) as (l & El & _ & IN). exists l. split; auto.
      intros j Hj. apply IN in Hj as (_ & d & Ld & _ & Cd). apply IDS. exists (shift y d). split; auto. cbn [length] in Ld. rewrite shift_length; congruence. }
    assert (NE : ids <> []).
    { pose proof (gf_count _ _ _ G) as CT. pose proof (prod_pos _ (gf_pos _ _ _ G)). intros X. unfold ids in X. apply map_eq_nil in X. rewrite X in CT. simpl in CT. lia. }
    destruct (C56_spread_lemma R N bg ords' rnd' ids p sched 0%nat st0 size LO' NI NE HN PH P1) as (o2 & Eo2 & _ & HS). assert (o2 = o) by congruence. subst o2.
    destruct (HS size ltac:(lia)) as (st2 & Es2 & _ & FR & _). assert (st2 = st) by congruence. subst st2. exact FR. }
  exists (Ok (mkSim st s)). split.
  { intros f1 f2 H1 H2. unfold grow. change 2 with (Z.of_nat 2). rewrite (Er f1 f2 H1 H2). cbn [bind sim_struct sim_state]. unfold growth_nbhood. cbn [bind]. rewrite EN. cbn [bind]. rewrite Eo. cbn [bind].
    rewrite (last_is _ size st); auto. rewrite RL. lia. }
  right. exists s, st. split; auto. split; auto. split; [rewrite (proj1 PH'); unfold ids; now rewrite map_map|]. intros i x Gx.
  assert (Hi : In i ids) by (apply (get_site_ids RA L s i BU); eauto).
  destruct (site_cell _ _ _ _ _ G Gx) as (y & Ly & _ & _ & Cy & _).
  assert (O : occupied bg st i).
  { destruct (without_phase s st0 bg) as [|j t] eqn:W; [cbn in CN; lia|]. assert (Hj : In j (without_phase s st0 bg)) by (rewrite W; simpl; auto).
    apply (nuclei RA s L bg amts st0 BU CF) in Hj as [Hj O]. apply (get_site_ids RA L s j BU) in Hj as [z Gz]. destruct (site_cell _ _ _ _ _ G Gz) as (w & Lw & _ & _ & Cw & _).
    destruct (near_offset 2 size y w ltac:(lia) Ly Lw) as (d & Ld & Fd & SC). apply (proj1 (K y i Ly Cy) d j Ld); auto.
    - apply vn_bound in Fd. rewrite Ld in Fd. unfold within_vn in *. pose proof (Z.div_mod size 2 ltac:(lia)). pose proof (Z.mod_pos_bound size 2 ltac:(lia)). lia.
    - apply (cell_same [size; size] s L w); auto. apply same_cell_sym. exact SC. }
  destruct O as (q & Hq & Dq). exists q. split; auto. split; auto. destruct (FR i q Hi Hq) as [->|(j & Hj & Hq')]; [congruence|]. destruct (PP j q Hj Hq') as [->|X]; [congruence|exact X].
Qed.
