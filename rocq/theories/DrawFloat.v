(** Neighbourhoods drawn anew on grids built in binary64, and growth with them (C123). *)
From Coq Require Import Reals Lra Permutation Classical.
From Flocq Require Import Core BinarySingleNaN.
From Verif Require Import Prelude Dict Val ValFacts Arith LatticeModel StructModel StateModel ResultModel RunnerModel NbModel GridModel SimModel SetupModel RulesModel
  SpecState SpecResult SpecRunner SpecGeom SpecNb SpecGrid SpecSetup SpecRules StateFacts ResultFacts RunnerFacts SyncFacts ParFacts ParRun GenRun
  LatticeFacts StructFacts StructMore StructBuild NbFacts NbMore GridFacts GridMore GridNb NbShapes SetupFacts RulesFacts RulesMore LifeFacts LifeGen GrowBall GrowBetween GrowAll SpecNuc SpecPlantFl NucMore SpecPlant FloatNuc
  FloatArith SpecFloat64 FloatFacts FloatCoord FloatGrid FloatMore FloatNb FloatVec FloatAxis FloatBox FloatNorm FloatCut FloatOpen FloatMotif FloatTorus SpecDraw.
Local Open Scope Z_scope.

(** * Drawing one of several motifs, for any arithmetic and any notion of cell *)
Section Draws.
  Context {F : Type} (A : arith F) (s : structure F) (D : nat) (C : list Z -> Z -> Prop).
  Hypothesis FUN : forall p i j, C p i -> C p j -> i = j.
  Definition draws (E : list Z -> Prop) (shape : list Z -> list Z -> Prop) (N : nbhood F) : Prop :=
    let answers o e := forall x i, length x = D -> C x i ->
      exists l, neighbors_of o N i = Ok l /\ NoDup l /\ forall j, In j l <-> j <> i /\ exists d, length d = D /\ shape e d /\ C (shift x d) j in
    (forall o, legal o -> exists e, E e /\ answers o e) /\ (forall e, E e -> exists o, legal o /\ answers o e).
  Definition shapes_of (motifs : list (list (list Z))) (E : list Z -> Prop) (shape : list Z -> list Z -> Prop) : Prop :=
    motifs <> [] /\
    (forall M, In M motifs -> Forall (fun d => length d = D) M /\ exists e, E e /\ forall d, length d = D -> (shape e d <-> In d M \/ forallb (Z.eqb 0) d = true)) /\
    (forall e, E e -> exists M, In M motifs /\ forall d, length d = D -> (shape e d <-> In d M \/ forallb (Z.eqb 0) d = true)).

  Lemma built_nth : forall l bs, mapM (fun m => motif_builder A (map (nums A) m)) l = Ok bs ->
    length bs = length l /\ forall k M, nth_error l k = Some M -> exists b, nth_error bs k = Some b /\ motif_builder A (map (nums A) M) = Ok b.
  Proof.
    induction l as [|a l IH]; intros bs E; cbn [mapM] in E.
    - injection E as <-. split; auto. intros [|k]; discriminate.
    - apply bind_Ok in E as (y & Ey & E). apply bind_Ok in E as (t & Et & E). injection E as <-. destruct (IH t Et) as [H1 H2].
      split; [simpl; auto|]. intros [|k] z Hk; simpl in *; [injection Hk as <-; eauto|eauto].
  Qed.

  Lemma draws_motifs motifs E shape : shapes_of motifs E shape ->
    (forall M, In M motifs -> exists b N, motif_builder A (map (nums A) M) = Ok b /\ nb_get A b s None = Ok N /\
       forall x i, length x = D -> C x i -> neighbours N i (fun j => j <> i /\ exists d, In d M /\ C (shift x d) j)) ->
    exists b N, stochastic_motifs A motifs = Ok b /\ nb_get A b s None = Ok N /\ draws E shape N.
  Proof.
    intros (NE & HM & HE) ONE.
    destruct (mapM_total (fun m => motif_builder A (map (nums A) m)) motifs) as [bs Ebs].
    { intros M HM'. destruct (ONE M HM') as (b & _ & Eb & _). eauto. }
    destruct (built_nth motifs bs Ebs) as [LBS NBS].
    assert (BSN : forall k b, nth_error bs k = Some b -> exists M N, nth_error motifs k = Some M /\ nb_get A b s None = Ok N /\
       forall x i, length x = D -> C x i -> neighbours N i (fun j => j <> i /\ exists d, In d M /\ C (shift x d) j)).
    { intros k b Hk. destruct (mapM_nth _ _ _ Ebs k b Hk) as (M & HM' & Eb).
      destruct (ONE M) as (b' & N & E' & EM & H); [eapply nth_error_In; eauto|]. assert (b = b') by congruence. subst. eauto. }
    destruct (stochastic_get A s bs) as [N EN].
    { intros b Hb. apply In_nth_error in Hb as [k Hk]. destruct (BSN k b Hk) as (M & N & _ & EM & _). eauto. }
    exists (BStochastic bs), N. split; [unfold stochastic_motifs; rewrite Ebs; reflexivity|]. split; auto.
    destruct (stochastic_index A s bs N EN) as (l & -> & LL & GI & PICK).
    assert (ANS : forall o k M e, legal o -> o_choice o l = k -> nth_error motifs k = Some M -> (forall d, length d = D -> (shape e d <-> In d M \/ forallb (Z.eqb 0) d = true)) ->
       Forall (fun d => length d = D) M ->
       forall x i, length x = D -> C x i -> exists l0, neighbors_of o (NStochastic l) i = Ok l0 /\ NoDup l0 /\
         forall j, In j l0 <-> j <> i /\ exists d, length d = D /\ shape e d /\ C (shift x d) j).
    { intros o k M e LO CK HD SE FD x i Lx Cx. destruct (NBS k M HD) as (b & Hb & Eb). destruct (GI k b Hb) as (N & HlM & EM).
      destruct (BSN k b Hb) as (M' & N' & HD' & EM' & HN). rewrite HD in HD'. injection HD' as <-. rewrite EM in EM'. injection EM' as <-.
      destruct (PICK o k N CK HlM i) as [-> _]. destruct (HN x i Lx Cx o LO) as (l0 & El & ND & IN). exists l0. split; auto. split; auto.
      intros j. rewrite IN. rewrite Forall_forall in FD. split; intros (NJ & d & H); (split; [exact NJ|]).
      - destruct H as [Hd Cd]. exists d. split; [auto|]. split; auto. apply SE; auto.
      - destruct H as (Ld & Sd & Cd). apply SE in Sd as [Hd|Zd]; auto; [eauto|]. exfalso. apply NJ. rewrite shift_zeros in Cd by congruence. exact (FUN _ _ _ Cd Cx). }
    split.
    - intros o LO. assert (l <> []) as NL. { intros ->. destruct motifs; [congruence|]. cbn [length] in *. rewrite <- LL in LBS. discriminate. }
      destruct LO as [LO1 LO2]. specialize (LO2 l NL) as B. destruct (nth_error motifs (o_choice o l)) as [M|] eqn:HD.
      2:{ apply nth_error_None in HD. rewrite LL, LBS in B. lia. }
      destruct (HM M) as (FD & e & Ee & SE); [eapply nth_error_In; eauto|]. exists e. split; auto.
      intros x i Lx Cx. apply (ANS o (o_choice o l) M e); auto. split; auto.
    - intros e Ee. destruct (HE e Ee) as (M & ID & SE). destruct (HM M ID) as [FD _]. apply In_nth_error in ID as [k HD].
      assert (KB : (k < length l)%nat) by (rewrite LL, LBS; apply nth_error_Some; congruence).
      set (o := mkOracle (fun l => l) (fun l' : list (nbhood F) => if Nat.ltb k (length l') then k else O)).
      assert (LO : legal o).
      { split; [intros; apply Permutation_refl|]. cbn [o_choice o]. intros l' NE'. destruct (Nat.ltb k (length l')) eqn:X; [now apply Nat.ltb_lt|]. destruct l'; [congruence|simpl; lia]. }
      exists o. split; auto. intros x i Lx Cx. apply (ANS o k M e); auto. cbn [o_choice o]. now rewrite (proj2 (Nat.ltb_lt _ _)).
  Qed.

  (** One motif failing makes the drawn neighbourhood fail. *)
  Lemma draws_fail motifs : (forall M, In M motifs -> exists b, motif_builder A (map (nums A) M) = Ok b /\ (nb_get A b s None = Err TypeError \/ exists N, nb_get A b s None = Ok N)) ->
    (exists M b, In M motifs /\ motif_builder A (map (nums A) M) = Ok b /\ nb_get A b s None = Err TypeError) ->
    exists b, stochastic_motifs A motifs = Ok b /\ nb_get A b s None = Err TypeError.
  Proof.
    intros ALL BAD. destruct (mapM_total (fun m => motif_builder A (map (nums A) m)) motifs) as [bs Ebs].
    { intros M HM'. destruct (ALL M HM') as (b & Eb & _). eauto. }
    exists (BStochastic bs). split; [unfold stochastic_motifs; rewrite Ebs; reflexivity|]. cbn [nb_get].
    match goal with |- bind ?e _ = _ => assert (e = Err TypeError) as ->; [|reflexivity] end.
    revert bs Ebs ALL BAD. induction motifs as [|M motifs IH]; intros bs Ebs ALL (M0 & b0 & HM0 & Eb0 & En0); [destruct HM0|].
    cbn [mapM] in Ebs. apply bind_Ok in Ebs as (b & Eb & Ebs). apply bind_Ok in Ebs as (bs' & Ebs' & E). injection E as <-.
    destruct (ALL M (or_introl eq_refl)) as (b' & Eb' & H). assert (b' = b) by congruence. subst b'.
    destruct H as [->|[N EN]]; [reflexivity|]. rewrite EN. cbn [bind].
    rewrite IH; auto; [intros; apply ALL; simpl; auto|]. destruct HM0 as [<-|HM0]; [|eauto 6]. assert (b0 = b) by congruence. subst. congruence.
  Qed.

  (** * Growth *)
  Hypothesis TOT : forall p, length p = D -> exists i, C p i.
  Hypothesis SHI : forall p q d i j, length p = D -> length q = D -> length d = D -> C p i -> C q i -> C (shift p d) j -> C (shift q d) j.
  Lemma draws_between E shape (N : nbhood F) (P Q : nat -> list Z -> Prop) bg ords rnd ids c0 init n : draws E shape N ->
    balls D P -> balls D Q -> (forall e d, E e -> length d = D -> (P 1%nat d -> shape e d) /\ (shape e d -> Q 1%nat d)) ->
    (forall t, legal (ords t)) -> NoDup ids -> ids <> [] -> (forall i, In i ids <-> exists p, length p = D /\ C p i) -> phased ids init ->
    let between r := rlen r = Z.max 0 n + 1 /\ forall t, 0 <= t <= Z.max 0 n -> exists st, get_step r t = Ok st /\ phased ids st /\ forall p i, length p = D -> C p i ->
      (forall d j, length d = D -> P (Z.to_nat t) d -> C (shift p d) j -> occupied bg init j -> occupied bg st i) /\
      (occupied bg st i -> exists d j, length d = D /\ Q (Z.to_nat t) d /\ C (shift p d) j /\ occupied bg init j) in
    (exists o, run_sync (growth_controller N bg ords rnd) c0 init n = Ok o /\ between (o_result o)) /\
    (forall q sched, 1 <= q -> exists o, run_parallel (growth_controller N bg ords rnd) q sched c0 init n = Ok o /\ between (o_result o)).
  Proof.
    intros [DS _] BP BQ SH LO NI NE IDS PH between.
    assert (HN : has_neighbours ids N).
    { intros o i Lo Hi. apply IDS in Hi as (p & Lp & Cp). destruct (DS o Lo) as (e & _ & X). destruct (X p i Lp Cp) as (l & El & _ & IN). exists l. split; auto.
      intros j Hj. apply IN in Hj as (_ & d & Ld & _ & Cd). apply IDS. exists (shift p d). split; auto. rewrite shift_length; congruence. }
    assert (HB : forall o i l j, legal o -> In i ids -> neighbors_of o N i = Ok l -> (ball_rel C D P i j -> In j l) /\ (In j l -> ball_rel C D Q i j)).
    { intros o i l j Lo Hi El. apply IDS in Hi as (p & Lp & Cp). destruct (DS o Lo) as (e & He & X). destruct (X p i Lp Cp) as (l' & El' & _ & IN). rewrite El in El'. injection El' as <-. rewrite IN. split.
      - intros (Nj & q & d & Lq & Ld & Bd & Cq & Cd). split; auto. exists d. split; auto. split; [now apply (SH e d He Ld)|]. apply (SHI q p d i j); auto.
      - intros (Nj & d & Ld & Sd & Cd). split; auto. exists p, d. split; auto. split; auto. split; [now apply (SH e d He Ld)|]. auto. }
    assert (FIN : forall r, (rlen r = Z.max 0 n + 1 /\ forall t, 0 <= t <= Z.max 0 n -> exists st, get_step r t = Ok st /\ phased ids st /\ forall i, In i ids ->
      (forall j, within (ball_rel C D P) (Z.to_nat t) i j -> occupied bg init j -> occupied bg st i) /\
      (occupied bg st i -> exists j, within (ball_rel C D Q) (Z.to_nat t) i j /\ occupied bg init j)) -> between r).
    { intros r [RL H]. split; auto. intros t Ht. destruct (H t Ht) as (st & Es & Ps & K). exists st. split; auto. split; auto. intros p i Lp Cp.
      destruct (K i ltac:(apply IDS; eauto)) as [K1 K2]. split.
      - intros d j Ld Pd Cd O. apply (K1 j); auto. apply (reach_iff C D P TOT FUN SHI BP _ p i j Lp Cp). eauto.
      - intros O. destruct (K2 O) as (j & W & Oj). apply (reach_iff C D Q TOT FUN SHI BQ _ p i j Lp Cp) in W as (d & Ld & Qd & Cd). exists d, j. auto. }
    destruct (C122_lemma F N bg ords rnd ids c0 init n _ _ LO NI NE HN PH HB) as [(o & Eo & B1) PAR]. split.
    - exists o. split; auto.
    - intros q sched Hq. destruct (PAR q sched Hq) as (o' & Eo' & B2). exists o'. split; auto.
  Qed.
End Draws.

(** * The shapes of the library's motifs *)
Lemma hex2_shapes : shapes_of 2 hex2_motifs (diagonal_of 2) hexagonal.
Proof.
  split; [discriminate|]. split.
  - intros D HD. unfold hex2_motifs, In in HD. destruct HD as [<-|[<-|[]]]; (split; [repeat constructor|]).
    + exists [1; 1]. split; [param|shape2].
    + exists [-1; 1]. split; [param|shape2].
  - intros e He. apply diag2 in He. unfold In in He. destruct He as [<-|[<-|[<-|[<-|[]]]]].
    1,2: eexists; split; [left; reflexivity|shape2].
    1,2: eexists; split; [right; left; reflexivity|shape2].
Qed.
Lemma pent_shapes : shapes_of 2 pent_motifs (direction_of 2) half_moore.
Proof.
  split; [discriminate|]. split.
  - intros D HD. unfold pent_motifs, In in HD. destruct HD as [<-|[<-|[<-|[<-|[]]]]]; (split; [repeat constructor|]).
    + exists [0; -1]. split; [param|shape2].
    + exists [0; 1]. split; [param|shape2].
    + exists [1; 0]. split; [param|shape2].
    + exists [-1; 0]. split; [param|shape2].
  - intros e He. apply dirs2 in He. unfold In in He. destruct He as [<-|[<-|[<-|[<-|[]]]]].
    + eexists; split; [left; reflexivity|shape2].
    + eexists; split; [right; left; reflexivity|shape2].
    + eexists; split; [do 2 right; left; reflexivity|shape2].
    + eexists; split; [do 3 right; left; reflexivity|shape2].
Qed.
Lemma hex3_shapes : shapes_of 3 hex3_motifs (diagonal_of 3) hexagonal.
Proof.
  split; [discriminate|]. split.
  - intros D HD. unfold hex3_motifs, hex3_common, In in HD. destruct HD as [<-|[<-|[<-|[<-|[]]]]]; (split; [repeat constructor|]).
    + exists [-1; -1; 1]. split; [param|shape3].
    + exists [-1; 1; 1]. split; [param|shape3].
    + exists [1; 1; 1]. split; [param|shape3].
    + exists [1; -1; 1]. split; [param|shape3].
  - intros e He. apply diag3 in He. unfold In in He. unfold hex3_motifs, hex3_common.
    destruct He as [<-|[<-|[<-|[<-|[<-|[<-|[<-|[<-|[]]]]]]]]].
    + eexists; split; [do 2 right; left; reflexivity|shape3].
    + eexists; split; [left; reflexivity|shape3].
    + eexists; split; [do 3 right; left; reflexivity|shape3].
    + eexists; split; [right; left; reflexivity|shape3].
    + eexists; split; [right; left; reflexivity|shape3].
    + eexists; split; [do 3 right; left; reflexivity|shape3].
    + eexists; split; [left; reflexivity|shape3].
    + eexists; split; [do 2 right; left; reflexivity|shape3].
Qed.

(** * Grids built in binary64 *)
Section TorusDraws.
  Variable size : list Z.
  Variable s : structure b64.
  Hypothesis Hk : Forall (fun m => 1 <= m <= M20) size.
  Hypothesis FS : fl_square size s.
  Local Notation n := (length size).
  Local Notation z := (repeat 0 n).
  Local Notation w := (extents size).
  Local Notation per := (repeat true n).

  Lemma torus_free M c d : (forall d, In d M -> length d = n /\ within_moore 1 d) -> Forall (fun m => ~ lost m 1) size ->
    Forall2 (fun a m => 0 <= a < m) c w -> In d M -> ~ blocked per w z c d.
  Proof.
    intros ST NL Hc Hd (a & m & x & y & _ & E2 & E3 & E4 & E5 & SH). rewrite Forall_forall in NL. apply (NL m); [apply nth_error_In in E2; now apply extents_In|].
    exists (x + y). split; auto. apply (nth_Forall2 _ 0 0) in Hc as [Lc Hc]. assert (Ha : (a < length c)%nat) by (apply nth_error_Some; congruence).
    specialize (Hc a Ha). apply (nth_error_nth _ _ 0) in E2, E4. rewrite E2, E4 in Hc.
    destruct (ST d Hd) as [_ W]. unfold within_moore in W. rewrite Forall_forall in W. apply nth_error_In, W in E5. lia.
  Qed.

  Lemma torus_motif M b : (forall d, In d M -> length d = n /\ within_moore 1 d) -> motif_builder FA (map (nums FA) M) = Ok b ->
    let good := exists N, nb_get FA b s None = Ok N /\ forall x i, length x = n -> fl_cell size s x i -> neighbours N i (fun j => j <> i /\ exists d, In d M /\ fl_cell size s (shift x d) j) in
    (nb_get FA b s None = Err TypeError \/ good) /\ (Forall (fun m => ~ lost m 1) size -> good) /\
    (forall a m, nth_error w a = Some m -> lost m 1 -> In (along n a 1) M -> nb_get FA b s None = Err TypeError).
  Proof.
    intros ST Eb good. destruct (motif_total (map (nums FA) M)) as (d0 & Eb'). rewrite Eb in Eb'. injection Eb' as ->.
    destruct (torus_box size s Hk FS) as (L & AL & FB).
    assert (SD : Forall (shiftable n) M).
    { apply Forall_forall. intros d Hd. destruct (ST d Hd) as [Ld W]. split; auto. intros a Ha. unfold within_moore in W. rewrite Forall_forall in W. assert (X : In (nth a d 0) d) by (apply nth_In; lia). apply W in X. unfold M20. lia. }
    pose proof (torus_dims size s FS) as DM. assert (Lz : length z = n) by apply repeat_length. pose proof (torus_sw size s FS) as SW. pose proof (torus_z size) as TZ.
    pose proof (torus_per size s FS) as TP.
    assert (GOOD : (forall c d, Forall2 (fun a m => 0 <= a < m) c w -> In d M -> ~ blocked per w z c d) -> good).
    { intros FREE. pose proof (motif_found n _ SW size eq_refl Hk per L z Lz TZ _ s FB M SD d0) as H. unfold stuck in H.
      rewrite TP, perm_extents in H by auto. destruct H as (N & EN & HN).
      { intros e d He Hd. assert (Hc : Forall2 (fun a m => 0 <= a < m) (perm 0 n sw e) w) by (apply (torus_cells size s Hk FS); eauto). split; [now apply FREE|].
        destruct (wraps n w (extents_length _) (torus_pos size Hk) (perm 0 n sw e) d) as (c' & Hc' & R); [apply perm_length|now apply ST|].
        apply (torus_cells size s Hk FS) in Hc' as (e' & He' & ->). eauto. }
      exists N. split; auto. intros x i Lx Ci. pose proof Ci as (c & SC & Si). intros o Lo. destruct (HN c i Si o Lo) as (l & El & ND & IN). exists l. split; auto. split; auto.
      pose proof (torus_in size s Hk FS c i Si) as Hc. assert (Lc : length c = n) by (apply (nth_Forall2 _ 0 0) in Hc as [-> _]; apply extents_length).
      pose proof (proj2 (torus_small size s Hk FS c i Hc) Si) as Cc.
      intros j. rewrite IN. split.
      + intros (Nj & c' & d & Sj & Hd & R). split; auto. exists d. destruct (ST d Hd) as [Ld _]. split; auto.
        pose proof (torus_in size s Hk FS c' j Sj) as Hc'. assert (Lc' : length c' = n) by (apply (nth_Forall2 _ 0 0) in Hc' as [-> _]; apply extents_length).
        apply (torus_shift size s Hk FS c x d i j); auto. exists c'. split; auto. now apply (reaches_same n); auto using extents_length.
      + intros (Nj & d & Hd & Cj). destruct (ST d Hd) as [Ld _]. split; auto. apply (torus_shift size s Hk FS x c d i j) in Cj; auto. destruct Cj as (c' & SC' & Sj). exists c', d. split; auto. split; auto.
        pose proof (torus_in size s Hk FS c' j Sj) as Hc'. assert (Lc' : length c' = n) by (apply (nth_Forall2 _ 0 0) in Hc' as [-> _]; apply extents_length).
        now apply (reaches_same n); auto using extents_length. }
    assert (BAD : (exists c d, Forall2 (fun a m => 0 <= a < m) c w /\ In d M /\ blocked per w z c d) -> nb_get FA (BMotif (map (nums FA) M) d0) s None = Err TypeError).
    { intros (c & d & Hc & Hd & B). apply (torus_cells size s Hk FS) in Hc as (e & He & ->).
      apply (motif_lost n _ SW size eq_refl Hk per L z Lz TZ _ s FB M SD d0 e d He Hd). left. unfold stuck. rewrite TP, perm_extents by auto. exact B. }
    split; [|split].
    - destruct (classic (exists c d, Forall2 (fun a m => 0 <= a < m) c w /\ In d M /\ blocked per w z c d)) as [X|X]; [left; auto|right]. apply GOOD. intros c d Hc Hd B. apply X. eauto.
    - intros NL. apply GOOD. intros c d Hc Hd. now apply (torus_free M).
    - intros a m Em LS HA. apply BAD. assert (Ha : (a < n)%nat) by (rewrite <- (extents_length size); apply nth_error_Some; congruence).
      assert (Hm : 1 <= m <= M20) by (rewrite Forall_forall in Hk; apply Hk, (proj1 (extents_In _ _)); eapply nth_error_In; eauto).
      apply (lost_1 m Hm) in LS. exists (along n a (m - 1)), (along n a 1). split; [|split; [exact HA|]].
      + apply (Forall2_nth _ 0 0); [rewrite along_length; symmetry; apply extents_length|]. intros c Hc. rewrite along_length in Hc. rewrite along_nth by auto.
        destruct (Nat.eqb_spec c a) as [->|]; [rewrite (nth_error_nth _ _ 0 Em); lia|]. pose proof (torus_pos size Hk) as TPO. rewrite Forall_forall in TPO.
        assert (H : In (nth c w 0) w) by (apply nth_In; rewrite extents_length; lia). apply TPO in H. lia.
      + exists a, m, (m - 1), 1. split; [rewrite (nth_error_nth' _ false) by (now rewrite repeat_length); f_equal; now apply nth_repeat'|]. split; auto.
        split; [rewrite (nth_error_nth' _ 0) by (now rewrite repeat_length); f_equal; apply nth_repeat|].
        rewrite !(fun l => nth_error_nth' l 0 (n := a)) by (now rewrite along_length). rewrite !along_nth, Nat.eqb_refl by auto. split; auto. split; auto. now replace (m - 1 + 1) with m by lia.
  Qed.

  Lemma fl_fun p i j : fl_cell size s p i -> fl_cell size s p j -> i = j.
  Proof. intros Ci Cj. apply (torus_same size s Hk FS p p i j Ci Cj). apply same_cell_refl. destruct Ci as (c & (Lp & _) & _). exact Lp. Qed.

  Lemma torus_draws motifs E shape : shapes_of n motifs E shape -> (forall M d, In M motifs -> In d M -> length d = n /\ within_moore 1 d) ->
    (forall a, (a < n)%nat -> exists M, In M motifs /\ In (along n a 1) M) ->
    exists b, stochastic_motifs FA motifs = Ok b /\
      (Forall (fun m => ~ falls_short m m) size -> exists N, nb_get FA b s None = Ok N /\ fl_draws_shape size s E shape N) /\
      (Exists (fun m => falls_short m m) size -> nb_get FA b s None = Err TypeError).
  Proof.
    intros SH ST AX.
    assert (ALL : forall M, In M motifs -> exists b, motif_builder FA (map (nums FA) M) = Ok b) by (intros M _; destruct (motif_total (map (nums FA) M)) as [d E']; eauto).
    destruct (mapM_total (fun m => motif_builder FA (map (nums FA) m)) motifs ALL) as [bs Ebs].
    exists (BStochastic bs). assert (ES : stochastic_motifs FA motifs = Ok (BStochastic bs)) by (unfold stochastic_motifs; rewrite Ebs; reflexivity). split; auto.
    assert (LS : forall m, In m size -> (lost m 1 <-> falls_short m m)) by (intros m Hm; rewrite Forall_forall in Hk; apply lost_1; auto).
    split.
    - intros NL. destruct (draws_motifs FA s n (fl_cell size s) fl_fun motifs E shape SH) as (b & N & Eb & EN & H).
      + intros M HM. destruct (ALL M HM) as [b Eb]. destruct (torus_motif M b (fun d => ST M d HM) Eb) as (_ & G & _).
        destruct G as (N & EN & HN); [|eauto 6]. rewrite Forall_forall in *. intros m Hm L. apply (NL m Hm). now apply LS.
      + exists N. assert (b = BStochastic bs) by congruence. subst b. split; auto.
    - intros SX. apply Exists_exists in SX as (m & Hm & SX). pose proof Hm as Hm'. apply LS in SX; auto. apply (proj2 (extents_In _ _)), In_nth_error in Hm as (a & Ha).
      assert (Ha' : (a < n)%nat) by (rewrite <- (extents_length size); apply nth_error_Some; congruence). destruct (AX a Ha') as (M & HM & IA).
      destruct (draws_fail FA s motifs) as (b & Eb & EN).
      + intros M' HM'. destruct (ALL M' HM') as [b Eb]. exists b. split; auto. destruct (torus_motif M' b (fun d => ST M' d HM') Eb) as ([X|(N & EN & _)] & _); eauto.
      + destruct (ALL M HM) as [b Eb]. exists M, b. split; auto. split; auto. destruct (torus_motif M b (fun d => ST M d HM) Eb) as (_ & _ & B). eauto.
      + congruence.
  Qed.

  Lemma torus_grows E shape N P Q bg ords rnd ids c0 init k : fl_draws_shape size s E shape N ->
    balls n P -> balls n Q -> (forall e d, E e -> length d = n -> (P 1%nat d -> shape e d) /\ (shape e d -> Q 1%nat d)) ->
    (forall t, legal (ords t)) -> Permutation ids (map s_id (sites s None)) -> phased ids init ->
    let between r := rlen r = Z.max 0 k + 1 /\ forall t, 0 <= t <= Z.max 0 k -> exists st, get_step r t = Ok st /\ phased ids st /\ forall p i, length p = n -> fl_cell size s p i ->
      (forall d j, length d = n -> P (Z.to_nat t) d -> fl_cell size s (shift p d) j -> occupied bg init j -> occupied bg st i) /\
      (occupied bg st i -> exists d j, length d = n /\ Q (Z.to_nat t) d /\ fl_cell size s (shift p d) j /\ occupied bg init j) in
    (exists o, run_sync (growth_controller N bg ords rnd) c0 init k = Ok o /\ between (o_result o)) /\
    (forall q sched, 1 <= q -> exists o, run_parallel (growth_controller N bg ords rnd) q sched c0 init k = Ok o /\ between (o_result o)).
  Proof.
    intros DS BP BQ SH LO PI PH. apply (draws_between n (fl_cell size s) fl_fun) with (E := E) (shape := shape); auto.
    - intros p Lp. now apply torus_total.
    - now apply torus_shift.
    - apply (Permutation_NoDup (Permutation_sym PI)), dense_NoDup, (torus_dense size s Hk FS).
    - intros E0. destruct (torus_total size s Hk FS (repeat 0 n) (repeat_length _ _)) as (i & Ci).
      assert (X : In i ids) by (apply (Permutation_in _ (Permutation_sym PI)), (torus_ids size s Hk FS); exists (repeat 0 n); split; auto using repeat_length). rewrite E0 in X. destruct X.
    - intros i. rewrite <- (torus_ids size s Hk FS). split; apply Permutation_in; auto using Permutation_sym.
  Qed.
End TorusDraws.

Ltac moore1 HM Hd := cbn in HM; repeat (destruct HM as [<-|HM]; [cbn in Hd; repeat (destruct Hd as [<-|Hd]; [split; [reflexivity|repeat constructor; cbn; lia]|]); destruct Hd|]); destruct HM.

Lemma C123_lemma : forall size s, Forall (fun m => 1 <= m <= 2 ^ 20) size -> fl_square size s ->
  let builds B E shape := exists b, B = Ok b /\
    (Forall (fun m => ~ falls_short m m) size -> exists N, nb_get FA b s None = Ok N /\ fl_draws_shape size s E shape N) /\
    (Exists (fun m => falls_short m m) size -> nb_get FA b s None = Err TypeError) in
  (length size = 2%nat -> builds (PseudoHexagonalNeighborhoodBuilder2D FA) (diagonal_of 2) hexagonal /\ builds (PseudoPentagonalNeighborhoodBuilder FA) (direction_of 2) half_moore) /\
  (length size = 3%nat -> builds (PseudoHexagonalNeighborhoodBuilder3D FA) (diagonal_of 3) hexagonal).
Proof.
  intros size s Hk FS builds. change (2 ^ 20) with M20 in Hk. split; intros D; [split|]; apply (torus_draws size s Hk FS); rewrite D.
  - apply hex2_shapes.
  - intros M d HM Hd. moore1 HM Hd.
  - intros [|[|a]] Ha; [| |lia]; (eexists; split; [left; reflexivity|]); cbn; tauto.
  - apply pent_shapes.
  - intros M d HM Hd. moore1 HM Hd.
  - intros [|[|a]] Ha; [| |lia]; (eexists; split; [right; left; reflexivity|]); cbn; tauto.
  - apply hex3_shapes.
  - intros M d HM Hd. moore1 HM Hd.
  - intros [|[|[|a]]] Ha; [| | |lia]; (eexists; split; [left; reflexivity|]); cbn; tauto.
Qed.

Lemma C123_hexagonal_lemma : forall size s b bg ords rnd ids c0 init k, Forall (fun m => 1 <= m <= 2 ^ 20) size -> fl_square size s ->
  (length size = 2%nat /\ PseudoHexagonalNeighborhoodBuilder2D FA = Ok b \/ length size = 3%nat /\ PseudoHexagonalNeighborhoodBuilder3D FA = Ok b) ->
  (forall t, legal (ords t)) -> Permutation ids (map s_id (sites s None)) -> phased ids init ->
  let between r := rlen r = Z.max 0 k + 1 /\ forall t, 0 <= t <= Z.max 0 k -> exists st, get_step r t = Ok st /\ phased ids st /\ forall p i, length p = length size -> fl_cell size s p i ->
    (forall d j, length d = length size -> within_vn t d -> fl_cell size s (shift p d) j -> occupied bg init j -> occupied bg st i) /\
    (occupied bg st i -> exists d j, length d = length size /\ within_moore t d /\ fl_cell size s (shift p d) j /\ occupied bg init j) in
  (Forall (fun m => ~ falls_short m m) size -> exists N, growth_nbhood FA s (Some b) = Ok N /\
     (exists o, run_sync (growth_controller N bg ords rnd) c0 init k = Ok o /\ between (o_result o)) /\
     (forall q sched, 1 <= q -> exists o, run_parallel (growth_controller N bg ords rnd) q sched c0 init k = Ok o /\ between (o_result o))) /\
  (Exists (fun m => falls_short m m) size -> growth_nbhood FA s (Some b) = Err TypeError).
Proof.
  intros size s b bg ords rnd ids c0 init k Hk FS HB LO PI PH between. unfold growth_nbhood. cbn [bind].
  assert (T : (Forall (fun m => ~ falls_short m m) size -> exists N, nb_get FA b s None = Ok N /\ fl_draws_shape size s (diagonal_of (length size)) hexagonal N) /\
    (Exists (fun m => falls_short m m) size -> nb_get FA b s None = Err TypeError)).
  { destruct (C123_lemma size s Hk FS) as [H2 H3]. destruct HB as [[D Eb]|[D Eb]]; rewrite D.
    - destruct (proj1 (H2 D)) as (b1 & Eb1 & T). assert (b = b1) by congruence. now subst.
    - destruct (H3 D) as (b1 & Eb1 & T). assert (b = b1) by congruence. now subst. }
  destruct T as [T B]. split; [|exact B]. intros NL. destruct (T NL) as (N & EN & DS). exists N. split; [exact EN|]. clear T B.
  destruct (torus_grows size s Hk FS _ _ N (fun k => within_vn (1 * Z.of_nat k)) (fun k => within_moore (1 * Z.of_nat k)) bg ords rnd ids c0 init k DS (vn_balls _ 1 ltac:(lia)) (moore_balls _ 1 ltac:(lia))) as [(o & Eo & RL & H) PAR]; auto.
  { intros e d [Le He] Ld. change (1 * Z.of_nat 1) with 1. split; [now left|]. intros [V|[->| ->]].
    - now apply vn_moore.
    - unfold within_moore. eapply Forall_impl; [|exact He]. cbn; intros; lia.
    - unfold within_moore. rewrite Forall_map. eapply Forall_impl; [|exact He]. cbn; intros; lia. }
  split.
  - exists o. split; auto. split; auto. intros t Ht. destruct (H t Ht) as (st & Es & Ps & K). exists st. split; auto. split; auto. intros p i Lp Cp. specialize (K p i Lp Cp). rewrite Z2Nat.id, Z.mul_1_l in K by lia. exact K.
  - intros q sched Hq. destruct (PAR q sched Hq) as (o' & Eo' & RL' & H'). exists o'. split; auto. split; auto. intros t Ht. destruct (H' t Ht) as (st & Es & Ps & K). exists st. split; auto. split; auto.
    intros p i Lp Cp. specialize (K p i Lp Cp). rewrite Z2Nat.id, Z.mul_1_l in K by lia. exact K.
Qed.

Lemma C123_pentagonal_lemma : forall size s b bg ords rnd ids c0 init k, Forall (fun m => 1 <= m <= 2 ^ 20) size -> fl_square size s -> length size = 2%nat -> PseudoPentagonalNeighborhoodBuilder FA = Ok b ->
  (forall t, legal (ords t)) -> Permutation ids (map s_id (sites s None)) -> phased ids init ->
  let within_reach r := rlen r = Z.max 0 k + 1 /\ forall t, 0 <= t <= Z.max 0 k -> exists st, get_step r t = Ok st /\ phased ids st /\ forall p i, length p = 2%nat -> fl_cell size s p i ->
    (occupied bg init i -> occupied bg st i) /\
    (occupied bg st i -> exists d j, length d = 2%nat /\ within_moore t d /\ fl_cell size s (shift p d) j /\ occupied bg init j) in
  (Forall (fun m => ~ falls_short m m) size -> exists N, growth_nbhood FA s (Some b) = Ok N /\
     (exists o, run_sync (growth_controller N bg ords rnd) c0 init k = Ok o /\ within_reach (o_result o)) /\
     (forall q sched, 1 <= q -> exists o, run_parallel (growth_controller N bg ords rnd) q sched c0 init k = Ok o /\ within_reach (o_result o))) /\
  (Exists (fun m => falls_short m m) size -> growth_nbhood FA s (Some b) = Err TypeError).
Proof.
  intros size s b bg ords rnd ids c0 init k Hk FS D Eb LO PI PH within_reach. unfold growth_nbhood. cbn [bind].
  destruct (C123_lemma size s Hk FS) as [H2 _]. destruct (proj2 (H2 D)) as (b1 & Eb1 & T & B). assert (b = b1) by congruence. subst b1.
  split; [|exact B]. intros NL. destruct (T NL) as (N & EN & DS). exists N. split; [exact EN|]. clear T B H2.
  assert (Z0 : forall d, within_vn 0 d -> Forall (fun a => a = 0) d).
  { intros d H. apply vn_moore in H. eapply Forall_impl; [|exact H]. cbn; intros; lia. }
  destruct (torus_grows size s Hk FS _ _ N (fun k => within_vn (0 * Z.of_nat k)) (fun k => within_moore (1 * Z.of_nat k)) bg ords rnd ids c0 init k DS (vn_balls _ 0 ltac:(lia)) (moore_balls _ 1 ltac:(lia))) as [(o & Eo & RL & H) PAR]; auto.
  { intros e d [Le He] Ld. change (1 * Z.of_nat 1) with 1. change (0 * Z.of_nat 1) with 0. split; [|now intros [M _]]. intros V. apply Z0 in V. split.
    - unfold within_moore. eapply Forall_impl; [|exact V]. cbn; intros; lia.
    - rewrite D in Ld. destruct d as [|a [|c [|]]]; try discriminate. destruct e as [|x [|y [|]]]; try discriminate. inversion V as [|? ? -> V']; subst. inversion V' as [|? ? -> _]; subst. cbn. lia. }
  rewrite D in *.
  assert (K0 : forall st t p i, length p = 2%nat -> fl_cell size s p i ->
    (forall d j, length d = 2%nat -> within_vn (0 * Z.of_nat (Z.to_nat t)) d -> fl_cell size s (shift p d) j -> occupied bg init j -> occupied bg st i) -> occupied bg init i -> occupied bg st i).
  { intros st t p i Lp Cp K O. apply (K [0; 0] i); auto; [unfold within_vn; cbn; lia|]. rewrite shift_zero; auto. }
  split.
  - exists o. split; auto. split; auto. intros t Ht. destruct (H t Ht) as (st & Es & Ps & K). exists st. split; auto. split; auto. intros p i Lp Cp. destruct (K p i Lp Cp) as [K1 K2].
    split; [apply (K0 st t p i Lp Cp K1)|]. rewrite Z2Nat.id, Z.mul_1_l in K2 by lia. exact K2.
  - intros q sched Hq. destruct (PAR q sched Hq) as (o' & Eo' & RL' & H'). exists o'. split; auto. split; auto. intros t Ht. destruct (H' t Ht) as (st & Es & Ps & K). exists st. split; auto. split; auto.
    intros p i Lp Cp. destruct (K p i Lp Cp) as [K1 K2]. split; [apply (K0 st t p i Lp Cp K1)|]. rewrite Z2Nat.id, Z.mul_1_l in K2 by lia. exact K2.
Qed.

Lemma draws_49 : exists s, fl_square [49; 49] s /\ (forall b, PseudoHexagonalNeighborhoodBuilder2D FA = Ok b -> growth_nbhood FA s (Some b) = Err TypeError) /\
  (forall b, PseudoPentagonalNeighborhoodBuilder FA = Ok b -> growth_nbhood FA s (Some b) = Err TypeError).
Proof.
  destruct (fl_core 49 49 ltac:(unfold M20; lia) ltac:(unfold M20; lia)) as (s & FG & _). apply fl_square_grid in FG. exists s. split; auto.
  assert (Hk : Forall (fun m => 1 <= m <= 2 ^ 20) [49; 49]) by (repeat constructor; lia).
  assert (SX : Exists (fun m => falls_short m m) [49; 49]) by (left; apply short_at_border; [unfold M20; lia|vm_compute; reflexivity]).
  destruct (C123_lemma [49; 49] s Hk FG) as [H2 _]. destruct (H2 eq_refl) as [(b1 & E1 & _ & B1) (b2 & E2 & _ & B2)].
  split; intros b Eb; unfold growth_nbhood; cbn [bind]; [assert (b = b1) by congruence|assert (b = b2) by congruence]; subst; auto.
Qed.

(** * [grow] with the pseudo-hexagonal builder *)
Lemma C123_grow_lemma : forall size s n bg amts buffer b rnd ords ords' rnd' p sched np_sum,
  fl_setup 2 (SzInt size) s -> 1 <= n -> fl_amounts bg amts -> (n + 1) * (Z.of_nat (length amts) + 2) <= 2 ^ 44 ->
  (forall t, legal (ords t)) -> (forall t, legal (ords' t)) -> summation FA np_sum -> 1 <= p -> PseudoHexagonalNeighborhoodBuilder2D FA = Ok b -> fl_buffer [size; size] buffer ->
  exists g, (forall f1 f2, (n + 1) * Z.of_nat (length amts) <= Z.of_nat f1 -> 1000 * n + 2 <= Z.of_nat f2 ->
      grow FA f1 f2 np_sum rnd ords ords' rnd' p sched 2 size n bg amts (Some b) buffer = Some g) /\
    (falls_short size size -> g = Err RuntimeError \/ g = Err TypeError) /\
    (~ falls_short size size -> g = Err RuntimeError \/ exists st, g = Ok (mkSim st s) /\
       site_ids st = map (fun x => KInt (s_id x)) (sites s None) /\
       forall i x, get_site s i = Some x -> exists q, holds st i q /\ q <> bg /\ In q (dkeys amts)).
Proof.
  intros size s n bg amts buffer b rnd ords ords' rnd' p sched np_sum FG N1 AM SMALL LO LO' SM P1 Eb FB.
  destruct (C95_lemma 2 (SzInt size) s n bg amts buffer rnd ords np_sum FG ltac:(lia) AM SMALL LO SM) as [OKC _].
  destruct (setup_facts 2 (SzInt size) s FG) as (Hk & FS & Ld & _ & L & BU). cbn [grid_size repeat] in *.
  assert (S0 : 1 <= size <= M20) by (now apply Forall_inv in Hk).
  destruct (OKC FB) as (g & Er & [->|(st0 & -> & CF & CN & _)]).
  { exists (Err RuntimeError). split; [|split; auto]. intros f1 f2 H1 H2. unfold grow. change 2 with (Z.of_nat 2). rewrite (Er f1 f2 H1 H2). reflexivity. }
  set (ids := map s_id (sites s None)). destruct (config_phased s st0 _ L FA BU CF) as [PH PP]. fold ids in PH, PP.
  destruct (C123_hexagonal_lemma [size; size] s b bg ords' rnd' ids 0%nat st0 size Hk FS (or_introl (conj eq_refl Eb)) LO' (Permutation_refl _) PH) as [GOOD BAD].
  destruct (classic (falls_short size size)) as [SX|NS].
  { exists (Err TypeError). split; [|split; [auto|intros; contradiction]]. intros f1 f2 H1 H2. unfold grow. change 2 with (Z.of_nat 2). rewrite (Er f1 f2 H1 H2). cbn [bind sim_struct sim_state]. rewrite (BAD ltac:(left; exact SX)). reflexivity. }
  destruct (GOOD ltac:(repeat constructor; auto)) as (N & EN & _ & PAR). destruct (PAR p sched P1) as (o & Eo & RL & H). destruct (H size ltac:(lia)) as (st & Es & PH' & K).
  assert (FR : forall i q, In i ids -> holds st i q -> q = bg \/ exists j, In j ids /\ holds st0 j q).
  { assert (NI : NoDup ids) by (apply dense_NoDup, (torus_dense [size; size] s Hk FS)).
    pose proof (torus_ids [size; size] s Hk FS) as IDS. fold ids in IDS.
    destruct (proj1 (proj1 (C123_lemma [size; size] s Hk FS) eq_refl)) as (b1 & Eb1 & T & _). assert (b = b1) by congruence. subst b1.
    destruct T as (N2 & EN2 & (DS & _)); [repeat constructor; auto|]. assert (N = N2) by (unfold growth_nbhood in EN; cbn [bind] in EN; congruence). subst N2.
    assert (HN : has_neighbours ids N).
    { intros o' i Lo Hi. apply IDS in Hi as (y & Ly & Cy). destruct (DS o' Lo) as (e & _ & A). destruct (A y i Ly Cy) as (l & El & _ & IN). exists l. split; auto.
      intros j Hj. apply IN in Hj as (_ & d & Ldd & _ & Cd). apply IDS. exists (shift y d). split; auto. cbn [length] in *. rewrite shift_length; congruence. }
    assert (NE : ids <> []).
    { intros E0. destruct (torus_total [size; size] s Hk FS [0; 0] eq_refl) as (i & Ci). assert (X : In i ids) by (apply IDS; exists [0; 0]; auto). rewrite E0 in X. destruct X. }
    destruct (C56_spread_lemma _ N bg ords' rnd' ids p sched 0%nat st0 size LO' NI NE HN PH P1) as (o2 & Eo2 & _ & HS). assert (o2 = o) by congruence. subst o2.
    destruct (HS size ltac:(lia)) as (st2 & Es2 & _ & FR & _). assert (st2 = st) by congruence. subst st2. exact FR. }
  exists (Ok (mkSim st s)). split; [|split; [intros; contradiction|]].
  { intros f1 f2 H1 H2. unfold grow. change 2 with (Z.of_nat 2). rewrite (Er f1 f2 H1 H2). cbn [bind sim_struct sim_state]. rewrite EN. cbn [bind]. rewrite Eo. cbn [bind].
    rewrite (last_is _ size st); auto. rewrite RL. lia. }
  intros _. right. exists st. split; auto. split; [rewrite (proj1 PH'); unfold ids; now rewrite map_map|]. intros i x Gx.
  assert (Hi : In i ids) by (apply (get_site_ids FA L s i BU); eauto).
  assert (O : occupied bg st i).
  { destruct (without_phase s st0 bg) as [|j t] eqn:W; [cbn in CN; lia|]. assert (Hj : In j (without_phase s st0 bg)) by (rewrite W; simpl; auto).
    apply (nuclei FA s L bg amts st0 BU CF) in Hj as [Hj O].
    apply (torus_ids [size; size] s Hk FS) in Hi as (y & Ly & Cy). apply (torus_ids [size; size] s Hk FS) in Hj as (w & Lw & Cw).
    destruct (near_offset 2 size y w ltac:(lia) Ly Lw) as (d & Ldd & Fd & SC). apply (proj1 (K y i Ly Cy) d j Ldd); auto.
    - apply vn_bound in Fd. rewrite Ldd in Fd. unfold within_vn in *. pose proof (Z.div_mod size 2 ltac:(lia)). pose proof (Z.mod_pos_bound size 2 ltac:(lia)). lia.
    - apply (torus_eq [size; size] s w); auto. apply same_cell_sym. exact SC. }
  destruct O as (q & Hq & Dq). exists q. split; auto. split; auto. destruct (FR i q Hi Hq) as [->|(j & Hj & Hq')]; [congruence|]. destruct (PP j q Hj Hq') as [->|X]; [congruence|exact X].
Qed.
