(** Growth on grids built in binary64 (C86). *)
From Coq Require Import Reals Permutation.
From Flocq Require Import Core BinarySingleNaN.
From Verif Require Import Prelude Dict Val ValFacts Arith LatticeModel StructModel StateModel ResultModel RunnerModel NbModel GridModel SimModel SetupModel RulesModel
  SpecState SpecResult SpecRunner SpecGeom SpecNb SpecGrid SpecSetup SpecRules StateFacts ResultFacts RunnerFacts SyncFacts ParFacts ParRun GenRun
  LatticeFacts StructFacts StructMore NbFacts NbMore GridFacts GridMore GridNb SetupFacts RulesFacts RulesMore LifeFacts LifeGen GrowBall
  FloatArith SpecFloat64 FloatFacts FloatCoord FloatGrid FloatMore FloatNb LifeFloat.
Local Open Scope Z_scope.

Lemma fl_dim n m s : 1 <= n <= M20 -> 1 <= m <= M20 -> fl_grid [n; m] s -> p_dim s = 2%nat.
Proof.
  intros Hn Hm (b & Eb & Es). destruct (build_fl n m Hn Hm) as (s' & L & h & (b' & Eb' & Es') & WL & I & _). assert (s = s') as -> by congruence.
  destruct I as (_ & E & _). rewrite E. destruct WL as (? & ? & ? & ? & -> & _). reflexivity.
Qed.

Lemma C86_lemma : forall n m s bg ords rnd ids c0 init k, 1 <= n <= 2 ^ 20 -> 1 <= m <= 2 ^ 20 -> fl_grid [n; m] s -> (forall t, legal (ords t)) ->
  Permutation ids (map s_id (sites s None)) -> phased ids init ->
  (~ falls_short n n -> ~ falls_short m m -> exists N, growth_nbhood FA s None = Ok N /\
   (exists o, run_sync (growth_controller N bg ords rnd) c0 init k = Ok o /\ rlen (o_result o) = Z.max 0 k + 1 /\
      forall t, 0 <= t <= Z.max 0 k -> exists st, get_step (o_result o) t = Ok st /\
        forall x y, (occupied bg st ((y mod n) * m + x mod m) <->
          exists dx dy, Z.abs dx <= t /\ Z.abs dy <= t /\ occupied bg init (((y + dy) mod n) * m + (x + dx) mod m))) /\
   (forall q sched, 1 <= q -> exists o, run_parallel (growth_controller N bg ords rnd) q sched c0 init k = Ok o /\ rlen (o_result o) = Z.max 0 k + 1 /\
      forall t, 0 <= t <= Z.max 0 k -> exists st, get_step (o_result o) t = Ok st /\
        forall x y, (occupied bg st ((y mod n) * m + x mod m) <->
          exists dx dy, Z.abs dx <= t /\ Z.abs dy <= t /\ occupied bg init (((y + dy) mod n) * m + (x + dx) mod m)))) /\
  (falls_short n n \/ falls_short m m -> growth_nbhood FA s None = Err TypeError).
Proof.
  intros n m s bg ords rnd ids c0 init k Hn Hm FG LO PI PH.
  destruct (C75_moore_lemma n m 1 s ltac:(lia) ltac:(lia) ltac:(lia) FG) as (b & Eb & OKC & BAD).
  pose proof (lost_1 n ltac:(unfold M20; lia)) as LN. pose proof (lost_1 m ltac:(unfold M20; lia)) as LM.
  pose proof (fl_dim n m s ltac:(unfold M20; lia) ltac:(unfold M20; lia) FG) as PD.
  assert (GN : growth_nbhood FA s None = nb_get FA b s None) by (unfold growth_nbhood; rewrite PD, Eb; reflexivity). rewrite GN. split; [|intros H; apply BAD; tauto].
  intros Sn Sm. destruct OKC as (N & EN & HN); [tauto|tauto|]. exists N. split; auto.
  destruct (fl_any n m s ltac:(unfold M20; lia) ltac:(unfold M20; lia) FG) as (DE & CT & GS & ALL & _).
  set (C := fun (p : list Z) (i : Z) => exists x y, p = [x; y] /\ i = fcell n m x y).
  assert (CV : forall x y i, C [x; y] i -> i = fcell n m x y) by (intros x y i (x' & y' & [= -> ->] & ->); reflexivity).
  assert (MD : forall x, 0 <= x mod m < m) by (intros; apply Z.mod_pos_bound; lia).
  assert (ND : forall y, 0 <= y mod n < n) by (intros; apply Z.mod_pos_bound; lia).
  assert (IDS : forall i, In i ids <-> exists p, length p = 2%nat /\ C p i).
  { intros i. split.
    - intros Hi. apply (Permutation_in _ PI) in Hi. apply in_map_iff in Hi as (z & <- & Hz). destruct (ALL z Hz) as (y & x & Hy & Hx & Gz).
      exists [x; y]. split; auto. exists x, y. split; auto. rewrite fcell_small by auto. destruct (GS y x Hy Hx) as (u & v & Gz' & _). rewrite Gz in Gz'. injection Gz' as ->. reflexivity.
    - intros (p & _ & x & y & -> & ->). apply (Permutation_in _ (Permutation_sym PI)).
      unfold dense in DE. rewrite DE, CT. apply zrange_In. unfold fcell. specialize (MD x). specialize (ND y). nia. }
  destruct (grow_ball N bg ords rnd ids C 2 (fun k => within_moore (1 * Z.of_nat k)) c0 init k) as [(o & E & RL & H) PAR].
  - intros [|x [|y [|]]] Lp; try discriminate. exists (fcell n m x y). exists x, y. auto.
  - intros p i j (x & y & -> & ->) Cj. symmetry. now apply CV.
  - intros p q d i j Lp Lq Ld (x & y & -> & ->) (x' & y' & -> & E) Cs. destruct d as [|dx [|dy [|]]]; try discriminate. cbn in Cs |- *. apply CV in Cs. subst j.
    exists (x' + dx), (y' + dy). split; auto. apply fcell_inj in E as [E1 E2]; try lia. apply fcell_eq; [rewrite Zplus_mod, E1, <- Zplus_mod|rewrite Zplus_mod, E2, <- Zplus_mod]; reflexivity.
  - apply moore_balls. lia.
  - auto.
  - apply (Permutation_NoDup (Permutation_sym PI)), dense_NoDup, DE.
  - intros E0. assert (X : In (fcell n m 0 0) ids) by (apply IDS; exists [0; 0]; split; auto; exists 0, 0; auto). rewrite E0 in X. destruct X.
  - exact IDS.
  - intros p i Lp (x & y & -> & ->) o Lo. destruct (HN (y mod n) (x mod m) (ND y) (MD x) o Lo) as (l & El & NDl & IN). exists l. split; [exact El|]. split; auto.
    intros j. rewrite IN. fold (fcell n m x y). split.
    + intros (Nj & dx & dy & A1 & A2 & ->). split; auto. exists [dx; dy]. split; auto. split; [repeat constructor; lia|]. exists (x + dx), (y + dy). split; auto. unfold fcell. now rewrite !Zplus_mod_idemp_l.
    + intros (Nj & d & Ld & W & Cd). split; auto. destruct d as [|dx [|dy [|]]]; try discriminate. cbn in Cd. apply CV in Cd. exists dx, dy. pose proof (Forall_inv W). pose proof (Forall_inv (Forall_inv_tail W)).
      cbn beta in *. split; [lia|]. split; [lia|]. rewrite Cd. unfold fcell. now rewrite !Zplus_mod_idemp_l.
  - exact PH.
  - assert (BACK : forall st t, 0 <= t -> (forall p i, length p = 2%nat -> C p i ->
        (occupied bg st i <-> exists d j, length d = 2%nat /\ within_moore (1 * Z.of_nat (Z.to_nat t)) d /\ C (shift p d) j /\ occupied bg init j)) ->
      forall x y, (occupied bg st ((y mod n) * m + x mod m) <-> exists dx dy, Z.abs dx <= t /\ Z.abs dy <= t /\ occupied bg init (((y + dy) mod n) * m + (x + dx) mod m))).
    { intros st t Ht K x y. rewrite Z2Nat.id, Z.mul_1_l in K by lia. fold (fcell n m x y). rewrite (K [x; y]) by (auto; exists x, y; auto). split.
      - intros (d & j & Ld & W & Cd & O). destruct d as [|dx [|dy [|]]]; try discriminate. cbn in Cd. apply CV in Cd. subst j. exists dx, dy.
        pose proof (Forall_inv W). pose proof (Forall_inv (Forall_inv_tail W)). cbn beta in *. split; [lia|]. split; [lia|]. exact O.
      - intros (dx & dy & A1 & A2 & O). exists [dx; dy], (fcell n m (x + dx) (y + dy)). split; auto. split; [repeat constructor; lia|]. split; [exists (x + dx), (y + dy); auto|exact O]. }
    split.
    + exists o. split; auto. split; auto. intros t Ht. destruct (H t Ht) as (st & Es & K). exists st. split; auto. apply BACK; auto. lia.
    + intros q sched Hq. destruct (PAR q sched Hq) as (op & Ep & RLp & HP). exists op. split; auto. split; auto. intros t Ht. destruct (HP t Ht) as (st & Es & K). exists st. split; auto. apply BACK; auto. lia.
Qed.

Lemma C86_small_lemma : forall n m s bg ords rnd ids c0 init k, 1 <= n <= 48 -> 1 <= m <= 48 -> fl_grid [n; m] s -> (forall t, legal (ords t)) ->
  Permutation ids (map s_id (sites s None)) -> phased ids init ->
  exists N o, growth_nbhood FA s None = Ok N /\ run_sync (growth_controller N bg ords rnd) c0 init k = Ok o /\ rlen (o_result o) = Z.max 0 k + 1 /\
    forall t, 0 <= t <= Z.max 0 k -> exists st, get_step (o_result o) t = Ok st /\
      forall x y, (occupied bg st ((y mod n) * m + x mod m) <->
        exists dx dy, Z.abs dx <= t /\ Z.abs dy <= t /\ occupied bg init (((y + dy) mod n) * m + (x + dx) mod m)).
Proof.
  intros n m s bg ords rnd ids c0 init k Hn Hm FG LO PI PH.
  destruct (C86_lemma n m s bg ords rnd ids c0 init k ltac:(lia) ltac:(lia) FG LO PI PH) as [H _].
  destruct H as (N & EN & (o & E & RL & K) & _); try (apply C30_adjacent_lemma; lia). exists N, o. auto.
Qed.

Lemma C86_refuted_lemma : exists n s, 1 <= n <= 100 /\ fl_grid [n; n] s /\ growth_nbhood FA s None = Err TypeError.
Proof.
  destruct (fl_core 49 49 ltac:(unfold M20; lia) ltac:(unfold M20; lia)) as (s & FG & _).
  destruct (C75_moore_lemma 49 49 1 s ltac:(lia) ltac:(lia) ltac:(lia) FG) as (b & Eb & _ & H).
  exists 49, s. split; [lia|]. split; auto. unfold growth_nbhood. rewrite (fl_dim 49 49 s) by (auto; unfold M20; lia). rewrite Eb. cbn [bind]. apply H.
  left. apply lost_1; [unfold M20; lia|]. apply short_at_border; [unfold M20; lia|vm_compute; reflexivity].
Qed.
