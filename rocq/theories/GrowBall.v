(** The region grown after t steps is a ball around the nuclei (C85), also in binary64 (C86). *)
From Coq Require Import Reals Permutation.
From Verif Require Import Prelude Dict Val ValFacts Arith RealArith LatticeModel StructModel StateModel ResultModel RunnerModel NbModel GridModel SimModel SetupModel RulesModel
  SpecState SpecResult SpecRunner SpecGeom SpecNb SpecGrid SpecSetup SpecRules StateFacts ResultFacts RunnerFacts SyncFacts ParFacts ParRun GenRun
  LatticeFacts StructFacts StructMore NbFacts NbMore GridFacts GridMore GridNb SetupFacts SetupMore NucFacts NucMore RulesFacts RulesMore LifeFacts.
Local Open Scope Z_scope.

Lemma shift_add p d e : shift (shift p d) e = shift p (shift d e).
Proof. unfold shift. revert d e; induction p as [|a p IH]; destruct d, e; simpl; auto. f_equal; auto. lia. Qed.
Lemma shift_zero p d : length d = length p -> Forall (fun a => a = 0) d -> shift p d = p.
Proof. unfold shift. intros E Z0. revert p E; induction Z0 as [|a d -> Z0 IH]; intros [|b p] E; try discriminate; simpl in *; auto. f_equal; [lia|]. apply IH. lia. Qed.

(** A family of balls of offsets: every ball of radius k + 1 is a sum of one of radius 1 and one of radius k. *)
Record balls (D : nat) (B : nat -> list Z -> Prop) : Prop := {
  ball_zero : forall d, length d = D -> (B 0%nat d <-> Forall (fun a => a = 0) d);
  ball_split : forall k d, length d = D -> B (S k) d -> exists e f, length e = D /\ length f = D /\ B 1%nat e /\ B k f /\ d = shift e f;
  ball_sum : forall k e f, length e = D -> length f = D -> B 1%nat e -> B k f -> B (S k) (shift e f);
  ball_grow : forall k d, length d = D -> B k d -> B (S k) d }.

Definition clamp (r a : Z) : Z := Z.max (- r) (Z.min r a).
Lemma moore_balls D r : 0 <= r -> balls D (fun k => within_moore (r * Z.of_nat k)).
Proof.
  intros Hr. unfold within_moore. split.
  - intros d _. rewrite Z.mul_0_r. split; apply Forall_impl; intros a H; lia.
  - intros k d Ld H. exists (map (clamp r) d), (map (fun a => a - clamp r a) d). rewrite !map_length. split; auto. split; auto. rewrite !Forall_map. split; [|split].
    + apply Forall_forall. intros a _. unfold clamp. lia.
    + eapply Forall_impl; [|exact H]. intros a Ha. cbn beta in *. unfold clamp. lia.
    + clear. unfold shift. induction d as [|a d IH]; simpl; auto. f_equal; auto. unfold clamp. lia.
  - intros k e f Le Lf He Hf. unfold shift. subst D. revert f Lf He Hf. induction e as [|a e IH]; intros [|b f] Lf He Hf; try discriminate; simpl; constructor.
    + apply Forall_inv in He, Hf. lia.
    + apply IH; [simpl in Lf; lia|now apply Forall_inv_tail in He|now apply Forall_inv_tail in Hf].
  - intros k d _. apply Forall_impl. intros a H. nia.
Qed.

Definition l1 (d : list Z) : Z := fold_right (fun a t => Z.abs a + t) 0 d.
Fixpoint take1 (b : Z) (d : list Z) : list Z :=
  match d with [] => [] | a :: t => clamp b a :: take1 (b - Z.abs (clamp b a)) t end.
Lemma l1_nonneg d : 0 <= l1 d.
Proof. induction d; unfold l1 in *; simpl; lia. Qed.
Lemma take1_length b d : length (take1 b d) = length d.
Proof. revert b. induction d; simpl; auto. Qed.
Lemma take1_facts d : forall b, 0 <= b -> exists f, length f = length d /\ l1 (take1 b d) <= b /\ l1 f <= Z.max 0 (l1 d - b) /\ d = shift (take1 b d) f.
Proof.
  induction d as [|a d IH]; intros b Hb.
  - exists []. cbn. repeat split; lia.
  - cbn [take1]. pose proof (l1_nonneg d). destruct (IH (b - Z.abs (clamp b a))) as (f & L & L1 & L2 & E); [unfold clamp; lia|].
    exists ((a - clamp b a) :: f). split; [simpl; auto|]. unfold shift in *. cbn [zipwith]. rewrite <- E. unfold l1 in *. cbn [fold_right]. unfold clamp in *. split; [lia|]. split; [lia|f_equal; lia].
Qed.
Lemma l1_shift e f : length f = length e -> l1 (shift e f) <= l1 e + l1 f.
Proof. unfold shift, l1. revert f; induction e as [|a e IH]; intros [|b f] L; try discriminate; simpl; try lia. specialize (IH f ltac:(simpl in L; lia)). lia. Qed.
Lemma vn_balls D r : 0 <= r -> balls D (fun k => within_vn (r * Z.of_nat k)).
Proof.
  intros Hr. unfold within_vn. fold l1. split.
  - intros d _. rewrite Z.mul_0_r. fold (l1 d). split.
    + intros H. induction d as [|a d IH]; constructor; unfold l1 in *; cbn [fold_right] in H; pose proof (l1_nonneg d); unfold l1 in *; [lia|apply IH; lia].
    + induction 1 as [|a d -> H IH]; unfold l1 in *; simpl; lia.
  - intros k d Ld H. fold (l1 d) in H. destruct (take1_facts d r Hr) as (f & Lf & L1 & L2 & E). exists (take1 r d), f. rewrite take1_length. split; auto. split; [congruence|].
    fold (l1 (take1 r d)). fold (l1 f). split; [lia|]. split; [nia|exact E].
  - intros k e f Le Lf He Hf. fold (l1 e) in He. fold (l1 f) in Hf. fold (l1 (shift e f)). pose proof (l1_shift e f ltac:(congruence)). lia.
  - intros k d _ H. nia.
Qed.

Section Reach.
  Variables (C : list Z -> Z -> Prop) (D : nat) (B : nat -> list Z -> Prop).
  Hypothesis TOT : forall p, length p = D -> exists i, C p i.
  Hypothesis FUN : forall p i j, C p i -> C p j -> i = j.
  Hypothesis SHI : forall p q d i j, length p = D -> length q = D -> length d = D -> C p i -> C q i -> C (shift p d) j -> C (shift q d) j.
  Hypothesis BB : balls D B.
  Definition ball_rel (i j : Z) : Prop := j <> i /\ exists p d, length p = D /\ length d = D /\ B 1%nat d /\ C p i /\ C (shift p d) j.

  Lemma reach_iff k : forall p i j, length p = D -> C p i -> (within ball_rel k i j <-> exists d, length d = D /\ B k d /\ C (shift p d) j).
  Proof.
    induction k as [|k IH]; intros p i j Lp Ci.
    - split.
      + intros W. inversion W; subst. exists (map (fun _ => 0) p). rewrite map_length. split; auto. split.
        * apply (ball_zero _ _ BB); [now rewrite map_length|]. rewrite Forall_map. apply Forall_forall. auto.
        * rewrite shift_zero; auto; [now rewrite map_length|]. rewrite Forall_map. apply Forall_forall. auto.
      + intros (d & Ld & Bd & Cd). apply (ball_zero _ _ BB) in Bd; auto. rewrite shift_zero in Cd by congruence. rewrite (FUN _ _ _ Ci Cd). constructor.
    - split.
      + intros W. inversion W as [? ?|? ? m ? R W']; subst.
        * destruct (proj1 (IH p j j Lp Ci) ltac:(constructor)) as (d & Ld & Bd & Cd). exists d. split; auto. split; auto. now apply (ball_grow _ _ BB).
        * destruct R as (_ & q & e & Lq & Le & Be & Cq & Ce). pose proof (SHI q p e i m Lq Lp Le Cq Ci Ce) as Ce'.
          destruct (proj1 (IH (shift p e) m j ltac:(rewrite shift_length; congruence) Ce') W') as (f & Lf & Bf & Cf). exists (shift e f).
          split; [rewrite shift_length; congruence|]. split; [now apply (ball_sum _ _ BB)|]. now rewrite <- shift_add.
      + intros (d & Ld & Bd & Cd). destruct (ball_split _ _ BB k d Ld Bd) as (e & f & Le & Lf & Be & Bf & ->). rewrite <- shift_add in Cd.
        assert (Ls : length (shift p e) = D) by (rewrite shift_length; congruence). destruct (TOT _ Ls) as [m Cm].
        assert (W : within ball_rel k m j) by (apply (IH (shift p e) m j Ls Cm); exists f; auto).
        destruct (Z.eq_dec m i) as [->|N]; [now apply within_S|]. apply within_hop with m; auto. split; auto. exists p, e. auto 10.
  Qed.
End Reach.

(** Growth in any neighbourhood given by a ball of offsets. *)
Lemma grow_ball {F} (N : nbhood F) bg ords rnd ids (C : list Z -> Z -> Prop) D B c0 init n :
  (forall p, length p = D -> exists i, C p i) -> (forall p i j, C p i -> C p j -> i = j) ->
  (forall p q d i j, length p = D -> length q = D -> length d = D -> C p i -> C q i -> C (shift p d) j -> C (shift q d) j) -> balls D B ->
  (forall t, legal (ords t)) -> NoDup ids -> ids <> [] -> (forall i, In i ids <-> exists p, length p = D /\ C p i) ->
  (forall p i, length p = D -> C p i -> neighbours N i (fun j => j <> i /\ exists d, length d = D /\ B 1%nat d /\ C (shift p d) j)) -> phased ids init ->
  (exists o, run_sync (growth_controller N bg ords rnd) c0 init n = Ok o /\ rlen (o_result o) = Z.max 0 n + 1 /\
     forall t, 0 <= t <= Z.max 0 n -> exists st, get_step (o_result o) t = Ok st /\
       forall p i, length p = D -> C p i -> (occupied bg st i <-> exists d j, length d = D /\ B (Z.to_nat t) d /\ C (shift p d) j /\ occupied bg init j)) /\
  (forall q sched, 1 <= q -> exists o, run_parallel (growth_controller N bg ords rnd) q sched c0 init n = Ok o /\ rlen (o_result o) = Z.max 0 n + 1 /\
     forall t, 0 <= t <= Z.max 0 n -> exists st, get_step (o_result o) t = Ok st /\
       forall p i, length p = D -> C p i -> (occupied bg st i <-> exists d j, length d = D /\ B (Z.to_nat t) d /\ C (shift p d) j /\ occupied bg init j)).
Proof.
  intros TOT FUN SHI BB LO NI NE IDS NB PH.
  assert (HR : forall o i l j, legal o -> In i ids -> neighbors_of o N i = Ok l -> (In j l <-> ball_rel C D B i j)).
  { intros o i l j Lo Hi El. apply IDS in Hi as (p & Lp & Cp). destruct (NB p i Lp Cp o Lo) as (l' & El' & _ & IN). rewrite El in El'. injection El' as <-. rewrite IN. split.
    - intros (Nj & d & Ld & Bd & Cd). split; auto. exists p, d. auto.
    - intros (Nj & q & d & Lq & Ld & Bd & Cq & Cd). split; auto. exists d. split; auto. split; auto. eapply SHI; [exact Lq| | | | |]; eauto. }
  assert (HN : has_neighbours ids N).
  { intros o i Lo Hi. pose proof Hi as Hi'. apply IDS in Hi' as (p & Lp & Cp). destruct (NB p i Lp Cp o Lo) as (l & El & _ & IN). exists l. split; auto.
    intros j Hj. apply IN in Hj as (_ & d & Ld & _ & Cd). apply IDS. exists (shift p d). split; auto. rewrite shift_length; congruence. }
  assert (EQ : forall st t, (forall i, In i ids -> (occupied bg st i <-> exists j, within (ball_rel C D B) t i j /\ occupied bg init j)) ->
     forall p i, length p = D -> C p i -> (occupied bg st i <-> exists d j, length d = D /\ B t d /\ C (shift p d) j /\ occupied bg init j)).
  { intros st t H p i Lp Cp. rewrite H by (apply IDS; eauto). split.
    - intros (j & W & O). apply (reach_iff C D B TOT FUN SHI BB t p i j Lp Cp) in W as (d & Ld & Bd & Cd). exists d, j. auto.
    - intros (d & j & Ld & Bd & Cd & O). exists j. split; auto. apply (reach_iff C D B TOT FUN SHI BB t p i j Lp Cp). eauto. }
  split.
  - destruct (C55_lemma F N bg ords rnd ids c0 init n LO NI NE HN PH) as (o & E & RL & H). exists o. split; auto. split; auto. intros t Ht.
    destruct (H t Ht) as (st & Es & _ & _ & _ & SP). exists st. split; auto.
  - intros q sched Hq. destruct (C56_spread_lemma F N bg ords rnd ids q sched c0 init n LO NI NE HN PH Hq) as (o & E & RL & H). exists o. split; auto. split; auto. intros t Ht.
    destruct (H t Ht) as (st & Es & _ & _ & _ & SP). exists st. split; auto.
Qed.

Lemma torus_ball size s (P : nat -> list Z -> Prop) (N : nbhood R) bg ords rnd ids c0 init n : square_grid size s -> balls (length size) P -> torus_nb size s (P 1%nat) N ->
  (forall t, legal (ords t)) -> Permutation ids (map s_id (sites s None)) -> phased ids init ->
  (exists o, run_sync (growth_controller N bg ords rnd) c0 init n = Ok o /\ rlen (o_result o) = Z.max 0 n + 1 /\
     forall t, 0 <= t <= Z.max 0 n -> exists st, get_step (o_result o) t = Ok st /\
       forall p i, length p = length size -> cell s p i -> (occupied bg st i <-> exists d j, length d = length size /\ P (Z.to_nat t) d /\ cell s (shift p d) j /\ occupied bg init j)) /\
  (forall q sched, 1 <= q -> exists o, run_parallel (growth_controller N bg ords rnd) q sched c0 init n = Ok o /\ rlen (o_result o) = Z.max 0 n + 1 /\
     forall t, 0 <= t <= Z.max 0 n -> exists st, get_step (o_result o) t = Ok st /\
       forall p i, length p = length size -> cell s p i -> (occupied bg st i <-> exists d j, length d = length size /\ P (Z.to_nat t) d /\ cell s (shift p d) j /\ occupied bg init j)).
Proof.
  intros SG BB T LO PI PH. destruct (square_facts _ _ SG) as [L G]. apply (grow_ball N bg ords rnd ids (cell s) (length size) P); auto.
  - intros p Lp. eexists. apply (gf_cell _ _ _ G p Lp).
  - intros p i j. apply cell_fun.
  - intros p q d i j Lp Lq Ld Cp Cq Cs. apply (cell_same size s L (shift p d)); auto; [rewrite shift_length; congruence|]. apply same_shift; [now rewrite extents_length|].
    apply (cell_iff size s L p q i i); auto.
  - apply (Permutation_NoDup (Permutation_sym PI)), dense_NoDup, (built_dense RA L s (gf_built _ _ _ G)).
  - pose proof (gf_count _ _ _ G) as CT. pose proof (prod_pos _ (gf_pos _ _ _ G)). intros E. rewrite E in PI. apply Permutation_nil, map_eq_nil in PI. rewrite PI in CT. simpl in CT. lia.
  - intros i. split.
    + intros Hi. apply (Permutation_in _ PI) in Hi. apply (get_site_ids RA L s i (gf_built _ _ _ G)) in Hi as [z Gz]. destruct (site_cell _ _ _ _ _ G Gz) as (p & Lp & _ & _ & Cp & _). eauto.
    + intros (p & Lp & Cp). apply (Permutation_in _ (Permutation_sym PI)). apply (get_site_ids RA L s i (gf_built _ _ _ G)). unfold cell, id_at in Cp.
      apply bind_Ok in Cp as (o & E & Cp). destruct o as [y|]; [|discriminate]. injection Cp as <-. exists y.
      pose proof (site_at_found RA L s _ y (gf_built _ _ _ G) E) as H. destruct (built_inv RA L s (gf_built _ _ _ G)) as [h I]. apply (inv_get_site RA L h s _ y I). auto.
Qed.

Lemma C85_moore_lemma : forall size s r b N bg ords rnd ids c0 init n, square_grid size s -> 0 <= r ->
  (b = None /\ r = 1 \/ exists b', MooreNbHoodBuilder RA r (length size) = Ok b' /\ b = Some b') -> growth_nbhood RA s b = Ok N ->
  (forall t, legal (ords t)) -> Permutation ids (map s_id (sites s None)) -> phased ids init ->
  (exists o, run_sync (growth_controller N bg ords rnd) c0 init n = Ok o /\ rlen (o_result o) = Z.max 0 n + 1 /\
     forall t, 0 <= t <= Z.max 0 n -> exists st, get_step (o_result o) t = Ok st /\
       forall p i, length p = length size -> cell s p i ->
         (occupied bg st i <-> exists d j, length d = length size /\ within_moore (r * t) d /\ cell s (shift p d) j /\ occupied bg init j)) /\
  (forall q sched, 1 <= q -> exists o, run_parallel (growth_controller N bg ords rnd) q sched c0 init n = Ok o /\ rlen (o_result o) = Z.max 0 n + 1 /\
     forall t, 0 <= t <= Z.max 0 n -> exists st, get_step (o_result o) t = Ok st /\
       forall p i, length p = length size -> cell s p i ->
         (occupied bg st i <-> exists d j, length d = length size /\ within_moore (r * t) d /\ cell s (shift p d) j /\ occupied bg init j)).
Proof.
  intros size s r b N bg ords rnd ids c0 init n SG Hr HB EN LO PI PH.
  assert (T : torus_nb size s (within_moore (r * Z.of_nat 1)) N).
  { rewrite Z.mul_1_r. destruct (C41_moore_lemma size s r SG) as (b1 & N1 & Eb & EN' & T & _). unfold growth_nbhood in EN. destruct HB as [[-> ->]|(b' & Eb' & ->)].
    - rewrite (square_dim _ _ SG), Eb in EN. cbn [bind] in EN. assert (N = N1) by congruence. now subst.
    - cbn [bind] in EN. assert (b' = b1) by congruence. subst. assert (N = N1) by congruence. now subst. }
  destruct (torus_ball size s (fun k => within_moore (r * Z.of_nat k)) N bg ords rnd ids c0 init n SG (moore_balls _ r Hr) T LO PI PH) as [(o & E & RL & H) PAR]. split.
  - exists o. split; auto. split; auto. intros t Ht. destruct (H t Ht) as (st & Es & K). exists st. split; auto. rewrite Z2Nat.id in K by lia. exact K.
  - intros q sched Hq. destruct (PAR q sched Hq) as (op & Ep & RLp & HP). exists op. split; auto. split; auto. intros t Ht. destruct (HP t Ht) as (st & Es & K). exists st. split; auto. rewrite Z2Nat.id in K by lia. exact K.
Qed.

Lemma C85_von_neumann_lemma : forall size s r b N bg ords rnd ids c0 init n, square_grid size s -> 0 <= r ->
  (length size = 2%nat /\ VonNeumannNbHood2DBuilder RA r = Ok b \/ length size = 3%nat /\ VonNeumannNbHood3DBuilder RA r = Ok b) -> growth_nbhood RA s (Some b) = Ok N ->
  (forall t, legal (ords t)) -> Permutation ids (map s_id (sites s None)) -> phased ids init ->
  (exists o, run_sync (growth_controller N bg ords rnd) c0 init n = Ok o /\ rlen (o_result o) = Z.max 0 n + 1 /\
     forall t, 0 <= t <= Z.max 0 n -> exists st, get_step (o_result o) t = Ok st /\
       forall p i, length p = length size -> cell s p i ->
         (occupied bg st i <-> exists d j, length d = length size /\ within_vn (r * t) d /\ cell s (shift p d) j /\ occupied bg init j)) /\
  (forall q sched, 1 <= q -> exists o, run_parallel (growth_controller N bg ords rnd) q sched c0 init n = Ok o /\ rlen (o_result o) = Z.max 0 n + 1 /\
     forall t, 0 <= t <= Z.max 0 n -> exists st, get_step (o_result o) t = Ok st /\
       forall p i, length p = length size -> cell s p i ->
         (occupied bg st i <-> exists d j, length d = length size /\ within_vn (r * t) d /\ cell s (shift p d) j /\ occupied bg init j)).
Proof.
  intros size s r b N bg ords rnd ids c0 init n SG Hr HB EN LO PI PH.
  assert (T : torus_nb size s (within_vn (r * Z.of_nat 1)) N).
  { rewrite Z.mul_1_r. unfold growth_nbhood in EN. cbn [bind] in EN. destruct (C41_von_neumann_lemma size s r SG) as [H2 H3]. destruct HB as [[D Eb]|[D Eb]].
    - destruct (H2 D) as (b1 & N1 & Eb1 & EN' & T & _). assert (b = b1) by congruence. subst. assert (N = N1) by congruence. now subst.
    - destruct (H3 D) as (b1 & N1 & Eb1 & EN' & T & _). assert (b = b1) by congruence. subst. assert (N = N1) by congruence. now subst. }
  destruct (torus_ball size s (fun k => within_vn (r * Z.of_nat k)) N bg ords rnd ids c0 init n SG (vn_balls _ r Hr) T LO PI PH) as [(o & E & RL & H) PAR]. split.
  - exists o. split; auto. split; auto. intros t Ht. destruct (H t Ht) as (st & Es & K). exists st. split; auto. rewrite Z2Nat.id in K by lia. exact K.
  - intros q sched Hq. destruct (PAR q sched Hq) as (op & Ep & RLp & HP). exists op. split; auto. split; auto. intros t Ht. destruct (HP t Ht) as (st & Es & K). exists st. split; auto. rewrite Z2Nat.id in K by lia. exact K.
Qed.
