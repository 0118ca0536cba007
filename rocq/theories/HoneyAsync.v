(** Growth on honeycombs of every size (C116) and asynchronous growth there (C120). *)
From Coq Require Import Reals Permutation.
From Flocq Require Import Core BinarySingleNaN.
From Verif Require Import Prelude Dict Val ValFacts Arith RealArith LatticeModel StructModel StateModel ResultModel RunnerModel NbModel GridModel SimModel SetupModel RulesModel
  SpecState SpecResult SpecRunner SpecGeom SpecNb SpecGrid SpecSetup SpecRules SpecHoney SpecHexDist FloatArith SpecFloat64 SpecHoneyFloat StateFacts ResultFacts RunnerFacts
  StructFacts StructMore NbFacts GridFacts GridMore GridNb RulesFacts RulesMore SetupFacts GrowBall HoneyFacts FloatHoney FloatInv GenFair AsyncGrow AsyncPath HoneyGrow HoneyAll HoneySmall.
Local Open Scope Z_scope.

Lemma near_ball n m a b j :
  (In j (six n m a b) /\ j <> hex_id n m a b <-> j <> hex_id n m a b /\ exists d, length d = 2%nat /\ hexb 1 d /\ hexc n m (shift [a; b] d) j).
Proof.
  unfold six. rewrite in_map_iff. split.
  - intros [((x & y) & <- & H) NE]. cbn [fst snd] in *. split; auto.
    exists [x; y]. split; auto. split; [|exists (a + x), (b + y); auto]. exists x, y. split; auto. clear - H. unfold hexes in H. cbn [In] in H.
    repeat (destruct H as [H|H]; [injection H as <- <-; vm_compute; congruence|]). destruct H.
  - intros (NE & d & L & (x & y & -> & H) & (u & v & E & ->)). split; [|exact NE]. unfold shift in E. cbn [zipwith] in E. injection E as <- <-. exists (x, y). split; auto.
    assert (X : In x [-1; 0; 1] /\ In y [-1; 0; 1]) by (apply norm_le in H; cbn [In]; lia).
    destruct X as [X Y]. cbn [In] in X, Y. apply norm_le in H. unfold hexes.
    repeat (destruct X as [X|X]; [subst x; repeat (destruct Y as [Y|Y]; [subst y; try (cbn [In]; tauto); try (exfalso; cbn in H; lia); exfalso; apply NE; rewrite !Z.add_0_r; reflexivity|]); destruct Y|]). destruct X.
Qed.

Section Any.
  Context {F : Type} (N : nbhood F) (n m : Z) (bg : string) (ords : nat -> @nb_oracle F) (rnd : nat -> nat).
  Hypothesis (Hn : 1 <= n) (Hm : 1 <= m).
  Hypothesis NB : forall a b, 0 <= a < n -> 0 <= b < m -> neighbours N (hex_id n m a b) (fun j => In j (six n m a b) /\ j <> hex_id n m a b).
  Hypothesis LO : forall t, legal (ords t).

  Lemma hid_bound a b : 0 <= hex_id n m a b < n * m.
  Proof. unfold hex_id. pose proof (Z.mod_pos_bound a n ltac:(lia)). pose proof (Z.mod_pos_bound b m ltac:(lia)). nia. Qed.
  Lemma hid_mod a b : hex_id n m a b = hex_id n m (a mod n) (b mod m).
  Proof. unfold hex_id. rewrite !Z.mod_mod by lia. reflexivity. Qed.
  Lemma hid_of i : 0 <= i < n * m -> i = hex_id n m (i / m) (i mod m).
  Proof.
    intros Hi. unfold hex_id. rewrite Z.mod_mod by lia.
    rewrite (Z.mod_small (i / m)) by (split; [apply Z.div_pos; lia|apply Z.div_lt_upper_bound; [lia|rewrite Z.mul_comm; lia]]). pose proof (Z.div_mod i m ltac:(lia)). lia.
  Qed.
  Lemma six_mod a b a' b' : hex_id n m a b = hex_id n m a' b' -> six n m a b = six n m a' b'.
  Proof. intros E. unfold six. apply map_ext. intros [x y]. cbn [fst snd]. apply HoneyGrow.hex_id_shift; auto; lia. Qed.
  Lemma NB' a b : neighbours N (hex_id n m a b) (fun j => In j (six n m a b) /\ j <> hex_id n m a b).
  Proof.
    rewrite (hid_mod a b) at 1. intros o Lo. destruct (NB (a mod n) (b mod m) (Z.mod_pos_bound a n ltac:(lia)) (Z.mod_pos_bound b m ltac:(lia)) o Lo) as (l & El & ND & IL).
    exists l. split; auto. split; auto. intros j. rewrite IL, <- hid_mod, (six_mod (a mod n) (b mod m) a b) by (symmetry; apply hid_mod). tauto.
  Qed.

  Lemma hex_grow ids c0 init k : NoDup ids -> (forall i, In i ids <-> 0 <= i < n * m) -> phased ids init ->
    (exists o, run_sync (growth_controller N bg ords rnd) c0 init k = Ok o /\ rlen (o_result o) = Z.max 0 k + 1 /\
       forall t, 0 <= t <= Z.max 0 k -> exists st, get_step (o_result o) t = Ok st /\
         forall i j, occupied bg st (hex_id n m i j) <-> exists a b, hex_distance a b <= t /\ occupied bg init (hex_id n m (i + a) (j + b))) /\
    (forall q sched, 1 <= q -> exists o, run_parallel (growth_controller N bg ords rnd) q sched c0 init k = Ok o /\ rlen (o_result o) = Z.max 0 k + 1 /\
       forall t, 0 <= t <= Z.max 0 k -> exists st, get_step (o_result o) t = Ok st /\
         forall i j, occupied bg st (hex_id n m i j) <-> exists a b, hex_distance a b <= t /\ occupied bg init (hex_id n m (i + a) (j + b))).
  Proof.
    intros NI IDS PH.
    destruct (grow_ball N bg ords rnd ids (hexc n m) 2 hexb c0 init k) as [(o & E & RL & H) PAR]; auto.
    - intros p L. destruct (two p L) as (a & b & ->). exists (hex_id n m a b), a, b. auto.
    - intros p i j (a & b & -> & ->) (a' & b' & E & ->). injection E as <- <-. reflexivity.
    - intros p q d i j _ _ Ld (a & b & -> & ->) (a' & b' & -> & E) (u & v & E' & ->). destruct (two d Ld) as (x & y & ->). unfold shift in *. cbn [zipwith] in *. injection E' as <- <-.
      exists (a' + x), (b' + y). split; auto. apply HoneyGrow.hex_id_shift; auto; lia.
    - apply hex_balls.
    - intros E. assert (H0 : In 0 ids) by (apply IDS; nia). rewrite E in H0. destruct H0.
    - intros i. rewrite IDS. split.
      + intros Hi. exists [i / m; i mod m]. split; auto. exists (i / m), (i mod m). split; auto. now apply hid_of.
      + intros (p & _ & a & b & _ & ->). apply hid_bound.
    - intros p i _ (a & b & -> & ->). intros o Lo. destruct (NB' a b o Lo) as (l & El & NDl & IL). exists l. split; auto. split; auto.
      intros j. rewrite IL, near_ball. reflexivity.
    - assert (EQ : forall st t, 0 <= t -> (forall p i, length p = 2%nat -> hexc n m p i -> (occupied bg st i <-> exists d j, length d = 2%nat /\ hexb (Z.to_nat t) d /\ hexc n m (shift p d) j /\ occupied bg init j)) ->
        forall i j, occupied bg st (hex_id n m i j) <-> exists a b, hex_distance a b <= t /\ occupied bg init (hex_id n m (i + a) (j + b))).
      { intros st t Ht H' i j. rewrite (H' [i; j] (hex_id n m i j) eq_refl) by (exists i, j; auto). split.
        - intros (d & k' & Ld & (a & b & -> & Hd) & (u & v & E' & ->) & O). unfold shift in E'. cbn [zipwith] in E'. injection E' as <- <-. exists a, b. split; [lia|exact O].
        - intros (a & b & Hd & O). exists [a; b], (hex_id n m (i + a) (j + b)). split; auto. split; [exists a, b; split; [auto|lia]|]. split; [exists (i + a), (j + b); auto|exact O]. }
      split.
      + exists o. split; auto. split; auto. intros t Ht. destruct (H t Ht) as (st & Es & K). exists st. split; auto. apply EQ; [lia|exact K].
      + intros q sched Hq. destruct (PAR q sched Hq) as (op & Ep & RLp & HP). exists op. split; auto. split; auto. intros t Ht. destruct (HP t Ht) as (st & Es & K). exists st. split; auto. apply EQ; [lia|exact K].
  Qed.

  (** Asynchronous runs. *)
  Definition hnbr (x y : Z) : Prop := exists a b, x = hex_id n m a b /\ In y (six n m a b) /\ y <> x.
  Lemma NB_z o i l j : legal o -> In i (zrange 0 (n * m)) -> neighbors_of o N i = Ok l -> (In j l <-> hnbr i j).
  Proof.
    intros Lo Hi El. apply zrange_In in Hi. pose proof (hid_of i ltac:(lia)) as E. destruct (NB' (i / m) (i mod m) o Lo) as (l' & El' & _ & IL). rewrite <- E in El'.
    assert (l' = l) as -> by congruence. rewrite IL, <- E. split.
    - intros [H1 H2]. exists (i / m), (i mod m). auto.
    - intros (a & b & E2 & H1 & H2). split; auto. rewrite (six_mod _ _ a b); auto. congruence.
  Qed.
  Lemma HAS : has_neighbours (zrange 0 (n * m)) N.
  Proof.
    intros o i Lo Hi. apply zrange_In in Hi. pose proof (hid_of i ltac:(lia)) as E. destruct (NB' (i / m) (i mod m) o Lo) as (l & El & _ & IL). rewrite <- E in El.
    exists l. split; auto. intros j Hj. apply IL in Hj as [Hj _]. apply in_map_iff in Hj as (d & <- & _). apply zrange_In. pose proof (hid_bound (i / m + fst d) (i mod m + snd d)). lia.
  Qed.
  Lemma hop_hexes x y : In (x, y) hexes -> hex_distance x y = 1.
  Proof. unfold hexes. cbn [In]. intros H. repeat (destruct H as [H|H]; [injection H as <- <-; reflexivity|]). destruct H. Qed.
  Lemma within_hex t i j y : within hnbr t (hex_id n m i j) y -> exists a b, hex_distance a b <= Z.of_nat t /\ y = hex_id n m (i + a) (j + b).
  Proof.
    revert i j. induction t as [|t IH]; intros i j W; inversion W as [? ? E1 E2|? ? z ? H W' E1 E2]; subst.
    - exists 0, 0. split; [cbn; lia|]. now rewrite !Z.add_0_r.
    - exists 0, 0. split; [apply norm_le; lia|]. now rewrite !Z.add_0_r.
    - destruct H as (a & b & E & HI & _). rewrite (six_mod a b i j) in HI by congruence. apply in_map_iff in HI as ((x & w) & <- & HX). cbn [fst snd] in W'.
      apply IH in W' as (c & d & Hd & ->). apply hop_hexes in HX. exists (x + c), (w + d). split; [|f_equal; lia]. assert (X : hex_distance x w <= 1) by lia. apply norm_le in X. apply norm_le in Hd. apply norm_le. lia.
  Qed.
  Lemma hex_within t : forall i j a b, hex_distance a b <= Z.of_nat t -> within hnbr t (hex_id n m i j) (hex_id n m (i + a) (j + b)).
  Proof.
    induction t as [|t IH]; intros i j a b H.
    - apply norm_le in H. replace (i + a) with i by lia. replace (j + b) with j by lia. constructor.
    - destruct (hex_hop a b (Z.of_nat t)) as (x & y & H1 & H2); [lia|lia|].
      specialize (IH (i + x) (j + y) (a - x) (b - y) H2). replace (i + x + (a - x)) with (i + a) in IH by lia. replace (j + y + (b - y)) with (j + b) in IH by lia.
      destruct (Z.eq_dec (hex_id n m (i + x) (j + y)) (hex_id n m i j)) as [E|NE].
      + rewrite E in IH. clear - IH. induction IH; [constructor|]. econstructor; eauto.
      + apply within_hop with (hex_id n m (i + x) (j + y)); auto. exists i, j. split; auto. split; auto.
        apply (near_ball n m i j (hex_id n m (i + x) (j + y))). split; auto. exists [x; y]. split; auto. split; [exists x, y; auto|]. exists (i + x), (j + y). split; auto.
  Qed.

  Lemma hex_async c0 init k : phased (zrange 0 (n * m)) init ->
    exists o, run_async (growth_controller N bg ords rnd) c0 init k = Ok o /\ rlen (o_result o) = Z.max 0 k + 1 /\
     forall t, 0 <= t <= Z.max 0 k -> exists st, get_step (o_result o) t = Ok st /\
       (forall i j, occupied bg st (hex_id n m i j) -> exists a b, hex_distance a b <= t /\ occupied bg init (hex_id n m (i + a) (j + b))) /\
       forall i, 0 <= i < n * m -> (occupied bg st i <-> exists j l, occupied bg init j /\ walk hnbr j l i /\
         in_order l (map (fun k => Z.of_nat (rnd (c0 + 2 * k)%nat) mod (n * m)) (seq 0 (Z.to_nat t)))).
  Proof.
    intros PH. destruct (C80_lemma F N bg ords rnd (n * m) c0 init k LO ltac:(nia) HAS PH) as (o & Eo & RL & H).
    destruct (C93_lemma F N bg ords rnd (n * m) c0 init k hnbr LO ltac:(nia) HAS PH NB_z) as (o' & Eo' & H'). assert (o' = o) as -> by congruence.
    exists o. split; auto. split; auto. intros t Ht. destruct (H t Ht) as (st & Es & _ & _ & _ & HW & _). exists st. split; auto. split.
    - intros i j O. destruct (HW hnbr NB_z (hex_id n m i j)) as (y & W & Oy); auto.
      { apply zrange_In. pose proof (hid_bound i j). lia. }
      apply within_hex in W as (a & b & Hd & ->). rewrite Z2Nat.id in Hd by lia. eauto.
    - intros i Hi. destruct (H' t i Ht) as (st' & Es' & EQ); [apply zrange_In; lia|]. assert (st' = st) as -> by congruence. exact EQ.
  Qed.

  Lemma uniform (P : Z -> Z -> Prop) : forall l, (forall i, In i l -> exists n0, forall k, n0 <= k -> P i k) -> exists n0, forall k, n0 <= k -> forall i, In i l -> P i k.
  Proof.
    induction l as [|a l IH]; intros H; [exists 0; intros k _ i []|]. destruct (H a (or_introl eq_refl)) as (x & Hx). destruct IH as (y & Hy); [intros i Hi; apply H; now right|].
    exists (Z.max x y). intros k Hk i [<-|Hi]; [apply Hx; lia|apply Hy; auto; lia].
  Qed.

  Lemma hex_fill c0 init : phased (zrange 0 (n * m)) init ->
    (forall a t, 0 <= a < n * m -> exists t', (t <= t')%nat /\ Z.of_nat (rnd (c0 + 2 * t')%nat) mod (n * m) = a) ->
    (exists i, 0 <= i < n * m /\ occupied bg init i) ->
    exists n0, forall k, n0 <= k -> exists o st, run_async (growth_controller N bg ords rnd) c0 init k = Ok o /\ last_step (o_result o) = Ok st /\
      forall i, 0 <= i < n * m -> occupied bg st i.
  Proof.
    intros PH DR (i0 & Hi0 & O0).
    destruct (uniform (fun i k => exists o st, run_async (growth_controller N bg ords rnd) c0 init k = Ok o /\ last_step (o_result o) = Ok st /\ occupied bg st i) (zrange 0 (n * m))) as (n0 & H).
    - intros i Hi. pose proof Hi as Hz. apply zrange_In in Hz.
      set (a := i0 / m - i / m). set (b := i0 mod m - i mod m).
      apply (C81_lemma F N bg ords rnd (n * m) c0 init hnbr i i0 (Z.to_nat (hex_distance a b)) LO ltac:(nia) HAS PH NB_z); auto.
      + intros x t Hx. apply zrange_In in Hx. apply DR. lia.
      + rewrite (hid_of i) at 1 by lia. rewrite (hid_of i0 Hi0) at 1. replace (i0 / m) with (i / m + a) by (unfold a; lia). replace (i0 mod m) with (i mod m + b) by (unfold b; lia).
        apply hex_within. assert (0 <= hex_distance a b) by (unfold hex_distance; lia). lia.
    - exists n0. intros k Hk. specialize (H k Hk). assert (P0 : 0 < n * m) by nia. destruct (H 0) as (o & st & Eo & Es & _); [apply zrange_In; lia|].
      exists o, st. split; auto. split; auto. intros i Hi. destruct (H i) as (o' & st' & Eo' & Es' & O'); [apply zrange_In; lia|]. congruence.
  Qed.
End Any.

Lemma honey_ready n m s N : 1 <= n -> 1 <= m -> n = 1 \/ m = 1 \/ (n = 2 /\ m = 2) \/ (3 <= n /\ 3 <= m) -> honeycomb n m s ->
  growth_nbhood RA s (Some (HoneycombNeighborhoodBuilder RA)) = Ok N ->
  dense s /\ Z.of_nat (length (sites s None)) = n * m /\ forall a b, 0 <= a < n -> 0 <= b < m -> neighbours N (hex_id n m a b) (fun j => In j (six n m a b) /\ j <> hex_id n m a b).
Proof.
  intros Hn Hm CS HC EN. destruct (C118_lemma n m Hn Hm CS) as (s' & N' & HC' & EN' & NB). rewrite (honey_unique _ _ _ _ HC' HC) in *. unfold growth_nbhood in EN. cbn [bind] in EN. assert (N' = N) as -> by congruence.
  destruct (honey_all n m Hn Hm) as (s2 & L & outs & HC2 & _ & HA & _ & CT & _). rewrite (honey_unique _ _ _ _ HC2 HC) in *.
  assert (HB : built RA L s) by (eexists; rewrite HA; reflexivity). split; [exact (built_dense RA L s HB)|]. auto.
Qed.

Lemma C116_every_lemma : forall n m s N bg ords rnd ids c0 init k, 1 <= n -> 1 <= m -> n = 1 \/ m = 1 \/ (n = 2 /\ m = 2) \/ (3 <= n /\ 3 <= m) -> honeycomb n m s ->
  growth_nbhood RA s (Some (HoneycombNeighborhoodBuilder RA)) = Ok N ->
  (forall t, legal (ords t)) -> Permutation ids (map s_id (sites s None)) -> phased ids init ->
  (exists o, run_sync (growth_controller N bg ords rnd) c0 init k = Ok o /\ rlen (o_result o) = Z.max 0 k + 1 /\
     forall t, 0 <= t <= Z.max 0 k -> exists st, get_step (o_result o) t = Ok st /\
       forall i j, occupied bg st (hex_id n m i j) <-> exists a b, hex_distance a b <= t /\ occupied bg init (hex_id n m (i + a) (j + b))) /\
  (forall q sched, 1 <= q -> exists o, run_parallel (growth_controller N bg ords rnd) q sched c0 init k = Ok o /\ rlen (o_result o) = Z.max 0 k + 1 /\
     forall t, 0 <= t <= Z.max 0 k -> exists st, get_step (o_result o) t = Ok st /\
       forall i j, occupied bg st (hex_id n m i j) <-> exists a b, hex_distance a b <= t /\ occupied bg init (hex_id n m (i + a) (j + b))).
Proof.
  intros n m s N bg ords rnd ids c0 init k Hn Hm CS HC EN LO PI PH. destruct (honey_ready n m s N Hn Hm CS HC EN) as (DS & CT & NB).
  destruct (dense_ids s (n * m) ids DS CT PI) as [NI IDS]. exact (hex_grow N n m bg ords rnd Hn Hm NB LO ids c0 init k NI IDS PH).
Qed.

Lemma C120_lemma : forall n m s N bg ords rnd c0 init k, 1 <= n -> 1 <= m -> n = 1 \/ m = 1 \/ (n = 2 /\ m = 2) \/ (3 <= n /\ 3 <= m) -> honeycomb n m s ->
  growth_nbhood RA s (Some (HoneycombNeighborhoodBuilder RA)) = Ok N -> (forall t, legal (ords t)) -> phased (zrange 0 (n * m)) init ->
  exists o, run_async (growth_controller N bg ords rnd) c0 init k = Ok o /\ rlen (o_result o) = Z.max 0 k + 1 /\
    forall t, 0 <= t <= Z.max 0 k -> exists st, get_step (o_result o) t = Ok st /\
      (forall i j, occupied bg st (hex_id n m i j) -> exists a b, hex_distance a b <= t /\ occupied bg init (hex_id n m (i + a) (j + b))) /\
      forall i, 0 <= i < n * m -> (occupied bg st i <-> exists j l, occupied bg init j /\ walk (fun x y => exists a b, x = hex_id n m a b /\ In y (six n m a b) /\ y <> x) j l i /\
        in_order l (map (fun k => Z.of_nat (rnd (c0 + 2 * k)%nat) mod (n * m)) (seq 0 (Z.to_nat t)))).
Proof.
  intros n m s N bg ords rnd c0 init k Hn Hm CS HC EN LO PH. destruct (honey_ready n m s N Hn Hm CS HC EN) as (_ & _ & NB). exact (hex_async N n m bg ords rnd Hn Hm NB LO c0 init k PH).
Qed.
Lemma C120_fills_lemma : forall n m s N bg ords rnd c0 init, 1 <= n -> 1 <= m -> n = 1 \/ m = 1 \/ (n = 2 /\ m = 2) \/ (3 <= n /\ 3 <= m) -> honeycomb n m s ->
  growth_nbhood RA s (Some (HoneycombNeighborhoodBuilder RA)) = Ok N -> (forall t, legal (ords t)) -> phased (zrange 0 (n * m)) init ->
  (forall a t, 0 <= a < n * m -> exists t', (t <= t')%nat /\ Z.of_nat (rnd (c0 + 2 * t')%nat) mod (n * m) = a) ->
  (exists i, 0 <= i < n * m /\ occupied bg init i) ->
  exists n0, forall k, n0 <= k -> exists o st, run_async (growth_controller N bg ords rnd) c0 init k = Ok o /\ last_step (o_result o) = Ok st /\
    forall i, 0 <= i < n * m -> occupied bg st i.
Proof.
  intros n m s N bg ords rnd c0 init Hn Hm CS HC EN LO PH. destruct (honey_ready n m s N Hn Hm CS HC EN) as (_ & _ & NB). exact (hex_fill N n m bg ords rnd Hn Hm NB LO c0 init PH).
Qed.

Lemma float_ready n m s N : 3 <= n <= 2 ^ 20 -> 3 <= m <= 2 ^ 20 -> fl_honeycomb f_inv n m s ->
  growth_nbhood FA s (Some (HoneycombNeighborhoodBuilder FA)) = Ok N ->
  forall a b, 0 <= a < n -> 0 <= b < m -> neighbours N (hex_id n m a b) (fun j => In j (six n m a b) /\ j <> hex_id n m a b).
Proof.
  intros Hn Hm HC EN. pose proof (C96_inverse_lemma n m ltac:(lia) ltac:(lia)) as AC.
  destruct (C96_lemma f_inv n m Hn Hm AC) as (s' & N' & HC' & CT & EN' & _ & NB). rewrite (fl_honey_unique _ _ _ _ _ HC' HC) in *. unfold growth_nbhood in EN. cbn [bind] in EN. change FA with (FAi f_inv) in EN. assert (N' = N) as -> by congruence.
  intros a b Ha Hb o Lo. destruct (NB a b Ha Hb) as (_ & _ & _ & NB1 & _). destruct (NB1 o Lo) as (l & El & ND & IL). exists l. split; auto. split; auto. intros j. rewrite IL.
  split; [|tauto]. intros H. split; auto. apply six_ball in H; [tauto|lia|lia].
Qed.
Lemma C120_float_lemma : forall n m s N bg ords rnd c0 init k, 3 <= n <= 2 ^ 20 -> 3 <= m <= 2 ^ 20 -> fl_honeycomb f_inv n m s ->
  growth_nbhood FA s (Some (HoneycombNeighborhoodBuilder FA)) = Ok N -> (forall t, legal (ords t)) -> phased (zrange 0 (n * m)) init ->
  (exists o, run_async (growth_controller N bg ords rnd) c0 init k = Ok o /\ rlen (o_result o) = Z.max 0 k + 1 /\
    forall t, 0 <= t <= Z.max 0 k -> exists st, get_step (o_result o) t = Ok st /\
      (forall i j, occupied bg st (hex_id n m i j) -> exists a b, hex_distance a b <= t /\ occupied bg init (hex_id n m (i + a) (j + b))) /\
      forall i, 0 <= i < n * m -> (occupied bg st i <-> exists j l, occupied bg init j /\ walk (fun x y => exists a b, x = hex_id n m a b /\ In y (six n m a b) /\ y <> x) j l i /\
        in_order l (map (fun k => Z.of_nat (rnd (c0 + 2 * k)%nat) mod (n * m)) (seq 0 (Z.to_nat t))))) /\
  ((forall a t, 0 <= a < n * m -> exists t', (t <= t')%nat /\ Z.of_nat (rnd (c0 + 2 * t')%nat) mod (n * m) = a) ->
   (exists i, 0 <= i < n * m /\ occupied bg init i) ->
   exists n0, forall k, n0 <= k -> exists o st, run_async (growth_controller N bg ords rnd) c0 init k = Ok o /\ last_step (o_result o) = Ok st /\
     forall i, 0 <= i < n * m -> occupied bg st i).
Proof.
  intros n m s N bg ords rnd c0 init k Hn Hm HC EN LO PH. pose proof (float_ready n m s N Hn Hm HC EN) as NB. split.
  - exact (hex_async N n m bg ords rnd ltac:(lia) ltac:(lia) NB LO c0 init k PH).
  - exact (hex_fill N n m bg ords rnd ltac:(lia) ltac:(lia) NB LO c0 init PH).
Qed.
