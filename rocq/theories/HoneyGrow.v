(** Growth on honeycombs (C116). *)
From Coq Require Import Reals Permutation.
From Flocq Require Import Core BinarySingleNaN.
From Verif Require Import Prelude Dict Val ValFacts Arith RealArith LatticeModel StructModel StateModel ResultModel RunnerModel NbModel GridModel SimModel SetupModel RulesModel
  SpecState SpecResult SpecRunner SpecGeom SpecNb SpecGrid SpecSetup SpecRules SpecHoney SpecHexDist FloatArith SpecFloat64 SpecHoneyFloat StateFacts ResultFacts RunnerFacts
  StructFacts StructMore NbFacts GridFacts GridMore GridNb RulesFacts RulesMore SetupFacts GrowBall HoneyFacts FloatHoney FloatInv GenFair.
Local Open Scope Z_scope.

Definition hexc (n m : Z) (p : list Z) (i : Z) : Prop := exists a b, p = [a; b] /\ i = hex_id n m a b.
Definition hexb (k : nat) (d : list Z) : Prop := exists a b, d = [a; b] /\ hex_distance a b <= Z.of_nat k.

Lemma two {X} (d : list X) : length d = 2%nat -> exists a b, d = [a; b].
Proof. destruct d as [|a [|b [|]]]; try discriminate. eauto. Qed.

Lemma norm_le a b k : hex_distance a b <= k <-> -k <= a <= k /\ -k <= b <= k /\ -k <= a + b <= k.
Proof. unfold hex_distance. lia. Qed.
Lemma hex_hop a b k : 0 <= k -> hex_distance a b <= k + 1 -> exists x y, hex_distance x y <= 1 /\ hex_distance (a - x) (b - y) <= k.
Proof.
  intros K H. apply norm_le in H.
  assert (C : 0 < a /\ b < 0 \/ a < 0 /\ 0 < b \/ 0 < a /\ 0 <= b \/ a < 0 /\ b <= 0 \/ a = 0 /\ 0 < b \/ a = 0 /\ b < 0 \/ a = 0 /\ b = 0) by lia.
  destruct C as [C|[C|[C|[C|[C|[C|C]]]]]]; [exists 1, (-1)|exists (-1), 1|exists 1, 0|exists (-1), 0|exists 0, 1|exists 0, (-1)|exists 0, 0]; rewrite !norm_le; lia.
Qed.
Lemma hex_balls : balls 2 hexb.
Proof.
  unfold hexb. split.
  - intros d L. destruct (two d L) as (a & b & ->). split.
    + intros (a' & b' & E & H). injection E as <- <-. apply norm_le in H. repeat constructor; lia.
    + intros F. inversion F as [|? ? A F']; subst. inversion F'; subst. exists 0, 0. split; auto. apply norm_le. lia.
  - intros k d L (a & b & -> & H). destruct (hex_hop a b (Z.of_nat k)) as (x & y & H1 & H2); [lia|rewrite Nat2Z.inj_succ in H; exact H|].
    exists [x; y], [a - x; b - y]. split; auto. split; auto. split; [exists x, y; auto|]. split; [exists (a - x), (b - y); auto|].
    unfold shift. cbn [zipwith]. replace (x + (a - x)) with a by lia. replace (y + (b - y)) with b by lia. reflexivity.
  - intros k e f Le Lf (a & b & -> & H) (a' & b' & -> & H'). exists (a + a'), (b + b'). split; [reflexivity|]. rewrite norm_le in *. lia.
  - intros k d _ (a & b & -> & H). exists a, b. split; auto. lia.
Qed.

Lemma hex_id_shift n m a b c d x y : hex_id n m a b = hex_id n m c d -> 0 < n -> 0 < m -> hex_id n m (a + x) (b + y) = hex_id n m (c + x) (d + y).
Proof.
  unfold hex_id. intros E Hn Hm. pose proof (Z.mod_pos_bound b m Hm). pose proof (Z.mod_pos_bound d m Hm). apply hex_id_inj in E as [E1 E2]; auto.
  rewrite (Z.add_mod a), (Z.add_mod b), E1, E2, <- Z.add_mod, <- Z.add_mod by lia. reflexivity.
Qed.

(** The six cells around a cell are those one step away. *)
Lemma six_ball n m a b j : 3 <= n -> 3 <= m ->
  (In j (six n m a b) <-> j <> hex_id n m a b /\ exists d, length d = 2%nat /\ hexb 1 d /\ hexc n m (shift [a; b] d) j).
Proof.
  intros Hn Hm. unfold six. rewrite in_map_iff. split.
  - intros ((x & y) & <- & H). cbn [fst snd]. destruct (hexes_norm x y H) as (Q & A1 & A2). split.
    + intros E. unfold hex_id in E. apply hex_id_inj in E as [E1 E2]; try (apply Z.mod_pos_bound; lia).
      replace (a mod n) with ((a + 0) mod n) in E1 by (f_equal; lia). replace (b mod m) with ((b + 0) mod m) in E2 by (f_equal; lia).
      apply mod_eq_small in E1; try lia. apply mod_eq_small in E2; try lia. subst x y.
      clear - H. unfold hexes in H. cbn [In] in H. intuition congruence.
    + exists [x; y]. split; auto. split; [|exists (a + x), (b + y); auto]. exists x, y. split; auto. clear - H. unfold hexes in H. cbn [In] in H.
      repeat (destruct H as [H|H]; [injection H as <- <-; vm_compute; congruence|]). destruct H.
  - intros (NE & d & L & (x & y & -> & H) & (u & v & E & ->)). unfold shift in E. cbn [zipwith] in E. injection E as <- <-. exists (x, y). split; auto.
    assert (X : In x [-1; 0; 1] /\ In y [-1; 0; 1]) by (apply norm_le in H; cbn [In]; lia).
    destruct X as [X Y]. cbn [In] in X, Y. apply norm_le in H. unfold hexes.
    repeat (destruct X as [X|X]; [subst x; repeat (destruct Y as [Y|Y]; [subst y; try (cbn [In]; tauto); try (exfalso; cbn in H; lia); exfalso; apply NE; rewrite !Z.add_0_r; reflexivity|]); destruct Y|]). destruct X.
Qed.

(** Growth wherever every cell has its six neighbours. *)
Lemma hex_growth {F} (N : nbhood F) n m bg ords rnd ids c0 init k : 3 <= n -> 3 <= m ->
  (forall a b, 0 <= a < n -> 0 <= b < m -> neighbours N (hex_id n m a b) (fun j => In j (six n m a b))) ->
  (forall t, legal (ords t)) -> NoDup ids -> (forall i, In i ids <-> 0 <= i < n * m) -> phased ids init ->
  (exists o, run_sync (growth_controller N bg ords rnd) c0 init k = Ok o /\ rlen (o_result o) = Z.max 0 k + 1 /\
     forall t, 0 <= t <= Z.max 0 k -> exists st, get_step (o_result o) t = Ok st /\
       forall i j, occupied bg st (hex_id n m i j) <-> exists a b, hex_distance a b <= t /\ occupied bg init (hex_id n m (i + a) (j + b))) /\
  (forall q sched, 1 <= q -> exists o, run_parallel (growth_controller N bg ords rnd) q sched c0 init k = Ok o /\ rlen (o_result o) = Z.max 0 k + 1 /\
     forall t, 0 <= t <= Z.max 0 k -> exists st, get_step (o_result o) t = Ok st /\
       forall i j, occupied bg st (hex_id n m i j) <-> exists a b, hex_distance a b <= t /\ occupied bg init (hex_id n m (i + a) (j + b))).
Proof.
  intros Hn Hm NB LO NI IDS PH.
  assert (BND : forall a b, 0 <= hex_id n m a b < n * m).
  { intros a b. unfold hex_id. pose proof (Z.mod_pos_bound a n ltac:(lia)). pose proof (Z.mod_pos_bound b m ltac:(lia)). nia. }
  destruct (grow_ball N bg ords rnd ids (hexc n m) 2 hexb c0 init k) as [(o & E & RL & H) PAR]; auto.
  - intros p L. destruct (two p L) as (a & b & ->). exists (hex_id n m a b), a, b. auto.
  - intros p i j (a & b & -> & ->) (a' & b' & E & ->). injection E as <- <-. reflexivity.
  - intros p q d i j _ _ Ld (a & b & -> & ->) (a' & b' & -> & E) (u & v & E' & ->). destruct (two d Ld) as (x & y & ->). unfold shift in *. cbn [zipwith] in *. injection E' as <- <-.
    exists (a' + x), (b' + y). split; auto. apply hex_id_shift; auto; lia.
  - apply hex_balls.
  - intros E. assert (H0 : In 0 ids) by (apply IDS; nia). rewrite E in H0. destruct H0.
  - intros i. rewrite IDS. split.
    + intros Hi. exists [i / m; i mod m]. split; auto. exists (i / m), (i mod m). split; auto. unfold hex_id. rewrite Z.mod_mod by lia.
      rewrite (Z.mod_small (i / m)) by (split; [apply Z.div_pos; lia|apply Z.div_lt_upper_bound; [lia|rewrite Z.mul_comm; lia]]). pose proof (Z.div_mod i m ltac:(lia)). lia.
    + intros (p & _ & a & b & _ & ->). apply BND.
  - intros p i _ (a & b & -> & ->). intros o Lo.
    assert (EM : hex_id n m a b = hex_id n m (a mod n) (b mod m)) by (unfold hex_id; rewrite !Z.mod_mod by lia; reflexivity).
    destruct (NB (a mod n) (b mod m) (Z.mod_pos_bound a n ltac:(lia)) (Z.mod_pos_bound b m ltac:(lia)) o Lo) as (l & El & NDl & IL). rewrite <- EM in El. exists l. split; auto. split; auto.
    intros j. rewrite IL, six_ball by auto. rewrite <- EM. split; intros (NE & d & Ld & Bd & (u & v & E & Ej)); (split; [exact NE|]); exists d; split; auto; split; auto;
      destruct (two d Ld) as (x & y & ->); unfold shift in *; cbn [zipwith] in *; injection E as <- <-; eexists _, _; (split; [reflexivity|]); rewrite Ej; apply hex_id_shift; auto; lia.
  - assert (EQ : forall st t, 0 <= t -> (forall p i, length p = 2%nat -> hexc n m p i -> (occupied bg st i <-> exists d j, length d = 2%nat /\ hexb (Z.to_nat t) d /\ hexc n m (shift p d) j /\ occupied bg init j)) ->
      forall i j, occupied bg st (hex_id n m i j) <-> exists a b, hex_distance a b <= t /\ occupied bg init (hex_id n m (i + a) (j + b))).
    { intros st t Ht H' i j. rewrite (H' [i; j] (hex_id n m i j) eq_refl) by (exists i, j; auto). split.
      - intros (d & k' & Ld & (a & b & -> & Hd) & (u & v & E' & ->) & O). unfold shift in E'. cbn [zipwith] in E'. injection E' as <- <-. exists a, b. split; [lia|exact O].
      - intros (a & b & Hd & O). exists [a; b], (hex_id n m (i + a) (j + b)). split; auto. split; [exists a, b; split; [auto|lia]|]. split; [exists (i + a), (j + b); auto|exact O]. }
    split.
    + exists o. split; auto. split; auto. intros t Ht. destruct (H t Ht) as (st & Es & K). exists st. split; auto. apply EQ; [lia|exact K].
    + intros q sched Hq. destruct (PAR q sched Hq) as (op & Ep & RLp & HP). exists op. split; auto. split; auto. intros t Ht. destruct (HP t Ht) as (st & Es & K). exists st. split; auto. apply EQ; [lia|exact K].
Qed.

Lemma honey_unique n m s s' : honeycomb n m s -> honeycomb n m s' -> s = s'.
Proof. intros (b & E & B) (b' & E' & B'). congruence. Qed.
Lemma fl_honey_unique inv n m s s' : fl_honeycomb inv n m s -> fl_honeycomb inv n m s' -> s = s'.
Proof. intros (b & E & B) (b' & E' & B'). congruence. Qed.
Lemma dense_ids {F} (s : structure F) N ids : dense s -> Z.of_nat (length (sites s None)) = N -> Permutation ids (map s_id (sites s None)) ->
  NoDup ids /\ forall i, In i ids <-> 0 <= i < N.
Proof.
  intros D C P. split; [apply (Permutation_NoDup (Permutation_sym P)), dense_NoDup, D|]. intros i. rewrite <- C, <- zrange_In, <- D.
  split; apply Permutation_in; auto using Permutation_sym.
Qed.

Lemma C116_lemma : forall n m s N bg ords rnd ids c0 init k, 3 <= n -> 3 <= m -> honeycomb n m s ->
  growth_nbhood RA s (Some (HoneycombNeighborhoodBuilder RA)) = Ok N ->
  (forall t, legal (ords t)) -> Permutation ids (map s_id (sites s None)) -> phased ids init ->
  (exists o, run_sync (growth_controller N bg ords rnd) c0 init k = Ok o /\ rlen (o_result o) = Z.max 0 k + 1 /\
     forall t, 0 <= t <= Z.max 0 k -> exists st, get_step (o_result o) t = Ok st /\
       forall i j, occupied bg st (hex_id n m i j) <-> exists a b, hex_distance a b <= t /\ occupied bg init (hex_id n m (i + a) (j + b))) /\
  (forall q sched, 1 <= q -> exists o, run_parallel (growth_controller N bg ords rnd) q sched c0 init k = Ok o /\ rlen (o_result o) = Z.max 0 k + 1 /\
     forall t, 0 <= t <= Z.max 0 k -> exists st, get_step (o_result o) t = Ok st /\
       forall i j, occupied bg st (hex_id n m i j) <-> exists a b, hex_distance a b <= t /\ occupied bg init (hex_id n m (i + a) (j + b))).
Proof.
  intros n m s N bg ords rnd ids c0 init k Hn Hm HC EN LO PI PH.
  destruct (C44_lemma n m Hn Hm) as (s' & N' & HC' & CT & EN' & _ & NB). rewrite (honey_unique _ _ _ _ HC' HC) in *. unfold growth_nbhood in EN. cbn [bind] in EN. assert (N' = N) as -> by congruence.
  destruct (honey_struct n m Hn Hm) as (s2 & L & HC2 & _ & HB & _). rewrite (honey_unique _ _ _ _ HC2 HC) in *.
  destruct (dense_ids s (n * m) ids (built_dense RA L s HB) CT PI) as [NI IDS].
  apply (hex_growth N n m bg ords rnd ids c0 init k); auto. intros a b Ha Hb. apply NB; auto.
Qed.
Lemma C116_float_lemma : forall n m s N bg ords rnd ids c0 init k, 3 <= n <= 2 ^ 20 -> 3 <= m <= 2 ^ 20 -> fl_honeycomb f_inv n m s ->
  growth_nbhood FA s (Some (HoneycombNeighborhoodBuilder FA)) = Ok N ->
  (forall t, legal (ords t)) -> Permutation ids (map s_id (sites s None)) -> phased ids init ->
  (exists o, run_sync (growth_controller N bg ords rnd) c0 init k = Ok o /\ rlen (o_result o) = Z.max 0 k + 1 /\
     forall t, 0 <= t <= Z.max 0 k -> exists st, get_step (o_result o) t = Ok st /\
       forall i j, occupied bg st (hex_id n m i j) <-> exists a b, hex_distance a b <= t /\ occupied bg init (hex_id n m (i + a) (j + b))) /\
  (forall q sched, 1 <= q -> exists o, run_parallel (growth_controller N bg ords rnd) q sched c0 init k = Ok o /\ rlen (o_result o) = Z.max 0 k + 1 /\
     forall t, 0 <= t <= Z.max 0 k -> exists st, get_step (o_result o) t = Ok st /\
       forall i j, occupied bg st (hex_id n m i j) <-> exists a b, hex_distance a b <= t /\ occupied bg init (hex_id n m (i + a) (j + b))).
Proof.
  intros n m s N bg ords rnd ids c0 init k Hn Hm HC EN LO PI PH. pose proof (C96_inverse_lemma n m ltac:(lia) ltac:(lia)) as AC.
  destruct (C96_lemma f_inv n m Hn Hm AC) as (s' & N' & HC' & CT & EN' & _ & NB). rewrite (fl_honey_unique _ _ _ _ _ HC' HC) in *. unfold growth_nbhood in EN. cbn [bind] in EN. change FA with (FAi f_inv) in EN. assert (N' = N) as -> by congruence.
  destruct (hex_built f_inv n m Hn Hm AC) as (s2 & HC2 & HS). rewrite (fl_honey_unique _ _ _ _ _ HC2 HC) in *.
  destruct (dense_ids s (n * m) ids (hs_dense _ _ _ HS) CT PI) as [NI IDS].
  apply (hex_growth N n m bg ords rnd ids c0 init k); auto; try lia. intros a b Ha Hb. apply NB; auto.
Qed.

(** Every cell can be reached. *)
Lemma mod_near n i j : 3 <= n -> exists a, Z.abs a <= n / 2 /\ (i + a) mod n = j mod n.
Proof.
  intros Hn. pose proof (Z.mod_pos_bound (j - i) n ltac:(lia)) as B. pose proof (Z.div_mod (j - i) n ltac:(lia)) as D. set (r := (j - i) mod n) in *. set (q := (j - i) / n) in *.
  destruct (Z_le_gt_dec r (n / 2)) as [L|L].
  - exists r. split; [lia|]. replace (i + r) with (j + (- q) * n) by lia. apply Z.mod_add. lia.
  - exists (r - n). split; [Z.div_mod_to_equations; lia|]. replace (i + (r - n)) with (j + (- q - 1) * n) by lia. apply Z.mod_add. lia.
Qed.
Lemma C116_reach_lemma : forall n m i j i' j', 3 <= n -> 3 <= m -> exists a b, hex_distance a b <= n / 2 + m / 2 /\ hex_id n m (i + a) (j + b) = hex_id n m i' j'.
Proof.
  intros n m i j i' j' Hn Hm. destruct (mod_near n i i' Hn) as (a & A & EA). destruct (mod_near m j j' Hm) as (b & B & EB). exists a, b.
  split; [apply norm_le; lia|]. unfold hex_id. now rewrite EA, EB.
Qed.
Lemma C116_fills_lemma : forall n m s N bg ords rnd ids c0 init k, 3 <= n -> 3 <= m -> honeycomb n m s ->
  growth_nbhood RA s (Some (HoneycombNeighborhoodBuilder RA)) = Ok N ->
  (forall t, legal (ords t)) -> Permutation ids (map s_id (sites s None)) -> phased ids init ->
  (exists i, In i ids /\ occupied bg init i) -> n / 2 + m / 2 <= k ->
  (exists o st, run_sync (growth_controller N bg ords rnd) c0 init k = Ok o /\ get_step (o_result o) k = Ok st /\ forall i, In i ids -> occupied bg st i) /\
  (forall q sched, 1 <= q -> exists o st, run_parallel (growth_controller N bg ords rnd) q sched c0 init k = Ok o /\ get_step (o_result o) k = Ok st /\ forall i, In i ids -> occupied bg st i).
Proof.
  intros n m s N bg ords rnd ids c0 init k Hn Hm HC EN LO PI PH (i0 & Hi0 & O0) Hk.
  destruct (C44_lemma n m Hn Hm) as (s' & N' & HC' & _ & _ & KI & _). rewrite (honey_unique _ _ _ _ HC' HC) in *.
  destruct (honey_struct n m Hn Hm) as (s2 & L & HC2 & _ & HB & _). rewrite (honey_unique _ _ _ _ HC2 HC) in *.
  assert (ID : forall i, In i ids -> exists a b, i = hex_id n m a b).
  { intros i Hi. apply (Permutation_in _ PI) in Hi. apply (get_site_ids RA L s i HB) in Hi as [x Gx]. destruct (KI i x Gx) as (a & b & _ & _ & E). eauto. }
  destruct (ID i0 Hi0) as (a0 & b0 & ->). assert (K : 0 <= k) by (Z.div_mod_to_equations; lia).
  assert (X : forall st, (forall i j, occupied bg st (hex_id n m i j) <-> exists a b, hex_distance a b <= k /\ occupied bg init (hex_id n m (i + a) (j + b))) -> forall i, In i ids -> occupied bg st i).
  { intros st H i Hi. destruct (ID i Hi) as (x & y & ->). apply H. destruct (C116_reach_lemma n m x y a0 b0 Hn Hm) as (a & b & D & E). exists a, b. split; [lia|]. now rewrite E. }
  destruct (C116_lemma n m s N bg ords rnd ids c0 init k Hn Hm HC EN LO PI PH) as [(o & E & _ & H) PAR]. split.
  - destruct (H k ltac:(lia)) as (st & Es & Hs). exists o, st. auto.
  - intros q sched Hq. destruct (PAR q sched Hq) as (op & Ep & _ & Hp). destruct (Hp k ltac:(lia)) as (st & Es & Hs). exists op, st. auto.
Qed.

(** For the examples: a 3 by 4 honeycomb with one occupied cell. *)
Definition hex_spot : sstate := mkS (map (fun i => (KInt i, [(KStr "DISCRETE_OCCUPANCY", VStr (if i =? 5 then "a" else "bg"))])) (zrange 0 12)) [].
Lemma hex_spot_phased : phased (zrange 0 12) hex_spot.
Proof. split; [reflexivity|]. intros i Hi. repeat (destruct Hi as [<-|Hi]; [eexists; reflexivity|]). destruct Hi. Qed.
