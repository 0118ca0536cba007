(** Gauss-Jordan elimination inverts the vectors of a honeycomb accurately. *)
From Coq Require Import Reals Lra Psatz.
From Flocq Require Import Core BinarySingleNaN.
From Verif Require Import Prelude Arith RealArith FloatArith SpecFloat64 SpecHoneyFloat FloatFacts FloatCoord FloatGrid FloatNear.
Local Open Scope R_scope.

Lemma den_fix a x : denotes a x -> rnd x = x.
Proof. intros [F E]. rewrite <- E. unfold rnd. apply round_generic; auto with typeclass_instances. apply generic_format_B2R. Qed.
Lemma den_big a x : denotes a x -> Rabs x <= big \/ big < Rabs x.
Proof. intros _. destruct (Rle_or_lt (Rabs x) big); auto. Qed.

Definition sp (p X : R) : Prop := 0 < p /\ / p <= X <= p.
Lemma sp_pos p X : sp p X -> 0 < X.
Proof. intros (P & L & _). pose proof (Rinv_0_lt_compat _ P). lra. Qed.
Lemma sp_mul p q X Y : sp p X -> sp q Y -> sp (p * q) (X * Y).
Proof.
  intros HX HY. pose proof (sp_pos _ _ HX). pose proof (sp_pos _ _ HY). destruct HX as (P & L1 & U1). destruct HY as (Q & L2 & U2).
  pose proof (Rinv_0_lt_compat _ P). pose proof (Rinv_0_lt_compat _ Q). split; [nra|]. rewrite Rinv_mult. split; apply Rmult_le_compat; lra.
Qed.
Lemma sp_inv p X : sp p X -> sp p (/ X).
Proof.
  intros HX. pose proof (sp_pos _ _ HX). destruct HX as (P & L1 & U1). split; auto. split.
  - apply Rinv_le_contravar; auto.
  - rewrite <- (Rinv_inv p). apply Rinv_le_contravar; auto. apply Rinv_0_lt_compat; auto.
Qed.
Lemma sp_div p q X Y : sp p X -> sp q Y -> sp (p * q) (X / Y).
Proof. intros. unfold Rdiv. apply sp_mul; auto. now apply sp_inv. Qed.
Lemma sp_mid p X : sp p X -> p <= 1099511627776 -> mid X.
Proof.
  intros HX L. pose proof (sp_pos _ _ HX). destruct HX as (P & L1 & U1). unfold mid. rewrite Rabs_pos_eq by lra. split; [|lra].
  eapply Rle_trans; [|exact L1]. apply Rinv_le_contravar; auto.
Qed.
Lemma mid_neg X : mid X -> mid (- X).
Proof. unfold mid. now rewrite Rabs_Ropp. Qed.
Lemma sqrt3_sp : 1.73 <= sqrt 3 <= 1.74.
Proof.
  split.
  - rewrite <- (sqrt_square 1.73) by lra. apply sqrt_le_1_alt. lra.
  - rewrite <- (sqrt_square 1.74) by lra. apply sqrt_le_1_alt. lra.
Qed.

Lemma rel_times N a X C e d : 0 < N -> rel a X e -> N * X = C -> e * Rabs C <= d -> times_near N a C d.
Proof.
  intros HN (x & D & H) <- L. apply ap_iff. exists x. split; auto. replace (N * x - N * X) with (N * (x - X)) by ring.
  rewrite Rabs_mult, (Rabs_pos_eq N) by lra. rewrite Rabs_mult, (Rabs_pos_eq N) in L by lra.
  eapply Rle_trans; [apply Rmult_le_compat_l; [lra|exact H]|]. lra.
Qed.
Lemma rel_sub0 a b X e : mid X -> 0 <= e <= / T20 -> rel a X e -> denotes b 0 -> rel (f_sub a b) X e.
Proof.
  intros M He (x & D & H) Db. exists x. split; auto. apply den_sub0; auto; [now apply den_fix with a|]. apply (mid_le_big x X e); auto.
Qed.
Lemma rel_nonzero a X e : X <> 0 -> 0 <= e <= / 2 -> rel a X e -> exists x, denotes a x /\ x <> 0.
Proof.
  intros NX He (x & D & H). exists x. split; auto. intros ->. replace (0 - X) with (- X) in H by ring. rewrite Rabs_Ropp in H. pose proof (Rabs_pos_lt X NX). nra.
Qed.
Lemma rel_diff N a b X C e f d : 1 <= N <= T20 -> rel a X e -> rel b X f -> N * Rabs X <= C -> 0 <= e -> 0 <= f -> (e + f) * C <= 1 -> (e + f) * C + ulp_ * ((e + f) * C) + E50 <= d -> times_near N (f_sub a b) 0 d.
Proof.
  intros HN (x & Dx & Ex) (y & Dy & Ey) HC Pe Pf H1 Hd. apply ap_iff.
  assert (K : Rabs (N * (x - y)) <= (e + f) * C).
  { rewrite Rabs_mult, (Rabs_pos_eq N) by lra. apply Rle_trans with (N * ((e + f) * Rabs X)).
    - apply Rmult_le_compat_l; [lra|]. replace (x - y) with ((x - X) + - (y - X)) by ring. rewrite Rmult_plus_distr_r. apply Rabs_sum; [auto|now rewrite Rabs_Ropp].
    - replace (N * ((e + f) * Rabs X)) with ((e + f) * (N * Rabs X)) by ring. apply Rmult_le_compat_l; lra. }
  exists (rnd (x - y)). split; [apply denotes_sub; auto; apply T60_big; apply (scale_le N); lra|].
  pose proof (scaled_error N (x - y) _ ltac:(lra) K) as E. apply Rabs_bnd in E, K. apply Rabs_le. lra.
Qed.

Section Inv.
  Variables n m : Z.
  Hypothesis (Hn : (1 <= n <= 2 ^ 20)%Z) (Hm : (1 <= m <= 2 ^ 20)%Z).
  Let N := IZR n. Let M := IZR m.
  Let s := sqrt 3.
  Ltac num := unfold u52, ulp_; simpl; lra.

  Lemma NB : 1 <= N <= T20. Proof. unfold N. split; [apply (IZR_le 1)|apply (IZR_le n (2 ^ 20))]; lia. Qed.
  Lemma MB : 1 <= M <= T20. Proof. unfold M. split; [apply (IZR_le 1)|apply (IZR_le m (2 ^ 20))]; lia. Qed.
  Lemma sB : 1.73 <= s <= 1.74. Proof. apply sqrt3_sp. Qed.
  Lemma sN : sp T20 N. Proof. pose proof NB. split; [lra|]. split; [|lra]. apply Rle_trans with 1; lra. Qed.
  Lemma sM : sp T20 (M / 2). Proof. pose proof MB. split; [lra|]. split; [|lra]. apply Rle_trans with (/ 2); lra. Qed.
  Lemma s1 : sp 1 1. Proof. split; lra. Qed.
  Lemma s3 : sp 2 s. Proof. pose proof sB. split; lra. Qed.
  Lemma sh : sp (T20 * 2) (M * (s / 2)). Proof. replace (M * (s / 2)) with (M / 2 * s) by field. apply sp_mul; [apply sM|apply s3]. Qed.

  Variables v z w h : b64.
  Hypothesis (Dv : denotes v N) (Dz : denotes z 0) (Dw : denotes w (M / 2)) (Dh : times_near 1 h (M * (s / 2)) (M / IZR (2 ^ 49))).

  Lemma rel_h : rel h (M * (s / 2)) (10 * u52).
  Proof.
    pose proof MB. pose proof sB. apply ap_iff in Dh. destruct Dh as (y & D & H1). rewrite Rmult_1_l in H1. exists y. split; auto.
    eapply Rle_trans; [exact H1|]. rewrite Rabs_pos_eq by (apply Rmult_le_pos; lra). apply Rle_trans with (10 * u52 * (M * (1.73 / 2))); [unfold u52; simpl; lra|].
    apply Rmult_le_compat_l; [unfold u52; lra|]. apply Rmult_le_compat_l; lra.
  Qed.
  Lemma result a b c d : times_near N a 1 (/ IZR (2 ^ 44)) -> times_near M b 0 (/ IZR (2 ^ 44)) -> times_near N c (- / s) (/ IZR (2 ^ 44)) -> times_near M d (2 / s) (/ IZR (2 ^ 44)) ->
    f_inv [[v; z]; [w; h]] = Ok [[a; b]; [c; d]] ->
    exists a b c d, f_inv [[v; z]; [w; h]] = Ok [[a; b]; [c; d]] /\
    times_near N a 1 (/ IZR (2 ^ 44)) /\ times_near M b 0 (/ IZR (2 ^ 44)) /\ times_near N c (- / s) (/ IZR (2 ^ 44)) /\ times_near M d (2 / s) (/ IZR (2 ^ 44)).
  Proof. intros. exists a, b, c, d. auto. Qed.

  (** The first row is the pivot. *)
  Lemma inv_straight : M / 2 <= N -> exists a b c d, f_inv [[v; z]; [w; h]] = Ok [[a; b]; [c; d]] /\
    times_near N a 1 (/ IZR (2 ^ 44)) /\ times_near M b 0 (/ IZR (2 ^ 44)) /\ times_near N c (- / s) (/ IZR (2 ^ 44)) /\ times_near M d (2 / s) (/ IZR (2 ^ 44)).
  Proof.
    intros LE. pose proof NB as HN. pose proof MB as HM. pose proof sB as HS. pose proof den_0 as D0. pose proof den_1 as D1.
    destruct rel_h as (y & Dy & Ey). pose proof rel_h as Rh. assert (MS : 0 < M * (s / 2)) by (apply Rmult_lt_0_compat; lra).
    assert (NN : N <> 0) by lra. assert (YP : / 2 * (M * (s / 2)) <= y).
    { rewrite (Rabs_pos_eq (M * (s / 2))) in Ey by lra. apply Rabs_bnd in Ey. assert (10 * u52 * (M * (s / 2)) <= / 2 * (M * (s / 2))) by (apply Rmult_le_compat_r; [lra|num]). lra. }
    assert (Py : 0 < y) by lra. assert (Ny : y <> 0) by lra.
    assert (H0 : M * (s / 2) <> 0) by lra.
    assert (S1 : forall r, eliminate 0 [[v; z; f_ofZ 1; f_ofZ 0]; [w; h; f_ofZ 0; f_ofZ 1]] = r ->
      r = Ok [[f_div v v; f_div z v; f_div (f_ofZ 1) v; f_div (f_ofZ 0) v];
              [f_sub w (f_mul w (f_div v v)); f_sub h (f_mul w (f_div z v)); f_sub (f_ofZ 0) (f_mul w (f_div (f_ofZ 1) v)); f_sub (f_ofZ 1) (f_mul w (f_div (f_ofZ 0) v))]]).
    { intros r <-. unfold eliminate. cbn [skipn pivot nth].
      rewrite (denotes_ltb _ _ 0 (Rabs N) D0 (denotes_abs _ _ Dv)), Rlt_bool_true by (rewrite Rabs_pos_eq; lra).
      rewrite (denotes_ltb _ _ (Rabs N) (Rabs (M / 2)) (denotes_abs _ _ Dv) (denotes_abs _ _ Dw)), Rlt_bool_false by (rewrite !Rabs_pos_eq; lra).
      cbn [swap length seq map nth Nat.eqb]. rewrite (denotes_eqb _ _ N 0 Dv D0), Req_bool_false by auto. cbn [zipwith map]. reflexivity. }
    specialize (S1 _ eq_refl).
    pose proof (den_div0 _ _ _ Dz Dv NN) as E2.
    assert (E3 : rel (f_div (f_ofZ 1) v) (1 / N) (3 * u52)).
    { apply (rel_div _ _ _ _ 0 0); auto; try (apply rel_den; auto); try num. apply (sp_mid (1 * T20)); [apply sp_div; [apply s1|apply sN]|lra]. }
    pose proof (den_div0 _ _ _ D0 Dv NN) as E4.
    assert (G2 : denotes (f_sub h (f_mul w (f_div z v))) y).
    { apply den_sub0; auto; [apply (den_mul0r _ _ _ Dw E2)|now apply den_fix with h|]. apply (mid_le_big y (M * (s / 2)) (10 * u52)); auto; [|num]. apply (sp_mid (T20 * 2)); [apply sh|lra]. }
    assert (G2r : rel (f_sub h (f_mul w (f_div z v))) (M * (s / 2)) (10 * u52)) by (exists y; auto).
    assert (MID1 : mid (M / 2 * (1 / N))) by (apply (sp_mid (T20 * (1 * T20))); [apply sp_mul; [apply sM|apply sp_div; [apply s1|apply sN]]|lra]).
    assert (G3 : rel (f_sub (f_ofZ 0) (f_mul w (f_div (f_ofZ 1) v))) (- (M / 2 * (1 / N))) (6 * u52)).
    { apply (rel_neg _ _ _ (5 * u52)); auto; try num. apply (rel_mul _ _ _ _ 0 (3 * u52)); auto; try num. now apply rel_den. }
    pose proof (den_sub0 _ _ _ D1 (den_mul0r _ _ _ Dw E4) (rnd_IZR 1 eq_refl) (IZR_big 1 ltac:(discriminate))) as G4.
    set (e1 := f_div v v) in *. set (e2 := f_div z v) in *. set (e3 := f_div (f_ofZ 1) v) in *. set (e4 := f_div (f_ofZ 0) v) in *.
    set (g1 := f_sub w (f_mul w e1)) in *. set (g2 := f_sub h (f_mul w e2)) in *. set (g3 := f_sub (f_ofZ 0) (f_mul w e3)) in *. set (g4 := f_sub (f_ofZ 1) (f_mul w e4)) in *.
    assert (S2 : eliminate 1 [[e1; e2; e3; e4]; [g1; g2; g3; g4]] =
      Ok [[f_sub e1 (f_mul e2 (f_div g1 g2)); f_sub e2 (f_mul e2 (f_div g2 g2)); f_sub e3 (f_mul e2 (f_div g3 g2)); f_sub e4 (f_mul e2 (f_div g4 g2))];
          [f_div g1 g2; f_div g2 g2; f_div g3 g2; f_div g4 g2]]).
    { unfold eliminate. cbn [skipn pivot nth].
      rewrite (denotes_ltb _ _ 0 (Rabs y) D0 (denotes_abs _ _ G2)), Rlt_bool_true by (rewrite Rabs_pos_eq; lra).
      cbn [swap length seq map nth Nat.eqb]. rewrite (denotes_eqb _ _ y 0 G2 D0), Req_bool_false by auto. cbn [zipwith map]. reflexivity. }
    assert (K3 : rel (f_div g3 g2) (- / (N * s)) (19 * u52)).
    { apply (rel_eq _ (- (M / 2 * (1 / N)) / (M * (s / 2)))); [|field; repeat split; lra].
      apply (rel_div _ _ _ _ (6 * u52) (10 * u52)); auto; try num.
      replace (- (M / 2 * (1 / N)) / (M * (s / 2))) with (- / (N * s)) by (field; repeat split; lra).
      apply mid_neg. apply (sp_mid (T20 * 2)); [apply sp_inv, sp_mul; [apply sN|apply s3]|lra]. }
    assert (K4 : rel (f_div g4 g2) (1 / (M * (s / 2))) (13 * u52)).
    { apply (rel_div _ _ _ _ 0 (10 * u52)); auto; try num; [|now apply rel_den]. apply (sp_mid (1 * (T20 * 2))); [apply sp_div; [apply s1|apply sh]|lra]. }
    destruct K3 as (k3 & Dk3 & Ek3). destruct K4 as (k4 & Dk4 & Ek4).
    apply (result (f_sub e3 (f_mul e2 (f_div g3 g2))) (f_sub e4 (f_mul e2 (f_div g4 g2))) (f_div g3 g2) (f_div g4 g2)).
    - apply (rel_times N _ (1 / N) _ (3 * u52)); [lra| |field; lra|rewrite Rabs_R1; num]. apply rel_sub0; auto; [|num|apply (den_mul0l _ _ _ E2 Dk3)].
      apply (sp_mid (1 * T20)); [apply sp_div; [apply s1|apply sN]|lra].
    - apply ap_iff. exists 0. split; [apply den_sub0; [exact E4|apply (den_mul0l _ _ _ E2 Dk4)|apply rnd_0|apply zero_big]|]. rewrite Rmult_0_r, Rminus_0_r, Rabs_R0. simpl. lra.
    - apply (rel_times N _ (- / (N * s)) _ (19 * u52)); [lra|exists k3; auto|field; lra|]. rewrite Rabs_Ropp, Rabs_pos_eq by (left; apply Rinv_0_lt_compat; lra).
      apply Rle_trans with (19 * u52 * 1); [apply Rmult_le_compat_l; [num|]; rewrite <- Rinv_1; apply Rinv_le_contravar; lra|num].
    - apply (rel_times M _ (1 / (M * (s / 2))) _ (13 * u52)); [lra|exists k4; auto|field; lra|]. rewrite Rabs_pos_eq by (left; apply Rdiv_lt_0_compat; lra).
      apply Rle_trans with (13 * u52 * 2); [apply Rmult_le_compat_l; [num|]; apply Rmult_le_reg_r with s; [lra|]; unfold Rdiv; rewrite Rmult_assoc, Rinv_l; lra|num].
    - unfold f_inv. cbn [length seq map nth app Nat.eqb]. cbn [foldM]. rewrite S1. cbn [bind]. rewrite S2. reflexivity.
  Qed.

  (** The second row is the pivot. *)
  Lemma inv_swapped : N < M / 2 -> exists a b c d, f_inv [[v; z]; [w; h]] = Ok [[a; b]; [c; d]] /\
    times_near N a 1 (/ IZR (2 ^ 44)) /\ times_near M b 0 (/ IZR (2 ^ 44)) /\ times_near N c (- / s) (/ IZR (2 ^ 44)) /\ times_near M d (2 / s) (/ IZR (2 ^ 44)).
  Proof.
    intros LT. pose proof NB as HN. pose proof MB as HM. pose proof sB as HS. pose proof den_0 as D0. pose proof den_1 as D1.
    pose proof rel_h as Rh. assert (NM : M / 2 <> 0) by lra. assert (NS : - (N * s) <> 0) by (assert (0 < N * s) by (apply Rmult_lt_0_compat; lra); lra).
    assert (S1 : eliminate 0 [[v; z; f_ofZ 1; f_ofZ 0]; [w; h; f_ofZ 0; f_ofZ 1]] =
         Ok [[f_div w w; f_div h w; f_div (f_ofZ 0) w; f_div (f_ofZ 1) w];
              [f_sub v (f_mul v (f_div w w)); f_sub z (f_mul v (f_div h w)); f_sub (f_ofZ 1) (f_mul v (f_div (f_ofZ 0) w)); f_sub (f_ofZ 0) (f_mul v (f_div (f_ofZ 1) w))]]).
    { unfold eliminate. cbn [skipn pivot nth].
      rewrite (denotes_ltb _ _ 0 (Rabs N) D0 (denotes_abs _ _ Dv)), Rlt_bool_true by (rewrite Rabs_pos_eq; lra).
      rewrite (denotes_ltb _ _ (Rabs N) (Rabs (M / 2)) (denotes_abs _ _ Dv) (denotes_abs _ _ Dw)), Rlt_bool_true by (rewrite !Rabs_pos_eq; lra).
      cbn [swap length seq map nth Nat.eqb]. rewrite (denotes_eqb _ _ (M / 2) 0 Dw D0), Req_bool_false by auto. cbn [zipwith map]. reflexivity. }
    assert (E2 : rel (f_div h w) s (13 * u52)).
    { apply (rel_eq _ (M * (s / 2) / (M / 2))); [|field; lra]. apply (rel_div _ _ _ _ (10 * u52) 0); auto; try num; [|now apply rel_den].
      replace (M * (s / 2) / (M / 2)) with s by (field; lra). apply (sp_mid 2); [apply s3|lra]. }
    pose proof (den_div0 _ _ _ D0 Dw NM) as E3.
    assert (E4 : rel (f_div (f_ofZ 1) w) (1 / (M / 2)) (3 * u52)).
    { apply (rel_div _ _ _ _ 0 0); auto; try (apply rel_den; auto); try num. apply (sp_mid (1 * T20)); [apply sp_div; [apply s1|apply sM]|lra]. }
    assert (MID2 : mid (N * s)) by (apply (sp_mid (T20 * 2)); [apply sp_mul; [apply sN|apply s3]|lra]).
    assert (G2 : rel (f_sub z (f_mul v (f_div h w))) (- (N * s)) (16 * u52)).
    { apply (rel_neg _ _ _ (15 * u52)); auto; try num. apply (rel_mul _ _ _ _ 0 (13 * u52)); auto; try num. now apply rel_den. }
    pose proof (den_sub0 _ _ _ D1 (den_mul0r _ _ _ Dv E3) (rnd_IZR 1 eq_refl) (IZR_big 1 ltac:(discriminate))) as G3.
    assert (MID3 : mid (N * (1 / (M / 2)))) by (apply (sp_mid (T20 * (1 * T20))); [apply sp_mul; [apply sN|apply sp_div; [apply s1|apply sM]]|lra]).
    assert (G4 : rel (f_sub (f_ofZ 0) (f_mul v (f_div (f_ofZ 1) w))) (- (N * (1 / (M / 2)))) (6 * u52)).
    { apply (rel_neg _ _ _ (5 * u52)); auto; try num. apply (rel_mul _ _ _ _ 0 (3 * u52)); auto; try num. now apply rel_den. }
    set (e1 := f_div w w) in *. set (e2 := f_div h w) in *. set (e3 := f_div (f_ofZ 0) w) in *. set (e4 := f_div (f_ofZ 1) w) in *.
    set (g1 := f_sub v (f_mul v e1)) in *. set (g2 := f_sub z (f_mul v e2)) in *. set (g3 := f_sub (f_ofZ 1) (f_mul v e3)) in *. set (g4 := f_sub (f_ofZ 0) (f_mul v e4)) in *.
    destruct (rel_nonzero g2 _ (16 * u52) NS ltac:(num) G2) as (y & Dy & Ny).
    assert (S2 : eliminate 1 [[e1; e2; e3; e4]; [g1; g2; g3; g4]] =
      Ok [[f_sub e1 (f_mul e2 (f_div g1 g2)); f_sub e2 (f_mul e2 (f_div g2 g2)); f_sub e3 (f_mul e2 (f_div g3 g2)); f_sub e4 (f_mul e2 (f_div g4 g2))];
          [f_div g1 g2; f_div g2 g2; f_div g3 g2; f_div g4 g2]]).
    { unfold eliminate. cbn [skipn pivot nth].
      rewrite (denotes_ltb _ _ 0 (Rabs y) D0 (denotes_abs _ _ Dy)), Rlt_bool_true by (now apply Rabs_pos_lt).
      cbn [swap length seq map nth Nat.eqb]. rewrite (denotes_eqb _ _ y 0 Dy D0), Req_bool_false by auto. cbn [zipwith map]. reflexivity. }
    assert (K3 : rel (f_div g3 g2) (- / (N * s)) (19 * u52)).
    { apply (rel_eq _ (1 / - (N * s))); [|field; repeat split; lra]. apply (rel_div _ _ _ _ 0 (16 * u52)); auto; try num; [|now apply rel_den].
      replace (1 / - (N * s)) with (- / (N * s)) by (field; repeat split; lra). apply mid_neg. apply (sp_mid (T20 * 2)); [apply sp_inv, sp_mul; [apply sN|apply s3]|lra]. }
    assert (E5 : - (N * (1 / (M / 2))) / - (N * s) = 1 / (M / 2 * s)) by (field; repeat split; lra).
    assert (K4 : rel (f_div g4 g2) (1 / (M / 2 * s)) (25 * u52)).
    { rewrite <- E5. apply (rel_div _ _ _ _ (6 * u52) (16 * u52)); auto; try num. rewrite E5.
      apply (sp_mid (1 * (T20 * 2))); [apply sp_div; [apply s1|apply sp_mul; [apply sM|apply s3]]|lra]. }
    assert (MID4 : mid (- / N)) by (apply mid_neg; apply (sp_mid T20); [apply sp_inv, sN|lra]).
    assert (P3 : rel (f_mul e2 (f_div g3 g2)) (- / N) (34 * u52)).
    { assert (E : s * - / (N * s) = - / N) by (field; repeat split; lra). rewrite <- E. apply (rel_mul _ _ _ _ (13 * u52) (19 * u52)); auto; try num. now rewrite E. }
    assert (P4 : rel (f_mul e2 (f_div g4 g2)) (1 / (M / 2)) (40 * u52)).
    { assert (E : s * (1 / (M / 2 * s)) = 1 / (M / 2)) by (field; repeat split; lra). rewrite <- E. apply (rel_mul _ _ _ _ (13 * u52) (25 * u52)); auto; try num. rewrite E.
      apply (sp_mid (1 * T20)); [apply sp_div; [apply s1|apply sM]|lra]. }
    apply (result (f_sub e3 (f_mul e2 (f_div g3 g2))) (f_sub e4 (f_mul e2 (f_div g4 g2))) (f_div g3 g2) (f_div g4 g2)).
    - apply (rel_times N _ (- - / N) _ (35 * u52)); [lra| |field; lra|rewrite Rabs_R1; num]. apply (rel_neg _ _ _ (34 * u52)); auto; num.
    - apply (rel_diff M _ _ (1 / (M / 2)) 2 (3 * u52) (40 * u52)); auto; try num. rewrite Rabs_pos_eq by (left; apply Rdiv_lt_0_compat; lra). right. field. lra.
    - apply (rel_times N _ (- / (N * s)) _ (19 * u52)); [lra|auto|field; lra|]. rewrite Rabs_Ropp, Rabs_pos_eq by (left; apply Rinv_0_lt_compat; lra).
      apply Rle_trans with (19 * u52 * 1); [apply Rmult_le_compat_l; [num|]; rewrite <- Rinv_1; apply Rinv_le_contravar; lra|num].
    - apply (rel_times M _ (1 / (M / 2 * s)) _ (25 * u52)); [lra|auto|field; lra|]. rewrite Rabs_pos_eq by (left; apply Rdiv_lt_0_compat; lra).
      apply Rle_trans with (25 * u52 * 2); [apply Rmult_le_compat_l; [num|]; apply Rmult_le_reg_r with s; [lra|]; unfold Rdiv; rewrite Rmult_assoc, Rinv_l; lra|num].
    - unfold f_inv. cbn [length seq map nth app Nat.eqb]. cbn [foldM]. rewrite S1. cbn [bind]. rewrite S2. reflexivity.
  Qed.
End Inv.

Lemma C96_inverse_lemma : forall n m : Z, (1 <= n <= 2 ^ 20)%Z -> (1 <= m <= 2 ^ 20)%Z -> accurate n m f_inv.
Proof.
  intros n m Hn Hm v z w h Dv Dz Dw Dh. destruct (Rle_or_lt (IZR m / 2) (IZR n)) as [L|L].
  - apply (inv_straight n m Hn Hm v z w h Dv Dz Dw Dh L).
  - apply (inv_swapped n m Hn Hm v z w h Dv Dz Dw Dh L).
Qed.
