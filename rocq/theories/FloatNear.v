(** Error propagation in binary64. *)
From Coq Require Import Reals Lra Psatz.
From Flocq Require Import Core BinarySingleNaN.
From Verif Require Import Prelude Arith RealArith FloatArith SpecFloat64 SpecHoneyFloat FloatFacts FloatCoord FloatGrid.
Local Open Scope R_scope.

Notation T20 := 1048576.
Notation T60 := 1152921504606846976.
Notation E50 := (/ 1125899906842624).
Definition ap (N : R) (a : b64) (X e : R) : Prop := exists x, denotes a x /\ Rabs (N * x - X) <= e.

Lemma ap_iff N a X e : ap N a X e <-> times_near N a X e.
Proof.
  split.
  - intros (x & [F E] & H). split; auto. now rewrite E.
  - intros [F H]. exists (B2R a). split; [split; auto|auto].
Qed.
Lemma ap_den a x : denotes a x -> ap 1 a x 0.
Proof. intros D. exists x. split; auto. rewrite Rmult_1_l, Rminus_diag_eq, Rabs_R0; lra. Qed.
Lemma ap_weak N a X e e' : ap N a X e -> e <= e' -> ap N a X e'.
Proof. intros (x & D & H) L. exists x. split; auto. lra. Qed.
Lemma ap_eq N a X Y e : ap N a X e -> X = Y -> ap N a Y e.
Proof. now intros H <-. Qed.
Lemma ap_shift N a X Y e f e' : ap N a X e -> Rabs (X - Y) <= f -> e + f <= e' -> ap N a Y e'.
Proof.
  intros (x & D & H) HF L. exists x. split; auto. replace (N * x - Y) with ((N * x - X) + (X - Y)) by ring.
  eapply Rle_trans; [apply Rabs_sum; [exact H|exact HF]|lra].
Qed.
Lemma ap_abs N a X e B : ap N a X e -> Rabs X <= B -> exists x, denotes a x /\ Rabs (N * x - X) <= e /\ Rabs (N * x) <= B + e.
Proof. intros (x & D & H) HB. exists x. split; auto. split; auto. apply Rabs_bnd in H, HB. apply Rabs_le. lra. Qed.
Lemma T60_big x : Rabs x <= T60 -> Rabs x <= big.
Proof. intros H. apply small_big. eapply Rle_trans; [exact H|]. simpl. lra. Qed.
Lemma scale_le N x B : 1 <= N -> Rabs (N * x) <= B -> Rabs x <= B.
Proof. intros HN H. rewrite Rabs_mult, (Rabs_pos_eq N) in H by lra. pose proof (Rabs_pos x). nra. Qed.
(** The error of a rounding, seen at scale [N]. *)
Lemma scaled_error N x B : 1 <= N <= T20 * T20 -> Rabs (N * x) <= B -> Rabs (N * (rnd x - x)) <= ulp_ * B + E50.
Proof.
  intros HN HB. pose proof (rnd_error x) as E. pose proof eta_small as [_ E2]. rewrite Rabs_mult, (Rabs_pos_eq N) by lra. rewrite Rabs_mult, (Rabs_pos_eq N) in HB by lra.
  apply Rle_trans with (N * (ulp_ * Rabs x + eta_)); [apply Rmult_le_compat_l; lra|].
  replace (N * (ulp_ * Rabs x + eta_)) with (ulp_ * (N * Rabs x) + N * eta_) by ring. apply Rplus_le_compat; [apply Rmult_le_compat_l; [unfold ulp_; lra|auto]|].
  apply Rle_trans with (T20 * T20 * / IZR (2 ^ 100)); [|simpl; lra]. apply Rmult_le_compat; try lra. unfold eta_. simpl. lra.
Qed.

Lemma ap_mul N M a b X Y ex ey BX BY e : 1 <= N <= T20 -> 1 <= M <= T20 -> ap N a X ex -> ap M b Y ey -> Rabs X <= BX -> Rabs Y <= BY -> 0 <= ex -> 0 <= ey ->
  (BX + ex) * (BY + ey) <= T60 -> ex * BY + ey * BX + ex * ey + ulp_ * ((BX + ex) * (BY + ey)) + E50 <= e -> ap (N * M) (f_mul a b) (X * Y) e.
Proof.
  intros HN HM Ha Hb HX HY Px Py S L. destruct (ap_abs _ _ _ _ _ Ha HX) as (x & Dx & Ex & Bx). destruct (ap_abs _ _ _ _ _ Hb HY) as (y & Dy & Ey & By).
  assert (P : Rabs (N * M * (x * y)) <= (BX + ex) * (BY + ey)) by (replace (N * M * (x * y)) with ((N * x) * (M * y)) by ring; apply Rabs_prod; auto).
  assert (NM : 1 <= N * M <= T20 * T20) by nra.
  exists (rnd (x * y)). split; [apply denotes_mul; auto; apply T60_big; apply (scale_le (N * M)); [lra|lra]|].
  pose proof (scaled_error (N * M) (x * y) _ NM P) as E.
  replace (N * M * rnd (x * y) - X * Y) with (N * M * (rnd (x * y) - x * y) + ((N * x - X) * Y + ((M * y - Y) * X + (N * x - X) * (M * y - Y)))) by ring.
  eapply Rle_trans; [apply Rabs_sum; [exact E|apply Rabs_sum; [apply Rabs_prod; [exact Ex|exact HY]|apply Rabs_sum; [apply Rabs_prod; [exact Ey|exact HX]|apply Rabs_prod; [exact Ex|exact Ey]]]]|]. lra.
Qed.
Lemma ap_add N a b X Y ex ey B e : 1 <= N <= T20 -> ap N a X ex -> ap N b Y ey -> Rabs (X + Y) <= B -> 0 <= ex -> 0 <= ey ->
  B + ex + ey <= T60 -> ex + ey + ulp_ * (B + ex + ey) + E50 <= e -> ap N (f_add a b) (X + Y) e.
Proof.
  intros HN (x & Dx & Ex) (y & Dy & Ey) HB Px Py S L.
  assert (P : Rabs (N * (x + y)) <= B + ex + ey) by (apply Rabs_bnd in Ex, Ey, HB; apply Rabs_le; lra).
  exists (rnd (x + y)). split; [apply denotes_add; auto; apply T60_big; apply (scale_le N); [lra|lra]|].
  pose proof (scaled_error N (x + y) _ ltac:(lra) P) as E. apply Rabs_bnd in Ex, Ey, E. apply Rabs_le. lra.
Qed.
Lemma ap_sub N a b X Y ex ey B e : 1 <= N <= T20 -> ap N a X ex -> ap N b Y ey -> Rabs (X - Y) <= B -> 0 <= ex -> 0 <= ey ->
  B + ex + ey <= T60 -> ex + ey + ulp_ * (B + ex + ey) + E50 <= e -> ap N (f_sub a b) (X - Y) e.
Proof.
  intros HN (x & Dx & Ex) (y & Dy & Ey) HB Px Py S L.
  assert (P : Rabs (N * (x - y)) <= B + ex + ey) by (apply Rabs_bnd in Ex, Ey, HB; apply Rabs_le; lra).
  exists (rnd (x - y)). split; [apply denotes_sub; auto; apply T60_big; apply (scale_le N); [lra|lra]|].
  pose proof (scaled_error N (x - y) _ ltac:(lra) P) as E. apply Rabs_bnd in Ex, Ey, E. apply Rabs_le. lra.
Qed.
(** Multiplying by something close to [N * c] removes the scale. *)
Lemma ap_un N a b X y c e f BX BC e' : 1 <= N <= T20 -> ap N a X e -> denotes b y -> Rabs (y - N * c) <= N * f -> Rabs X <= BX -> Rabs c <= BC -> 0 <= e -> 0 <= f ->
  (BX + e) * (BC + f) <= T60 -> e * (BC + f) + BX * f + ulp_ * ((BX + e) * (BC + f)) + E50 <= e' -> ap 1 (f_mul a b) (X * c) e'.
Proof.
  intros HN Ha Db Hy HX HC Pe Pf S L. destruct (ap_abs _ _ _ _ _ Ha HX) as (x & Dx & Ex & Bx).
  set (t := y / N). assert (Ey : y = N * t) by (unfold t; field; lra).
  assert (Ht : Rabs (t - c) <= f).
  { rewrite Ey in Hy. replace (N * t - N * c) with (N * (t - c)) in Hy by ring. rewrite Rabs_mult, (Rabs_pos_eq N) in Hy by lra. apply Rmult_le_reg_l with N; lra. }
  assert (Bt : Rabs t <= BC + f) by (apply Rabs_bnd in Ht, HC; apply Rabs_le; lra).
  assert (P : Rabs (x * y) <= (BX + e) * (BC + f)) by (rewrite Ey; replace (x * (N * t)) with ((N * x) * t) by ring; apply Rabs_prod; auto).
  exists (rnd (x * y)). split; [apply denotes_mul; auto; apply T60_big; lra|].
  pose proof (scaled_error 1 (x * y) ((BX + e) * (BC + f)) ltac:(lra)) as E. rewrite !Rmult_1_l in E. specialize (E P).
  replace (1 * rnd (x * y) - X * c) with ((rnd (x * y) - x * y) + ((N * x - X) * t + X * (t - c))) by (rewrite Ey; ring).
  eapply Rle_trans; [apply Rabs_sum; [exact E|apply Rabs_sum; [apply Rabs_prod; [exact Ex|exact Bt]|apply Rabs_prod; [exact HX|exact Ht]]]|]. lra.
Qed.

(** * Relative errors *)
Definition u52 : R := / 4503599627370496.
Definition rel (a : b64) (X e : R) : Prop := exists x, denotes a x /\ Rabs (x - X) <= e * Rabs X.
Definition mid (X : R) : Prop := / 1099511627776 <= Rabs X <= T60.
Lemma mid_big x X e : mid X -> 0 <= e <= / 2 -> Rabs (x - X) <= e * Rabs X -> Rabs x <= 2 * T60 /\ / 2 * Rabs X <= Rabs x.
Proof.
  intros [H1 H2] He H. pose proof (Rabs_pos X). assert (e * Rabs X <= / 2 * Rabs X) by (apply Rmult_le_compat_r; lra).
  pose proof (Rabs_triang_inv X x) as T. rewrite Rabs_minus_sym in T. pose proof (Rabs_triang (x - X) X) as T2. replace (x - X + X) with x in T2 by ring. lra.
Qed.
Lemma rel_round y X e : mid X -> 0 <= e <= / T20 -> Rabs (y - X) <= e * Rabs X -> Rabs (rnd y - X) <= (e + u52) * Rabs X.
Proof.
  intros M He H. pose proof (rnd_error y) as E. pose proof eta_small as [_ E2]. destruct M as [M1 M2].
  pose proof (Rabs_triang (y - X) X) as T2. replace (y - X + X) with y in T2 by ring.
  assert (e * Rabs X <= / T20 * Rabs X) by (apply Rmult_le_compat_r; lra).
  assert (EB : ulp_ * Rabs y + eta_ <= u52 * Rabs X).
  { apply Rle_trans with (ulp_ * (Rabs X + / T20 * Rabs X) + / IZR (2 ^ 100)); [apply Rplus_le_compat; [apply Rmult_le_compat_l; [unfold ulp_; lra|lra]|lra]|].
    assert (/ IZR (2 ^ 100) <= / 4 * (ulp_ * (/ 1099511627776))) by (unfold ulp_; simpl; lra).
    assert (ulp_ * (/ 1099511627776) <= ulp_ * Rabs X) by (apply Rmult_le_compat_l; [unfold ulp_; lra|lra]). unfold u52, ulp_ in *. lra. }
  replace (rnd y - X) with ((rnd y - y) + (y - X)) by ring. eapply Rle_trans; [apply Rabs_sum; [exact E|exact H]|]. lra.
Qed.
Lemma mid_le_big y X e : mid X -> 0 <= e <= / T20 -> Rabs (y - X) <= e * Rabs X -> Rabs y <= big.
Proof.
  intros M He H. destruct (mid_big y X e M) as [B _]; [lra|auto|]. eapply Rle_trans; [exact B|]. eapply Rle_trans; [|apply big_large]. simpl. lra.
Qed.
Lemma rel_mul a b X Y e f g : mid (X * Y) -> rel a X e -> rel b Y f -> 0 <= e <= / IZR (2 ^ 40) -> 0 <= f <= / IZR (2 ^ 40) -> e + f + 2 * u52 <= g -> g <= / T20 -> rel (f_mul a b) (X * Y) g.
Proof.
  intros M (x & Dx & Ex) (y & Dy & Ey) He Hf Hg Gg.
  assert (K : Rabs (x * y - X * Y) <= (e + f + e * f) * Rabs (X * Y)).
  { replace (x * y - X * Y) with ((x - X) * Y + (X * (y - Y) + (x - X) * (y - Y))) by ring. rewrite Rabs_mult. pose proof (Rabs_pos X). pose proof (Rabs_pos Y).
    replace ((e + f + e * f) * (Rabs X * Rabs Y)) with (e * Rabs X * Rabs Y + (Rabs X * (f * Rabs Y) + (e * Rabs X) * (f * Rabs Y))) by ring.
    apply Rabs_sum; [rewrite Rabs_mult; apply Rmult_le_compat_r; auto|apply Rabs_sum; [rewrite Rabs_mult; apply Rmult_le_compat_l; auto|apply Rabs_prod; auto]]. }
  assert (EF : 0 <= e * f <= u52) by (unfold u52; split; [nra|]; apply Rle_trans with (/ IZR (2 ^ 40) * / IZR (2 ^ 40)); [apply Rmult_le_compat; [lra|lra|apply He|apply Hf]|simpl; lra]).
  exists (rnd (x * y)). split.
  - apply denotes_mul; auto. apply (mid_le_big _ (X * Y) (e + f + e * f)); auto. unfold u52 in *. lra.
  - eapply Rle_trans; [apply (rel_round (x * y) (X * Y) (e + f + e * f)); auto; unfold u52 in *; lra|]. apply Rmult_le_compat_r; [apply Rabs_pos|]. lra.
Qed.
Lemma rel_div a b X Y e f g : mid (X / Y) -> Y <> 0 -> rel a X e -> rel b Y f -> 0 <= e <= / IZR (2 ^ 40) -> 0 <= f <= / IZR (2 ^ 40) -> e + f + 3 * u52 <= g -> g <= / T20 -> rel (f_div a b) (X / Y) g.
Proof.
  intros M NY (x & Dx & Ex) (y & Dy & Ey) He Hf Hg Gg. pose proof (Rabs_pos_lt Y NY) as PY. pose proof (Rabs_pos X) as PX.
  assert (F1 : f <= / 2) by (apply Rle_trans with (/ IZR (2 ^ 40)); [lra|simpl; lra]).
  assert (Py : (1 - f) * Rabs Y <= Rabs y). { pose proof (Rabs_triang_inv Y y) as T. rewrite Rabs_minus_sym in T. lra. }
  assert (Y0 : 0 < (1 - f) * Rabs Y) by (apply Rmult_lt_0_compat; lra). assert (Ny : y <> 0) by (intros ->; rewrite Rabs_R0 in Py; lra).
  assert (EF : e <= / IZR (2 ^ 40) /\ f <= / IZR (2 ^ 40)) by lra.
  assert (K : Rabs (x / y - X / Y) <= (e + f + u52) * Rabs (X / Y)).
  { replace (x / y - X / Y) with (((x - X) * Y - X * (y - Y)) / (y * Y)) by (field; auto).
    unfold Rdiv. rewrite !Rabs_mult, !Rabs_inv, Rabs_mult.
    apply Rmult_le_reg_r with (Rabs y * Rabs Y); [apply Rmult_lt_0_compat; auto; apply Rabs_pos_lt; auto|]. rewrite Rmult_assoc, Rinv_l, Rmult_1_r by (apply Rmult_integral_contrapositive; split; [apply Rabs_no_R0; auto|lra]).
    replace ((e + f + u52) * (Rabs X * / Rabs Y) * (Rabs y * Rabs Y)) with ((e + f + u52) * Rabs X * Rabs y) by (field; lra).
    apply Rle_trans with ((e + f) * (Rabs X * Rabs Y)).
    - unfold Rminus at 1. replace ((e + f) * (Rabs X * Rabs Y)) with (e * Rabs X * Rabs Y + Rabs X * (f * Rabs Y)) by ring. apply Rabs_sum; [rewrite Rabs_mult; apply Rmult_le_compat_r; lra|rewrite Rabs_Ropp, Rabs_mult; apply Rmult_le_compat_l; auto].
    - apply Rle_trans with ((e + f + u52) * Rabs X * ((1 - f) * Rabs Y)).
      + replace ((e + f + u52) * Rabs X * ((1 - f) * Rabs Y)) with ((e + f + u52) * (1 - f) * (Rabs X * Rabs Y)) by ring. apply Rmult_le_compat_r; [apply Rmult_le_pos; lra|].
        assert ((e + f + u52) * f <= 3 * / IZR (2 ^ 40) * / IZR (2 ^ 40)) by (apply Rmult_le_compat; try lra; unfold u52; simpl in *; lra).
        assert (3 * / IZR (2 ^ 40) * / IZR (2 ^ 40) <= u52) by (unfold u52; simpl; lra). lra.
      + apply Rmult_le_compat_l; auto. apply Rmult_le_pos; auto. unfold u52. lra. }
  assert (G2 : 0 <= e + f + u52 <= / T20) by (unfold u52 in *; lra).
  exists (rnd (x / y)). split.
  - apply denotes_div; auto. apply (mid_le_big _ (X / Y) (e + f + u52)); auto.
  - eapply Rle_trans; [apply (rel_round (x / y) (X / Y) (e + f + u52)); auto|]. apply Rmult_le_compat_r; [apply Rabs_pos|]. unfold u52 in *. lra.
Qed.
(** Subtracting from zero. *)
Lemma rel_neg z b Y f g : mid Y -> denotes z 0 -> rel b Y f -> 0 <= f -> f + u52 <= g -> g <= / T20 -> rel (f_sub z b) (- Y) g.
Proof.
  intros M Dz (y & Dy & Ey) Hf Hg Gg. assert (M' : mid (- Y)) by (unfold mid; rewrite Rabs_Ropp; auto).
  assert (E : Rabs (0 - y - - Y) <= f * Rabs (- Y)) by (rewrite Rabs_Ropp; replace (0 - y - - Y) with (- (y - Y)) by ring; rewrite Rabs_Ropp; auto).
  exists (rnd (0 - y)). split; [apply denotes_sub; auto; apply (mid_le_big _ (- Y) f); auto; unfold u52 in *; lra|].
  eapply Rle_trans; [apply (rel_round (0 - y) (- Y) f); auto; unfold u52 in *; lra|]. apply Rmult_le_compat_r; [apply Rabs_pos|lra].
Qed.
Lemma rel_den a x : denotes a x -> rel a x 0.
Proof. intros D. exists x. split; auto. rewrite Rminus_diag_eq, Rabs_R0; lra. Qed.
Lemma rel_eq a X Y e : rel a X e -> X = Y -> rel a Y e. Proof. now intros H <-. Qed.
