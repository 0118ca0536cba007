(** Lengths of vectors in binary64. *)
From Coq Require Import Reals Lra Psatz.
From Flocq Require Import Core BinarySingleNaN.
From Verif Require Import Prelude Arith RealArith FloatArith LatticeModel SpecFloat64 SpecGrid FloatFacts FloatCoord FloatGrid FloatVec FloatAxis FloatBox.
Local Open Scope R_scope.

Lemma denotes_sqrt a x : denotes a x -> 0 <= x -> denotes (f_sqrt a) (rnd (sqrt x)).
Proof.
  intros [F V] P. unfold f_sqrt. pose proof (Bsqrt_correct 53 1024 prec_pos prec_max mode_NE a) as (H1 & H2 & _). split.
  - rewrite H2. destruct a as [s|s| |s m e B]; auto; try discriminate. destruct s; auto.
    exfalso. simpl in V. assert (F2R (Defs.Float radix2 (Z.neg m) e) < 0) by (apply F2R_lt_0; reflexivity). simpl in V. lra.
  - rewrite H1, V. reflexivity.
Qed.

Fixpoint sumsq (xs : list R) : R := match xs with [] => 0 | x :: t => x * x + sumsq t end.
Lemma sumsq_nonneg xs : 0 <= sumsq xs.
Proof. induction xs as [|x xs IH]; simpl; [lra|]. pose proof (Rle_0_sqr x). unfold Rsqr in *. lra. Qed.

Lemma minkowski a b r s : 0 <= r -> 0 <= s -> sqrt (a * a + r * r) <= sqrt (b * b + s * s) + Rabs (a - b) + Rabs (r - s).
Proof.
  intros Hr Hs. set (A := sqrt (b * b + s * s)). pose proof (Rle_0_sqr b) as Pb. pose proof (Rle_0_sqr s) as Ps. pose proof (Rle_0_sqr a) as Pa. pose proof (Rle_0_sqr r) as Pr. unfold Rsqr in *.
  assert (A0 : 0 <= A) by apply sqrt_pos. assert (AA : A * A = b * b + s * s) by (apply sqrt_sqrt; lra).
  assert (Ab : Rabs b <= A) by (unfold A; rewrite <- sqrt_Rsqr_abs; apply sqrt_le_1_alt; unfold Rsqr; lra).
  assert (As : Rabs s <= A) by (unfold A; rewrite <- sqrt_Rsqr_abs; apply sqrt_le_1_alt; unfold Rsqr; lra).
  pose proof (Rabs_pos (a - b)) as P1. pose proof (Rabs_pos (r - s)) as P2. set (al := Rabs (a - b)) in *. set (be := Rabs (r - s)) in *.
  assert (Q1 : Rabs a <= Rabs b + al) by (unfold al; replace a with (b + (a - b)) at 1 by ring; apply Rabs_triang).
  assert (Q2 : Rabs r <= Rabs s + be) by (unfold be; replace r with (s + (r - s)) at 1 by ring; apply Rabs_triang).
  rewrite <- (sqrt_square (A + al + be)) by lra. apply sqrt_le_1_alt.
  assert (S1 : a * a <= (Rabs b + al) * (Rabs b + al)).
  { replace (a * a) with (Rabs a * Rabs a) by (rewrite <- Rabs_mult; apply Rabs_pos_eq; lra). pose proof (Rabs_pos a). apply Rmult_le_compat; lra. }
  assert (S2 : r * r <= (Rabs s + be) * (Rabs s + be)).
  { replace (r * r) with (Rabs r * Rabs r) by (rewrite <- Rabs_mult; apply Rabs_pos_eq; lra). pose proof (Rabs_pos r). apply Rmult_le_compat; lra. }
  assert (B2 : Rabs b * Rabs b = b * b) by (rewrite <- Rabs_mult; apply Rabs_pos_eq; lra).
  assert (B3 : Rabs s * Rabs s = s * s) by (rewrite <- Rabs_mult; apply Rabs_pos_eq; lra).
  assert (M1 : Rabs b * al <= A * al) by (apply Rmult_le_compat_r; lra). assert (M2 : Rabs s * be <= A * be) by (apply Rmult_le_compat_r; lra).
  assert (M3 : 0 <= al * be) by (apply Rmult_le_pos; lra). nra.
Qed.
Lemma sqrt_sumsq_cons x xs : sqrt (sumsq (x :: xs)) = sqrt (x * x + sqrt (sumsq xs) * sqrt (sumsq xs)).
Proof. simpl. rewrite sqrt_sqrt by apply sumsq_nonneg. reflexivity. Qed.
Lemma sumsq_close e xs ys : Forall2 (fun x y => Rabs (x - y) <= e) xs ys -> Rabs (sqrt (sumsq xs) - sqrt (sumsq ys)) <= INR (length xs) * e.
Proof.
  induction 1 as [|x y xs ys H _ IH]; [simpl; rewrite Rminus_diag_eq, Rabs_R0 by reflexivity; lra|].
  rewrite !sqrt_sumsq_cons. set (r := sqrt (sumsq xs)) in *. set (s := sqrt (sumsq ys)) in *.
  assert (Hr : 0 <= r) by apply sqrt_pos. assert (Hs : 0 <= s) by apply sqrt_pos. cbn [length]. rewrite S_INR.
  pose proof (minkowski x y r s Hr Hs) as M1. pose proof (minkowski y x s r Hs Hr) as M2. rewrite (Rabs_minus_sym y x), (Rabs_minus_sym s r) in M2.
  apply Rabs_le. lra.
Qed.

(** The float sum of squares. *)
Lemma dot_float v xs : Forall2 denotes v xs -> Forall (fun x => Rabs x <= 4194304) xs -> (length xs <= 3)%nat ->
  exists q, denotes (dot FA v v) q /\ 0 <= q /\ Rabs (q - sumsq xs) <= INR (length xs) * (4 * ulp_) * sumsq xs + INR (length xs) * (4 * eta_).
Proof.
  intros HV HB. assert (PU : 0 < ulp_) by (unfold ulp_; lra). assert (PE : 0 < eta_) by (unfold eta_; simpl; lra).
  induction HV as [|w x v xs Dw HV IH]; intros HL.
  - exists 0. cbn [dot sumsq length]. split; [apply den_0|]. rewrite Rminus_0_r, Rabs_R0. simpl. lra.
  - inversion HB as [|? ? Bx HB']; subst. cbn [length] in HL. destruct (IH HB' ltac:(lia)) as (q & Dq & Pq & Eq). clear IH. cbn [dot length sumsq].
    set (n := INR (length xs)) in *. rewrite S_INR. fold n.
    assert (Bn : 0 <= n <= 2). { unfold n. split; [apply pos_INR|]. change 2 with (INR 2). apply le_INR. lia. }
    set (Q := sumsq xs) in *. assert (PQ : 0 <= Q) by apply sumsq_nonneg.
    assert (BQ : Q <= n * 17592186044416).
    { unfold Q, n. clear -HB'. induction HB' as [|y ys H _ IH]; [simpl; lra|]. cbn [sumsq length]. rewrite S_INR. apply Rabs_bnd in H. nra. }
    assert (X2 : 0 <= x * x <= 17592186044416). { split; [pose proof (Rle_0_sqr x) as P; unfold Rsqr in P; lra|]. apply Rabs_bnd in Bx. nra. }
    assert (Dp : denotes (f_mul w w) (rnd (x * x))).
    { apply denotes_mul; auto. apply small_big. rewrite Rabs_pos_eq by lra. simpl; lra. }
    pose proof (rnd_error (x * x)) as E1. rewrite (Rabs_pos_eq (x * x)) in E1 by lra. set (p := rnd (x * x)) in *.
    assert (Pp : 0 <= p) by (unfold p; rewrite <- rnd_0; apply rnd_le; lra).
    assert (UQ : ulp_ * Q <= / 128). { unfold ulp_. lra. } assert (UX : ulp_ * (x * x) <= / 128) by (unfold ulp_; lra).
    assert (nUQ : n * (4 * ulp_) * Q <= 8 * (ulp_ * Q)). { replace (n * (4 * ulp_) * Q) with (n * (4 * (ulp_ * Q))) by ring. assert (0 <= ulp_ * Q) by (apply Rmult_le_pos; lra). nra. }
    assert (nE : 0 <= n * (4 * eta_) <= 8 * eta_) by nra. assert (ES : eta_ <= / 1024) by (unfold eta_; simpl; lra).
    assert (nU0 : 0 <= n * (4 * ulp_) * Q) by (apply Rmult_le_pos; [nra|lra]).
    apply Rabs_bnd in Eq, E1.
    assert (Bpq : 0 <= p + q <= 52776558133250). { split; [lra|]. assert (p <= 17592186044417) by lra. assert (n * 17592186044416 <= 2 * 17592186044416) by (apply Rmult_le_compat_r; lra). assert (q <= 35184372088833) by lra. lra. }
    exists (rnd (p + q)). split; [|split].
    + change (denotes (f_add (f_mul w w) (dot FA v v)) (rnd (p + q))). apply denotes_add; auto. apply small_big. rewrite Rabs_pos_eq by lra. simpl; lra.
    + rewrite <- rnd_0. apply rnd_le; lra.
    + pose proof (rnd_error (p + q)) as E2. rewrite (Rabs_pos_eq (p + q)) in E2 by lra.
      assert (T : ulp_ * (p + q) <= 2 * (ulp_ * (x * x + Q)) + eta_).
      { replace (2 * (ulp_ * (x * x + Q)) + eta_) with (ulp_ * (2 * (x * x + Q)) + eta_) by ring.
        assert (p + q <= 2 * (x * x + Q) + 16 * eta_).
        { assert (n * (4 * ulp_) * Q <= / 2 * Q); [|assert (ulp_ * (x * x) <= / 2 * (x * x)); [|lra]].
          - apply Rmult_le_compat_r; auto. unfold ulp_. lra.
          - apply Rmult_le_compat_r; [lra|]. unfold ulp_. lra. }
        apply Rle_trans with (ulp_ * (2 * (x * x + Q) + 16 * eta_)); [apply Rmult_le_compat_l; lra|].
        assert (ulp_ * (16 * eta_) <= eta_) by (unfold ulp_; lra). lra. }
      assert (U0 : 0 <= ulp_ * (x * x)) by (apply Rmult_le_pos; lra). assert (V0 : 0 <= ulp_ * Q) by (apply Rmult_le_pos; lra).
      assert (NX : 0 <= n * (ulp_ * (x * x))) by (apply Rmult_le_pos; lra). assert (NQ : 0 <= n * (ulp_ * Q)) by (apply Rmult_le_pos; lra).
      replace ((n + 1) * (4 * ulp_) * (x * x + Q)) with (4 * (n * (ulp_ * (x * x))) + 4 * (n * (ulp_ * Q)) + 4 * (ulp_ * (x * x)) + 4 * (ulp_ * Q)) by ring.
      replace (n * (4 * ulp_) * Q) with (4 * (n * (ulp_ * Q))) in * by ring.
      replace (ulp_ * (x * x + Q)) with (ulp_ * (x * x) + ulp_ * Q) in T by ring. replace ((n + 1) * (4 * eta_)) with (n * (4 * eta_) + 4 * eta_) by ring.
      apply Rabs_bnd in E2. apply Rabs_le. lra.
Qed.

(** Square roots of nearby numbers. *)
Lemma sqrt_near q Q c tau t : 0 <= q -> 0 <= Q -> 0 <= c -> 0 <= tau -> t <= tau * tau -> Rabs (q - Q) <= c * Q + t ->
  Rabs (sqrt q - sqrt Q) <= c * sqrt Q + tau.
Proof.
  intros Pq PQ Pc Pt Ht E. set (r := sqrt Q). assert (R0 : 0 <= r) by apply sqrt_pos. assert (RR : r * r = Q) by (apply sqrt_sqrt; auto).
  set (e := c * r + tau). assert (E0 : 0 <= e) by (unfold e; assert (0 <= c * r) by (apply Rmult_le_pos; auto); lra).
  apply Rabs_bnd in E. rewrite <- RR in E.
  assert (Q1 : 0 <= c * (r * r)) by (apply Rmult_le_pos; auto; nra).
  assert (TR : 0 <= tau * r) by (apply Rmult_le_pos; auto). assert (CR : 0 <= c * r) by (apply Rmult_le_pos; auto).
  assert (CT : 0 <= c * r * tau) by (apply Rmult_le_pos; auto).
  assert (UP : sqrt q <= r + e).
  { rewrite <- (sqrt_square (r + e)) by lra. apply sqrt_le_1_alt. unfold e. nra. }
  assert (DN : r - e <= sqrt q).
  { destruct (Rle_lt_dec r e) as [G|G]; [pose proof (sqrt_pos q); lra|]. rewrite <- (sqrt_square (r - e)) by lra. apply sqrt_le_1_alt.
    assert (P1 : e * e <= e * r) by (apply Rmult_le_compat_l; lra). assert (P2 : tau * tau <= tau * r) by (apply Rmult_le_compat_l; unfold e in *; lra).
    assert (P3 : e * r = c * (r * r) + tau * r) by (unfold e; ring). nra. }
  apply Rabs_le. lra.
Qed.

Lemma norm_near v xs (ds : list Z) : Forall2 denotes v xs -> Forall2 (fun x d => Rabs (x - IZR d) <= / 65536 /\ (Z.abs d <= 2097152)%Z) xs ds -> (length xs <= 3)%nat ->
  exists y, denotes (norm FA v) y /\ 0 <= y /\ Rabs (y - sqrt (IZR (sq ds))) <= / 20000.
Proof.
  intros HV HX HL.
  assert (BX : Forall (fun x => Rabs x <= 4194304) xs).
  { clear HL HV. induction HX as [|x d xs ds [H1 H2] _ IH]; constructor; auto. apply IZR_abs_le in H2. apply Rabs_bnd in H1, H2. apply Rabs_le. lra. }
  destruct (dot_float v xs HV BX HL) as (q & Dq & Pq & Eq).
  assert (SQ : sumsq (map IZR ds) = IZR (sq ds)).
  { clear. induction ds as [|d ds IH]; simpl; auto. rewrite IH. unfold sq at 2. cbn [fold_right]. rewrite plus_IZR, mult_IZR. reflexivity. }
  assert (CL : Rabs (sqrt (sumsq xs) - sqrt (IZR (sq ds))) <= INR (length xs) * / 65536).
  { rewrite <- SQ. apply sumsq_close. clear -HX. induction HX as [|x d xs ds [H _] _ IH]; simpl; constructor; auto. }
  set (n := INR (length xs)) in *. assert (Bn : 0 <= n <= 3). { unfold n. split; [apply pos_INR|]. replace 3 with (INR 3) by (simpl; lra). apply le_INR. lia. }
  set (Q := sumsq xs) in *. assert (PQ : 0 <= Q) by apply sumsq_nonneg.
  assert (BQ : Q <= n * 17592186044416).
  { unfold Q, n. clear -BX. induction BX as [|y ys H _ IH]; [simpl; lra|]. cbn [sumsq length]. rewrite S_INR. apply Rabs_bnd in H. nra. }
  assert (RQ : sqrt Q <= 8388608). { rewrite <- (sqrt_square 8388608) by lra. apply sqrt_le_1_alt. lra. }
  assert (R0 : 0 <= sqrt Q) by apply sqrt_pos. assert (PU : 0 < ulp_) by (unfold ulp_; lra). assert (PE : 0 < eta_) by (unfold eta_; simpl; lra).
  assert (SN : Rabs (sqrt q - sqrt Q) <= (12 * ulp_) * sqrt Q + / IZR (2 ^ 90)).
  { apply (sqrt_near q Q (12 * ulp_) (/ IZR (2 ^ 90)) (12 * eta_)); auto; try lra.
    - unfold eta_. simpl; lra.
    - eapply Rle_trans; [exact Eq|]. apply Rplus_le_compat.
      + apply Rmult_le_compat_r; auto. nra.
      + apply Rle_trans with (3 * (4 * eta_)); [apply Rmult_le_compat_r; lra|lra]. }
  pose proof (denotes_sqrt _ _ Dq Pq) as Dy. exists (rnd (sqrt q)). split; [exact Dy|].
  split; [rewrite <- rnd_0; apply rnd_le, sqrt_pos|].
  assert (U8 : 12 * ulp_ * sqrt Q <= / 10000000) by (unfold ulp_; lra). assert (T90 : / IZR (2 ^ 90) <= / 10000000) by (simpl; lra).
  apply Rabs_bnd in SN, CL. assert (Bq : Rabs (sqrt q) <= 8388609) by (apply Rabs_le; lra).
  assert (R1 : Rabs (rnd (sqrt q) - sqrt q) <= / 10000000) by (apply (rnd_close _ _ _ Bq); [simpl; lra|unfold ulp_; simpl; lra]).
  apply Rabs_bnd in R1. apply Rabs_le. lra.
Qed.

(** Rounded to three places: within 0.0006 of the true length, and on the right
    side of every whole number. *)
Lemma dist_near v xs (ds : list Z) : Forall2 denotes v xs -> Forall2 (fun x d => Rabs (x - IZR d) <= / 65536 /\ (Z.abs d <= 2097152)%Z) xs ds -> (length xs <= 3)%nat ->
  exists t, denotes (roundk FA 1000 (norm FA v)) t /\ Rabs (t - sqrt (IZR (sq ds))) <= 59 / 100000 /\
    forall r, (0 <= r)%Z -> ((sq ds <= r * r)%Z -> t <= IZR r) /\ ((r * r <= sq ds)%Z -> IZR r <= t).
Proof.
  intros HV HX HL. destruct (norm_near v xs ds HV HX HL) as (y & Dy & Py & Ey).
  assert (BD : IZR (sq ds) <= 3 * (2097152 * 2097152)).
  { assert (G : (sq ds <= Z.of_nat (length xs) * (2097152 * 2097152))%Z).
    { clear -HX. induction HX as [|x d xs ds [_ H] _ IH]; [simpl; lia|]. unfold sq in *. cbn [fold_right length]. nia. }
    assert (G' : (sq ds <= 3 * (2097152 * 2097152))%Z) by nia. apply IZR_le in G'. rewrite !mult_IZR in G'. exact G'. }
  assert (SD : sqrt (IZR (sq ds)) <= 4194304). { rewrite <- (sqrt_square 4194304) by lra. apply sqrt_le_1_alt. lra. }
  pose proof (sqrt_pos (IZR (sq ds))) as S0. apply Rabs_bnd in Ey. assert (By : Rabs y <= 4194305) by (apply Rabs_le; lra).
  set (m := ZnearestE (rnd (y * 1000))).
  assert (B1 : Rabs (y * 1000) <= 4194305000) by (apply Rabs_bnd in By; apply Rabs_le; lra).
  assert (R1 : Rabs (rnd (y * 1000) - y * 1000) <= / 1000) by (apply (rnd_close _ _ _ B1); [simpl; lra|unfold ulp_; simpl; lra]).
  assert (H : Rabs (rnd (y * 1000) - IZR m) <= / 2) by apply Znearest_half. apply Rabs_bnd in R1, H, B1.
  assert (Bm : Rabs (IZR m) <= 4194306000) by (apply Rabs_le; lra).
  assert (Bm' : (Z.abs m <= 2 ^ 41)%Z). { apply le_IZR. rewrite abs_IZR. eapply Rle_trans; [exact Bm|]. simpl; lra. }
  pose proof (round_milli (norm FA v) y m Dy ltac:(lra) eq_refl Bm') as DT. exists (rnd (IZR m / 1000)).
  split; [exact DT|]. apply Rabs_bnd in Bm. assert (B2 : Rabs (IZR m / 1000) <= 4194306) by (apply Rabs_le; lra).
  assert (R2 : Rabs (rnd (IZR m / 1000) - IZR m / 1000) <= / 10000000) by (apply (rnd_close _ _ _ B2); [simpl; lra|unfold ulp_; simpl; lra]).
  apply Rabs_bnd in R2. split; [apply Rabs_le; lra|].
  intros r Pr. assert (SR : sqrt (IZR (r * r)) = IZR r) by (rewrite mult_IZR; apply sqrt_square; now apply IZR_le). split; intros G.
  - assert (SL : sqrt (IZR (sq ds)) <= IZR r) by (rewrite <- SR; apply sqrt_le_1_alt; now apply IZR_le).
    destruct (Rle_lt_dec 4194308 (IZR r)) as [Big|Small]; [lra|]. apply lt_IZR in Small.
    assert (M : (m <= 1000 * r)%Z). { assert (IZR m < IZR (1000 * r) + 1) as L by (rewrite mult_IZR; lra). rewrite <- plus_IZR in L. apply lt_IZR in L. lia. }
    rewrite <- (rnd_IZR r) by lia. apply rnd_le. apply IZR_le in M. rewrite mult_IZR in M. lra.
  - assert (SL : IZR r <= sqrt (IZR (sq ds))) by (rewrite <- SR; apply sqrt_le_1_alt; now apply IZR_le).
    assert (Small : (r <= 4194304)%Z) by (apply le_IZR; lra).
    assert (M : (1000 * r <= m)%Z). { assert (IZR (1000 * r) < IZR m + 1) as L by (rewrite mult_IZR; lra). rewrite <- plus_IZR in L. apply lt_IZR in L. lia. }
    rewrite <- (rnd_IZR r) by lia. apply rnd_le. apply IZR_le in M. rewrite mult_IZR in M. lra.
Qed.
