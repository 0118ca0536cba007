(** Python's float quotients against the exact ones (C115). *)
From Coq Require Import Reals Lra Psatz.
From Flocq Require Import Core BinarySingleNaN.
From Verif Require Import Prelude Arith FloatArith SpecFloat64 FloatFacts RunnerModel AnalyzerModel QuotModel SpecQuot.
Local Open Scope Z_scope.

#[local] Instance flt_valid' : Valid_exp (FLT_exp (-1074) 53).
Proof. apply FLT_exp_valid. reflexivity. Qed.

Lemma small_quot a b : 0 <= a < 2 ^ 53 -> 1 <= b -> (0 <= IZR a / IZR b <= IZR (2 ^ 53))%R.
Proof.
  intros Ha Hb. assert (0 <= IZR a <= IZR (2 ^ 53))%R by (split; apply IZR_le; lia). assert (1 <= IZR b)%R by (apply IZR_le; lia).
  split.
  - apply Rmult_le_pos; [lra|]. left. apply Rinv_0_lt_compat. lra.
  - apply Rmult_le_reg_r with (IZR b); [lra|]. unfold Rdiv. rewrite Rmult_assoc, Rinv_l by lra. nra.
Qed.
Lemma div_denotes a b : 0 <= a < 2 ^ 53 -> 1 <= b < 2 ^ 53 -> denotes (py_div a b) (rnd (IZR a / IZR b)).
Proof.
  intros Ha Hb. apply denotes_div; try apply denotes_ofZ; try lia.
  - apply not_0_IZR. lia.
  - pose proof (small_quot a b Ha ltac:(lia)) as S. rewrite Rabs_right by lra. eapply Rle_trans; [apply S|]. eapply Rle_trans; [|apply big_large]. apply IZR_le. lia.
Qed.
Lemma Btrunc_int v z : denotes v (IZR z) -> Btrunc v = z.
Proof. intros [_ E]. apply eq_IZR. rewrite Btrunc_correct by reflexivity. rewrite E, round_FIX_IZR. now rewrite Ztrunc_IZR. Qed.
Lemma denotes_ceil a x : denotes a x -> denotes (Bnearbyint mode_UP a) (IZR (Zceil x)).
Proof.
  intros [Fa Ea]. destruct (Bnearbyint_correct 53 1024 prec_max mode_UP a) as (C1 & C2 & _). split; [rewrite C2; auto|].
  rewrite C1, Ea. apply round_FIX_IZR.
Qed.

(** A quotient of small numbers that is not [h], half a whole number, is not rounded to [h] or past it. *)
Lemma quot_gap a b m : 0 <= a < 2 ^ 52 -> 1 <= b < 2 ^ 53 -> 2 * a <> m * b -> (/ (2 * IZR b) <= Rabs (IZR a / IZR b - IZR m / 2))%R.
Proof.
  intros Ha Hb D. assert (B : (1 <= IZR b)%R) by (apply IZR_le; lia).
  replace (IZR a / IZR b - IZR m / 2)%R with (IZR (2 * a - m * b) * / (2 * IZR b))%R by (rewrite minus_IZR, !mult_IZR; field; lra).
  rewrite Rabs_mult, (Rabs_right (/ _)) by (left; apply Rinv_0_lt_compat; lra). rewrite <- abs_IZR.
  assert (1 <= IZR (Z.abs (2 * a - m * b)))%R by (apply IZR_le; lia).
  assert (0 < / (2 * IZR b))%R by (apply Rinv_0_lt_compat; lra). nra.
Qed.
Lemma quot_error k a b : 0 <= a < k -> k <= 2 ^ 53 -> 1 <= b < 2 ^ 53 -> (Rabs (rnd (IZR a / IZR b) - IZR a / IZR b) < IZR k / IZR (2 ^ 53) / IZR b)%R.
Proof.
  intros Ha Hk Hb. assert (B : (1 <= IZR b)%R) by (apply IZR_le; lia). assert (B2 : (IZR b <= IZR (2 ^ 53))%R) by (apply IZR_le; lia).
  pose proof (rnd_error (IZR a / IZR b)) as E. pose proof (small_quot a b ltac:(lia) ltac:(lia)) as S. rewrite (Rabs_right (IZR a / IZR b)) in E by lra.
  eapply Rle_lt_trans; [exact E|]. unfold ulp_, eta_. change (2 ^ 53) with 9007199254740992 in *.
  assert (K : (IZR a <= IZR k - 1)%R) by (rewrite <- minus_IZR; apply IZR_le; lia).
  assert (I : (0 < / IZR b)%R) by (apply Rinv_0_lt_compat; lra).
  assert (I2 : (/ 9007199254740992 <= / IZR b)%R) by (apply Rinv_le; lra).
  assert (T : (/ IZR (2 ^ 200) < / 9007199254740992 * / 9007199254740992)%R).
  { rewrite <- Rinv_mult by lra. apply Rinv_lt_contravar; [|rewrite <- mult_IZR; apply IZR_lt; reflexivity]. apply Rmult_lt_0_compat; [rewrite <- mult_IZR; apply IZR_lt; reflexivity|apply IZR_lt; reflexivity]. }
  unfold Rdiv in *. nra.
Qed.

Lemma half_format m : Z.abs m < 2 ^ 53 -> rnd (IZR m / 2) = (IZR m / 2)%R.
Proof.
  intros H. unfold rnd. apply round_generic; auto with typeclass_instances. apply generic_format_FLT.
  exists (Float radix2 m (-1)); [unfold F2R; simpl; lra|exact H|simpl; lia].
Qed.

Lemma ceil_quot a b : 0 <= a < 2 ^ 53 -> 1 <= b < 2 ^ 53 -> Zceil (rnd (IZR a / IZR b)) = - ((- a) / b).
Proof.
  intros Ha Hb. set (c := - ((- a) / b)). assert (C : (c - 1) * b < a <= c * b) by (unfold c; Z.div_mod_to_equations; nia).
  assert (B : (1 <= IZR b)%R) by (apply IZR_le; lia).
  assert (Cb : 0 <= c < 2 ^ 53) by nia.
  assert (Q : (IZR a / IZR b <= IZR c)%R).
  { apply Rmult_le_reg_r with (IZR b); [lra|]. unfold Rdiv. rewrite Rmult_assoc, Rinv_l by lra. rewrite Rmult_1_r, <- mult_IZR. apply IZR_le. lia. }
  assert (Q2 : (IZR (c - 1) + / IZR b <= IZR a / IZR b)%R).
  { apply Rmult_le_reg_r with (IZR b); [lra|]. unfold Rdiv. rewrite Rmult_assoc, Rmult_plus_distr_r, Rinv_l by lra. rewrite Rmult_1_r, <- mult_IZR, <- plus_IZR. apply IZR_le. lia. }
  apply Zceil_imp. split.
  - pose proof (quot_error (2 ^ 53) a b Ha ltac:(lia) Hb) as E. apply Rabs_def2 in E. unfold Rdiv in E at 2 4. replace (IZR (2 ^ 53) / IZR (2 ^ 53))%R with 1%R in E by (field; apply not_0_IZR; lia). lra.
  - rewrite <- (rnd_IZR c) by lia. now apply rnd_le.
Qed.

Lemma C115_chunk_lemma : forall n p, 0 <= n < 2 ^ 53 -> 1 <= p < 2 ^ 53 ->
  exists c, chunk_size_float n p = Ok c /\ (c - 1) * p < n <= c * p /\ chunk_size_of n p = Ok c.
Proof.
  intros n p Hn Hp. exists (- ((- n) / p)). unfold chunk_size_float, chunk_size_of. replace (p =? 0) with false by lia. split; [|split; [Z.div_mod_to_equations; nia|reflexivity]].
  f_equal. apply Btrunc_int. rewrite <- (ceil_quot n p Hn Hp). apply denotes_ceil, div_denotes; auto.
Qed.

(** Rounding to the nearest whole number. *)
Lemma nearest_quot a b : 0 <= a < 2 ^ 52 -> 1 <= b < 2 ^ 53 -> ZnearestE (rnd (IZR a / IZR b)) = ZnearestE (IZR a / IZR b).
Proof.
  intros Ha Hb. set (x := (IZR a / IZR b)%R). assert (B : (1 <= IZR b)%R) by (apply IZR_le; lia).
  pose proof (small_quot a b ltac:(lia) ltac:(lia)) as S. fold x in S.
  pose proof (quot_error (2 ^ 52) a b Ha ltac:(lia) Hb) as E. fold x in E.
  replace (IZR (2 ^ 52) / IZR (2 ^ 53) / IZR b)%R with (/ (2 * IZR b))%R in E by (change (2 ^ 53) with 9007199254740992; change (2 ^ 52) with 4503599627370496; field; lra).
  assert (LT : forall m, (x < IZR m / 2)%R -> (rnd x < IZR m / 2)%R).
  { intros m H. assert (D : 2 * a <> m * b). { intros D. apply (f_equal IZR) in D. rewrite !mult_IZR in D. unfold x in H. assert (IZR a / IZR b = IZR m / 2)%R; [|lra]. apply Rmult_eq_reg_r with (2 * IZR b)%R; [|lra]. field_simplify; lra. }
    pose proof (quot_gap a b m Ha Hb D) as G. fold x in G. rewrite Rabs_left in G by lra. apply Rabs_def2 in E. lra. }
  assert (GT : forall m, (IZR m / 2 < x)%R -> (IZR m / 2 < rnd x)%R).
  { intros m H. assert (D : 2 * a <> m * b). { intros D. apply (f_equal IZR) in D. rewrite !mult_IZR in D. unfold x in H. assert (IZR a / IZR b = IZR m / 2)%R; [|lra]. apply Rmult_eq_reg_r with (2 * IZR b)%R; [|lra]. field_simplify; lra. }
    pose proof (quot_gap a b m Ha Hb D) as G. fold x in G. rewrite Rabs_right in G by lra. apply Rabs_def2 in E. lra. }
  pose proof (Zfloor_lb x) as F1. pose proof (Zfloor_ub x) as F2. set (k := Zfloor x) in *.
  assert (K : 0 <= k < 2 ^ 52).
  { split; [apply Zfloor_lub; apply S|]. apply lt_IZR. apply Rle_lt_trans with x; [exact F1|]. unfold x. apply Rmult_lt_reg_r with (IZR b); [lra|]. unfold Rdiv. rewrite Rmult_assoc, Rinv_l by lra.
    rewrite Rmult_1_r, <- mult_IZR. apply IZR_lt. nia. }
  destruct (Rtotal_order x (IZR (2 * k + 1) / 2)) as [H|[H|H]].
  - assert (X : forall y, (IZR k <= y < IZR (2 * k + 1) / 2)%R -> ZnearestE y = k).
    { intros y Y. apply Znearest_imp. rewrite plus_IZR, mult_IZR in Y. apply Rabs_def1; lra. }
    rewrite !X; auto. split; [|now apply LT]. rewrite <- (rnd_IZR k) by lia. apply rnd_le. exact F1.
  - rewrite H, half_format by lia. reflexivity.
  - assert (X : forall y, (IZR (2 * k + 1) / 2 < y <= IZR k + 1)%R -> ZnearestE y = k + 1).
    { intros y Y. apply Znearest_imp. rewrite plus_IZR, mult_IZR in *. apply Rabs_def1; lra. }
    rewrite !X; auto; [split; [exact H|lra]|]. split; [now apply GT|]. rewrite <- plus_IZR, <- (rnd_IZR (k + 1)) by lia. apply rnd_le. rewrite plus_IZR. lra.
Qed.
Lemma round_quotient_nearest a b : 1 <= b -> ZnearestE (IZR a / IZR b) = round_quotient a b.
Proof.
  intros Hb. assert (B : (1 <= IZR b)%R) by (apply IZR_le; lia). unfold round_quotient. pose proof (Z.div_mod a b ltac:(lia)) as D. pose proof (Z.mod_pos_bound a b ltac:(lia)) as M.
  set (q := a / b) in *. set (r := a mod b) in *.
  assert (X : (IZR a / IZR b = IZR q + IZR r / IZR b)%R) by (rewrite D, plus_IZR, mult_IZR; field; lra).
  assert (R0 : (0 <= IZR r)%R) by (apply IZR_le; lia). assert (I : (0 < / IZR b)%R) by (apply Rinv_0_lt_compat; lra).
  assert (R1 : forall z, (IZR z / IZR b * IZR b = IZR z)%R) by (intros z; field; lra). specialize (R1 r).
  destruct (2 * r <? b) eqn:E1.
  - apply Znearest_imp. rewrite X. assert (2 * IZR r < IZR b)%R by (rewrite <- mult_IZR; apply IZR_lt; lia). apply Rabs_def1; nra.
  - destruct (b <? 2 * r) eqn:E2.
    + apply Znearest_imp. rewrite X, plus_IZR. assert (IZR b < 2 * IZR r)%R by (rewrite <- mult_IZR; apply IZR_lt; lia). assert (IZR r < IZR b)%R by (apply IZR_lt; lia). apply Rabs_def1; nra.
    + assert (HR : (IZR r / IZR b = / 2)%R). { assert (IZR b = 2 * IZR r)%R by (rewrite <- mult_IZR; apply f_equal; lia). nra. }
      rewrite X, HR. unfold Znearest. assert (FL : Zfloor (IZR q + / 2) = q) by (apply Zfloor_imp; rewrite plus_IZR; lra). rewrite FL.
      rewrite Rcompare_Eq by lra. destruct (Z.even q); cbn [negb]; [reflexivity|]. apply Zceil_imp. rewrite minus_IZR, plus_IZR. lra.
Qed.

Lemma C115_interval_lemma : forall len, 1 <= len < 2 ^ 52 ->
  exists k, plot_interval_float len = k /\ plot_interval len = k /\ 1 <= k /\
    (len <= 100 -> k = 1) /\ (100 <= len -> Z.abs (len - 100 * k) <= 50 /\ (Z.abs (len - 100 * k) = 50 -> Z.even k = true)).
Proof.
  intros len H. exists (plot_interval len). split.
  - unfold plot_interval_float, plot_interval. f_equal. apply Btrunc_int. rewrite <- round_quotient_nearest by lia. rewrite <- nearest_quot by lia. apply denotes_rint, div_denotes; lia.
  - split; [reflexivity|]. unfold plot_interval, round_quotient. split; [lia|]. split.
    + intros L. replace (Z.min 100 len) with len by lia. rewrite Z.div_same, Z.mod_same by lia. destruct (2 * 0 <? len) eqn:E; lia.
    + intros L. replace (Z.min 100 len) with 100 by lia. pose proof (Z.div_mod len 100 ltac:(lia)) as D. pose proof (Z.mod_pos_bound len 100 ltac:(lia)) as M.
      set (q := len / 100) in *. set (r := len mod 100) in *. assert (1 <= q) by lia.
      destruct (2 * r <? 100) eqn:E1; [|destruct (100 <? 2 * r) eqn:E2; [|destruct (Z.even q) eqn:EV]].
      * rewrite Z.max_r by lia. split; lia.
      * rewrite Z.max_r by lia. split; lia.
      * rewrite Z.max_r by lia. split; [lia|]. auto.
      * rewrite Z.max_r by lia. split; [lia|]. intros _. rewrite Z.even_add, EV. reflexivity.
Qed.

(** The cube root. *)
Lemma third_close : (Rabs (rnd (1 / 3) - 1 / 3) <= / IZR (2 ^ 53))%R.
Proof.
  pose proof (rnd_error (1 / 3)) as E. rewrite (Rabs_right (1 / 3)) in E by lra. eapply Rle_trans; [exact E|]. unfold ulp_, eta_. change (2 ^ 53) with 9007199254740992.
  assert (/ IZR (2 ^ 200) <= / 18014398509481984)%R by (apply Rinv_le; [lra|apply IZR_le; lia]). lra.
Qed.
Lemma ln_below n : 1 <= n -> (0 <= ln (IZR n) <= IZR n)%R.
Proof.
  intros H. assert (N : (1 <= IZR n)%R) by (apply IZR_le; lia). split.
  - rewrite <- ln_1. destruct (Req_dec 1 (IZR n)) as [E|E]; [rewrite E; lra|]. left. apply ln_increasing; lra.
  - destruct (Rle_dec (ln (IZR n)) (IZR n)) as [L|L]; [exact L|]. exfalso. apply Rnot_le_lt in L. apply exp_increasing in L. rewrite exp_ln in L by lra.
    pose proof (exp_ineq1 (IZR n) ltac:(lra)). lra.
Qed.
Lemma third_power n : 1 <= n <= 2 ^ 17 -> (Rabs (Rpower (IZR (n ^ 3)) (rnd (1 / 3)) - IZR n) <= / IZR (2 ^ 32) * IZR n)%R.
Proof.
  intros H. assert (N : (1 <= IZR n)%R) by (apply IZR_le; lia). assert (N2 : (IZR n <= 131072)%R) by (apply IZR_le; lia).
  set (y := rnd (1 / 3)). pose proof third_close as T. fold y in T. change (2 ^ 53) with 9007199254740992 in T.
  assert (LN : ln (IZR (n ^ 3)) = (3 * ln (IZR n))%R).
  { replace (n ^ 3) with (n * (n * n)) by ring. rewrite !mult_IZR, !ln_mult by nra. ring. }
  unfold Rpower. rewrite LN. set (z := ((y - 1 / 3) * (3 * ln (IZR n)))%R).
  replace (y * (3 * ln (IZR n)))%R with (ln (IZR n) + z)%R by (unfold z; field). rewrite exp_plus, exp_ln by lra.
  pose proof (ln_below n ltac:(lia)) as LB.
  assert (Z1 : (Rabs z <= / 9007199254740992 * 393216)%R).
  { unfold z. rewrite Rabs_mult. apply Rmult_le_compat; try apply Rabs_pos; [exact T|]. rewrite Rabs_right; lra. }
  assert (Z2 : (- / 17179869184 <= z <= / 17179869184)%R) by (split; revert Z1; unfold Rabs; destruct (Rcase_abs z); intros; lra).
  assert (E1 : (1 + z <= exp z)%R) by apply exp_ineq1_le. assert (E2 : (1 - z <= exp (- z))%R) by (pose proof (exp_ineq1_le (- z)); lra).
  assert (E3 : (exp z * exp (- z) = 1)%R) by (rewrite <- exp_plus; replace (z + - z)%R with 0%R by ring; apply exp_0).
  assert (E4 : (exp z <= 1 + / 8589934592)%R).
  { pose proof (exp_pos z). assert (exp z * (1 - z) <= 1)%R by (rewrite <- E3; apply Rmult_le_compat_l; lra). nra. }
  change (2 ^ 32) with 4294967296. apply Rabs_le. split; nra.
Qed.

Lemma C115_cube_lemma : forall pow n, 1 <= n <= 2 ^ 17 -> fair_power pow (n ^ 3) -> cube_root_float pow (n ^ 3) = n.
Proof.
  intros pow n H FP. assert (N : (1 <= IZR n <= 131072)%R) by (split; apply IZR_le; lia).
  assert (D3 : denotes (py_div 1 3) (rnd (1 / 3))) by (apply div_denotes; lia).
  destruct (FP (f_ofZ (n ^ 3)) (py_div 1 3)) as (r & D & E); [apply denotes_ofZ; nia|exact D3|].
  unfold cube_root_float. apply Btrunc_int. replace n with (ZnearestE r) at 2; [apply denotes_rint; exact D|]. apply Znearest_imp.
  pose proof (third_power n H) as T. set (v := Rpower (IZR (n ^ 3)) (rnd (1 / 3))) in *. change (2 ^ 20) with 1048576 in E. change (2 ^ 32) with 4294967296 in T.
  assert (V : (IZR n - / 32768 <= v <= IZR n + / 32768)%R) by (revert T; unfold Rabs; destruct (Rcase_abs (v - IZR n)); intros; lra).
  apply Rabs_def1; revert E; unfold Rabs; destruct (Rcase_abs (r - v)); intros; nra.
Qed.

(** A power function that is right about 27. *)
Lemma fair_27 : fair_power (fun _ _ => f_ofZ 3) 27.
Proof.
  intros a b _ _. exists 3%R. split; [apply (denotes_ofZ 3); lia|]. pose proof (third_power 3 ltac:(lia)) as T. change (3 ^ 3) with 27 in T. set (v := Rpower 27 (rnd (1 / 3))) in *.
  change (2 ^ 32) with 4294967296 in T. change (2 ^ 20) with 1048576. apply Rabs_le. revert T. unfold Rabs. destruct (Rcase_abs (v - 3)); intros; lra.
Qed.
