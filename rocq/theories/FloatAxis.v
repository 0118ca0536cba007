(** One coordinate of a position on an axis-parallel lattice in binary64:
    periodising, the stored location, the key, and differences. *)
From Coq Require Import Reals Lra Psatz.
From Flocq Require Import Core BinarySingleNaN.
From Verif Require Import Prelude Arith RealArith FloatArith LatticeModel StructModel SpecFloat64 FloatFacts FloatCoord FloatGrid.
Local Open Scope R_scope.

Definition fracR (k : Z) (X : R) : R := rnd (X * rnd (1 / IZR k)).
Definition perR (k : Z) (b : bool) (X : R) : R := rnd (fracR k X - (if b then IZR (Zfloor (fracR k X)) else 0)).
Definition cartR (k : Z) (b : bool) (X : R) : R := rnd (perR k b X * IZR k).
(** The site at thousandth [z] of cell [x], and its key. *)
Definition placeR (x z : Z) : R := rnd (IZR (1000 * x + z) / 1000).
Definition diffR (k : Z) (b : bool) (X Y : R) : R :=
  let d := rnd (fracR k X - fracR k Y) in rnd (rnd (d - (if b then IZR (ZnearestE d) else 0)) * IZR k).

Lemma fracR_err k X : (1 <= k <= M20)%Z -> Rabs X <= 1073741824 -> Rabs (IZR k * fracR k X - X) <= / 1048576.
Proof.
  intros Hk BX. pose proof (N_bounds k Hk) as BN. pose proof (recip_bounds k Hk) as BT. unfold fracR. set (N := IZR k) in *.
  set (a := rnd (1 / N)) in *. set (T := N * a) in *.
  assert (A1 : Rabs a <= 2).
  { replace a with (T / N) by (unfold T; field; lra). apply Rabs_bnd in BT. apply Rabs_le.
    assert (0 < / N <= 1) by (split; [apply Rinv_0_lt_compat; lra|rewrite <- Rinv_1; apply Rinv_le_contravar; lra]). unfold Rdiv. nra. }
  assert (AT : Rabs T <= 2) by (apply Rabs_bnd in BT; apply Rabs_le; lra).
  pose proof (rnd_error (X * a)) as H. pose proof eta_small as [E1 E2].
  replace (N * rnd (X * a) - X) with (N * (rnd (X * a) - X * a) + X * (T - 1)) by (unfold T; ring).
  assert (P1 : Rabs (X * (T - 1)) <= 1073741824 * / 4503599627370496) by (apply Rabs_prod; auto).
  assert (P2 : Rabs (N * (rnd (X * a) - X * a)) <= ulp_ * (1073741824 * 2) + 1048576 * / IZR (2 ^ 100)).
  { rewrite Rabs_mult, (Rabs_pos_eq N) by lra.
    apply Rle_trans with (N * (ulp_ * Rabs (X * a) + eta_)); [apply Rmult_le_compat_l; lra|].
    replace (N * (ulp_ * Rabs (X * a) + eta_)) with (ulp_ * (N * Rabs (X * a)) + N * eta_) by ring.
    apply Rplus_le_compat; [|apply Rmult_le_compat; lra]. apply Rmult_le_compat_l; [unfold ulp_; lra|].
    replace (N * Rabs (X * a)) with (Rabs (X * T)); [apply Rabs_prod; auto|].
    unfold T. rewrite <- (Rabs_pos_eq N) at 2 by lra. rewrite <- Rabs_mult. f_equal. ring. }
  eapply Rle_trans; [apply Rabs_sum; [exact P2|exact P1]|]. unfold ulp_. simpl. lra.
Qed.
Lemma fracR_bound k X : (1 <= k <= M20)%Z -> Rabs X <= 1073741824 -> Rabs (fracR k X) <= 1073741825.
Proof.
  intros Hk BX. pose proof (fracR_err k X Hk BX) as E. pose proof (N_bounds k Hk) as BN. apply Rabs_bnd in E, BX. apply Rabs_le. nra.
Qed.
Lemma rnd_close x B e : Rabs x <= B -> B <= IZR (2 ^ 60) -> ulp_ * B + / IZR (2 ^ 100) <= e -> Rabs (rnd x - x) <= e.
Proof. intros H HB HE. eapply Rle_trans; [apply (rnd_within x B H HB)|exact HE]. Qed.

(** Conditions under which the cell is found without ambiguity. *)
Definition clear (k : Z) (b : bool) (x z : Z) (X : R) : Prop :=
  b = false \/ (1 <= z)%Z \/ (0 <= x < k)%Z /\ 0 <= X \/ z = 0%Z /\ X = IZR x /\ ~ falls_short k x.
Definition wrapZ (k : Z) (b : bool) (x : Z) : Z := if b then (x mod k)%Z else x.

(** The coordinate [w] under which the site is looked up: [k], one past the last
    cell, if the product falls short. *)
Definition lands (k : Z) (b : bool) (x z : Z) (X : R) (w : Z) : Prop :=
  clear k b x z X /\ w = wrapZ k b x \/ b = true /\ z = 0%Z /\ X = IZR x /\ falls_short k x /\ w = k.

Lemma milli_bound z : (0 <= z < 1000)%Z -> 0 <= IZR z <= 999.
Proof. intros H. split; apply IZR_le; lia. Qed.

Lemma floor_lands k x z X w : (1 <= k <= M20)%Z -> (0 <= z < 1000)%Z -> Rabs X <= 1073741824 -> Rabs (X - (IZR x + IZR z / 1000)) <= / 1048576 ->
  lands k true x z X w -> exists q, Zfloor (fracR k X) = q /\ x = (k * q + w)%Z.
Proof.
  intros Hk Hz BX HX C. pose proof (fracR_err k X Hk BX) as E. pose proof (N_bounds k Hk) as BN. pose proof (milli_bound z Hz) as Bz.
  apply Rabs_bnd in E, HX. set (N := IZR k) in *.
  pose proof (Z.div_mod x k ltac:(lia)) as DM. pose proof (Z.mod_pos_bound x k ltac:(lia)) as MB.
  assert (EX : IZR x = N * IZR (x / k) + IZR (x mod k)) by (rewrite DM at 1; rewrite plus_IZR, mult_IZR; reflexivity).
  assert (M1 : 0 <= IZR (x mod k) <= N - 1).
  { split; [apply IZR_le; lia|]. unfold N. rewrite <- minus_IZR. apply IZR_le. lia. }
  destruct C as [[C ->]|(_ & -> & -> & [DV SH] & ->)].
  - exists (x / k)%Z. split; [|cbn [wrapZ]; lia]. apply Zfloor_imp. rewrite plus_IZR. set (q := IZR (x / k)) in *.
    assert (U : N * fracR k X < N * (q + 1)) by lra.
    assert (UP : fracR k X < q + 1) by nra. split; auto.
    destruct C as [C|[C|[[C1 C2]|(-> & -> & C)]]]; [discriminate| | |].
    + apply IZR_le in C. assert (LQ : N * q < N * fracR k X) by lra. apply Rmult_lt_reg_l in LQ; lra.
    + assert (q = 0). { unfold q. rewrite Z.div_small by lia. reflexivity. }
      assert (0 <= fracR k X); [|lra]. unfold fracR. rewrite <- rnd_0. apply rnd_le. apply Rmult_le_pos; auto.
      rewrite <- rnd_0. apply rnd_le. fold N. apply Rlt_le, Rdiv_lt_0_compat; lra.
    + destruct (Z.eq_dec (x mod k) 0) as [E0|N0].
      * apply Rnot_lt_le. intros LT. apply C. split; [apply Z.mod_divide; lia|]. fold (fracR k (IZR x)). fold N.
        assert (EQ : IZR x / N = q) by (rewrite EX, E0; unfold q; field; lra). rewrite EQ. exact LT.
      * assert (1 <= IZR (x mod k)) by (apply IZR_le; lia). assert (LQ : N * q < N * fracR k (IZR x)) by (fold q in EX; lra). apply Rmult_lt_reg_l in LQ; lra.
  - exists (x / k - 1)%Z. assert (E0 : (x mod k = 0)%Z) by (apply Z.mod_divide; [lia|auto]). split; [|lia]. apply Zfloor_imp. rewrite plus_IZR, minus_IZR.
    fold (fracR k (IZR x)) in SH. fold N in SH. assert (EQ : IZR x / N = IZR (x / k)) by (rewrite EX, E0; field; lra). rewrite EQ in SH.
    set (q := IZR (x / k)) in *. rewrite E0 in EX. split; [|lra].
    assert (LQ : N * (q - 1) < N * fracR k (IZR x)) by lra. apply Rmult_lt_reg_l in LQ; lra.
Qed.

Lemma cartR_err k b x z X w : (1 <= k <= M20)%Z -> (0 <= z < 1000)%Z -> Rabs X <= 1073741824 -> Rabs (X - (IZR x + IZR z / 1000)) <= / 1048576 ->
  lands k b x z X w -> Rabs (cartR k b X - (IZR w + IZR z / 1000)) <= / 131072.
Proof.
  intros Hk Hz BX HX C. pose proof (fracR_err k X Hk BX) as E. pose proof (N_bounds k Hk) as BN. pose proof (milli_bound z Hz) as Bz.
  pose proof (fracR_bound k X Hk BX) as FB.
  unfold cartR, perR. set (f := fracR k X) in *. set (N := IZR k) in *. destruct b.
  - destruct (floor_lands k x z X w Hk Hz BX HX C) as (q' & FL & EX'). fold f in FL. rewrite FL.
    assert (FB2 : IZR q' <= f < IZR q' + 1) by (rewrite <- FL; split; [apply Zfloor_lb|apply Zfloor_ub]).
    assert (EX : IZR x = N * IZR q' + IZR w) by (rewrite EX', plus_IZR, mult_IZR; reflexivity).
    set (q := IZR q') in *. set (g := rnd (f - q)).
    assert (G : Rabs (g - (f - q)) <= / 4503599627370496).
    { apply (rnd_close _ 1); [apply Rabs_le; lra|simpl; lra|unfold ulp_; simpl; lra]. }
    assert (G2 : Rabs g <= 2) by (apply Rabs_bnd in G; apply Rabs_le; lra).
    assert (CE : Rabs (rnd (g * N) - g * N) <= / 1073741824).
    { apply (rnd_close _ (2 * 1048576)); [apply Rabs_prod; auto; apply Rabs_le; lra|simpl; lra|unfold ulp_; simpl; lra]. }
    replace (rnd (g * N) - (IZR w + IZR z / 1000)) with ((rnd (g * N) - g * N) + (N * (g - (f - q)) + ((N * f - X) + (X - (IZR x + IZR z / 1000))))) by (rewrite EX; ring).
    eapply Rle_trans; [apply Rabs_sum; [exact CE|apply Rabs_sum; [apply Rabs_prod; [|exact G]|apply Rabs_sum; [exact E|exact HX]]]|].
    + rewrite Rabs_pos_eq by lra. apply BN.
    + lra.
  - assert (w = x) as -> by (destruct C as [[_ ->]|(H & _)]; [reflexivity|discriminate]). rewrite Rminus_0_r. assert (RF : rnd f = f) by apply rnd_idem. rewrite RF.
    assert (CE : Rabs (rnd (f * N) - f * N) <= / 1048576).
    { apply (rnd_close _ (1073741825)); [|simpl; lra|unfold ulp_; simpl; lra]. apply Rabs_bnd in E, BX. apply Rabs_le. lra. }
    replace (rnd (f * N) - (IZR x + IZR z / 1000)) with ((rnd (f * N) - f * N) + ((N * f - X) + (X - (IZR x + IZR z / 1000)))) by ring.
    eapply Rle_trans; [apply Rabs_sum; [exact CE|apply Rabs_sum; [exact E|exact HX]]|]. lra.
Qed.

(** Rounding to three decimals. *)
Lemma near_milli y z : Rabs (y - IZR z / 1000) <= / 16384 -> (Z.abs z <= 2 ^ 41)%Z -> ZnearestE (rnd (y * 1000)) = z.
Proof.
  intros H Hz. apply Znearest_imp. apply IZR_abs_le, Rabs_bnd in Hz. change (IZR (2 ^ 41)) with 2199023255552 in Hz.
  apply Rabs_bnd in H. assert (B : Rabs (y * 1000) <= 2200000000000) by (apply Rabs_le; lra).
  assert (R' : Rabs (rnd (y * 1000) - y * 1000) <= / 1024).
  { apply (rnd_close _ _ _ B); [simpl; lra|unfold ulp_; simpl; lra]. }
  apply Rabs_bnd in R'. apply Rabs_def1; lra.
Qed.
Lemma round_milli v y z : denotes v y -> Rabs y <= 2147483648 -> ZnearestE (rnd (y * 1000)) = z -> (Z.abs z <= 2 ^ 41)%Z ->
  denotes (roundk FA 1000 v) (rnd (IZR z / 1000)).
Proof.
  intros D B E Hz. unfold roundk. cbn [a_div a_rint a_mul a_ofZ FA]. apply denotes_div; [|apply den_1000|lra|].
  - rewrite <- E. apply denotes_rint. apply denotes_mul; auto; [apply den_1000|]. apply small_big.
    eapply Rle_trans; [apply (Rabs_prod _ _ 2147483648 1000); [exact B|rewrite Rabs_pos_eq; lra]|]. simpl. lra.
  - apply IZR_abs_le, Rabs_bnd in Hz. change (IZR (2 ^ 41)) with 2199023255552 in Hz. apply small_big. apply Rabs_le. simpl. lra.
Qed.

Lemma milli_split x z : IZR (1000 * x + z) / 1000 = IZR x + IZR z / 1000.
Proof. rewrite plus_IZR, mult_IZR. field. Qed.
Lemma cell_bound k b x : (1 <= k <= M20)%Z -> (Z.abs x <= M30)%Z -> (Z.abs (wrapZ k b x) <= M30)%Z.
Proof. intros Hk Hx. unfold wrapZ. destruct b; auto. pose proof (Z.mod_pos_bound x k ltac:(lia)). unfold M20, M30 in *. lia. Qed.

Lemma lands_bound k b x z X w : (1 <= k <= M20)%Z -> (Z.abs x <= M30)%Z -> lands k b x z X w -> (Z.abs w <= M30)%Z.
Proof. intros Hk Hx [[_ ->]|(_ & _ & _ & _ & ->)]; [now apply cell_bound|unfold M20, M30 in *; lia]. Qed.

Section Stored.
  Variables (k : Z) (b : bool) (x z : Z) (X : R) (w : Z).
  Hypotheses (Hk : (1 <= k <= M20)%Z) (Hz : (0 <= z < 1000)%Z) (Hx : (Z.abs x <= M30 - 1)%Z) (HX : Rabs (X - (IZR x + IZR z / 1000)) <= / 1048576) (C : lands k b x z X w).
  Lemma X_large : Rabs X <= 1073741824.
  Proof.
    pose proof (milli_bound z Hz). assert (B : Rabs (IZR x) <= 1073741823) by (apply (IZR_abs_le x 1073741823); unfold M30 in Hx; lia).
    apply Rabs_bnd in HX, B. apply Rabs_le. lra.
  Qed.
  Lemma cartR_bound : Rabs (cartR k b X) <= 1073741826.
  Proof.
    pose proof (cartR_err k b x z X w Hk Hz X_large HX C) as E. pose proof (milli_bound z Hz).
    assert (B : Rabs (IZR w) <= 1073741824) by (apply (IZR_abs_le _ M30); apply (lands_bound k b x z X w Hk); auto; unfold M30 in *; lia).
    apply Rabs_bnd in E, B. apply Rabs_le. lra.
  Qed.
  Lemma stored v : denotes v (cartR k b X) -> denotes (roundk FA 1000 v) (placeR w z).
  Proof.
    intros D. pose proof cartR_bound as CB. pose proof (lands_bound k b x z X w Hk ltac:(unfold M30 in *; lia) C) as WB. unfold M30 in WB.
    apply (round_milli v (cartR k b X)); auto; [apply Rabs_bnd in CB; apply Rabs_le; lra| |lia].
    apply near_milli; [|lia]. rewrite milli_split. eapply Rle_trans; [apply (cartR_err k b x z X w Hk Hz X_large HX C)|lra].
  Qed.
  Lemma keyed v : denotes v (cartR k b X) -> denotes (roundk FA 1000 (f_add v (VEC_OFFSET FA))) (placeR w (z + 1)).
  Proof.
    intros D. pose proof cartR_bound as CB. pose proof (lands_bound k b x z X w Hk ltac:(unfold M30 in *; lia) C) as WB. unfold M30 in WB.
    pose proof thousandth as T. apply Rabs_bnd in CB, T.
    assert (B : Rabs (cartR k b X + rnd (1 / 1000)) <= 1073741828) by (apply Rabs_le; lra).
    assert (R1 : Rabs (rnd (cartR k b X + rnd (1 / 1000)) - (cartR k b X + rnd (1 / 1000))) <= / 1048576).
    { apply (rnd_close _ _ _ B); [simpl; lra|unfold ulp_; simpl; lra]. }
    pose proof (cartR_err k b x z X w Hk Hz X_large HX C) as E. apply Rabs_bnd in R1, E, B.
    apply (round_milli _ (rnd (cartR k b X + rnd (1 / 1000)))); auto; [| | |lia].
    - apply denotes_add; auto; [apply den_offset|]. apply small_big. apply Rabs_le. simpl. lra.
    - apply Rabs_le. lra.
    - apply near_milli; [|lia]. rewrite milli_split, plus_IZR. apply Rabs_le. lra.
  Qed.
End Stored.

Lemma placeR_near x z : (Z.abs x <= M30)%Z -> (0 <= z <= 1000)%Z -> Rabs (placeR x z - (IZR x + IZR z / 1000)) <= / 4194304.
Proof.
  intros Hx Hz. unfold placeR. rewrite milli_split. assert (B1 : Rabs (IZR x) <= 1073741824) by (apply (IZR_abs_le x M30 Hx)).
  assert (B2 : 0 <= IZR z <= 1000) by (split; apply IZR_le; lia). apply Rabs_bnd in B1.
  apply (rnd_close _ 1073741826); [apply Rabs_le; lra|simpl; lra|unfold ulp_; simpl; lra].
Qed.
Lemma placeR_inj x x' z : (Z.abs x <= M30)%Z -> (Z.abs x' <= M30)%Z -> (0 <= z <= 1000)%Z -> placeR x z = placeR x' z -> x = x'.
Proof.
  intros Hx Hx' Hz E. pose proof (placeR_near x z Hx Hz) as H. pose proof (placeR_near x' z Hx' Hz) as H'. rewrite E in H. apply Rabs_bnd in H, H'.
  assert (L1 : IZR x < IZR x' + 1) by lra. assert (L2 : IZR x' < IZR x + 1) by lra. rewrite <- plus_IZR in L1, L2. apply lt_IZR in L1, L2. lia.
Qed.

(** * Differences *)
Lemma diffR_err k (b : bool) x y z X Y : (1 <= k <= M20)%Z -> (Z.abs x <= M20)%Z -> (Z.abs y <= M20)%Z -> (0 <= z < 1000)%Z ->
  Rabs (X - (IZR x + IZR z / 1000)) <= / 1048576 -> Rabs (Y - (IZR y + IZR z / 1000)) <= / 1048576 ->
  exists d : Z, (if b then (k | x - y - d) /\ 2 * Z.abs d <= k else d = x - y)%Z /\ Rabs (diffR k b X Y - IZR d) <= / 65536.
Proof.
  intros Hk Hx Hy Hz HX HY. pose proof (N_bounds k Hk) as BN. pose proof (milli_bound z Hz) as Bz.
  assert (Bx : Rabs (IZR x) <= 1048576) by (apply (IZR_abs_le x M20 Hx)). assert (By : Rabs (IZR y) <= 1048576) by (apply (IZR_abs_le y M20 Hy)).
  assert (BX : Rabs X <= 1073741824) by (apply Rabs_bnd in HX, Bx; apply Rabs_le; lra).
  assert (BY : Rabs Y <= 1073741824) by (apply Rabs_bnd in HY, By; apply Rabs_le; lra).
  pose proof (fracR_err k X Hk BX) as EX. pose proof (fracR_err k Y Hk BY) as EY. unfold diffR. cbv zeta.
  set (F := fracR k X) in *. set (G := fracR k Y) in *. set (N := IZR k) in *. clearbody F G.
  apply Rabs_bnd in EX, EY, HX, HY, Bx, By.
  assert (D1 : Rabs (rnd (F - G) - (F - G)) <= ulp_ * Rabs (F - G) + / IZR (2 ^ 100)).
  { pose proof (rnd_error (F - G)). pose proof eta_small. lra. }
  set (d := rnd (F - G)) in *.
  assert (ND : Rabs (N * d - (IZR x - IZR y)) <= / 131072).
  { assert (NF : Rabs (N * (F - G)) <= 2097157) by (apply Rabs_le; lra).
    assert (P : Rabs (N * (d - (F - G))) <= ulp_ * 2097157 + 1048576 * / IZR (2 ^ 100)).
    { rewrite Rabs_mult, (Rabs_pos_eq N) by lra. apply Rle_trans with (N * (ulp_ * Rabs (F - G) + / IZR (2 ^ 100))); [apply Rmult_le_compat_l; lra|].
      rewrite Rabs_mult, (Rabs_pos_eq N) in NF by lra. replace (N * (ulp_ * Rabs (F - G) + / IZR (2 ^ 100))) with (ulp_ * (N * Rabs (F - G)) + N * / IZR (2 ^ 100)) by ring.
      apply Rplus_le_compat; [apply Rmult_le_compat_l; [unfold ulp_; lra|auto]|]. apply Rmult_le_compat_r; [simpl; lra|lra]. }
    replace (N * d - (IZR x - IZR y)) with (N * (d - (F - G)) + (N * (F - G) - (IZR x - IZR y))) by ring.
    assert (P2 : Rabs (N * (F - G) - (IZR x - IZR y)) <= 4 * / 1048576) by (apply Rabs_le; lra).
    eapply Rle_trans; [apply Rabs_sum; [exact P|exact P2]|]. unfold ulp_. simpl. lra. }
  destruct b.
  - assert (NE : Rabs (IZR (ZnearestE d) - d) <= / 2) by (rewrite Rabs_minus_sym; apply Znearest_half).
    set (q := ZnearestE d) in *. exists (x - y - q * k)%Z.
    assert (ED : IZR (x - y - q * k) = IZR x - IZR y - IZR q * N) by (rewrite !minus_IZR, mult_IZR; reflexivity).
    assert (ND' := ND). apply Rabs_bnd in ND', NE. split.
    + split; [exists q; ring|].
      assert (LT : (2 * Z.abs (x - y - q * k) < k + 1)%Z); [|lia]. apply lt_IZR. rewrite mult_IZR, abs_IZR, plus_IZR, ED. fold N.
      assert (NQ : - (N * / 2) <= N * (IZR q - d) <= N * / 2) by (split; [replace (- (N * / 2)) with (N * (- / 2)) by ring|]; apply Rmult_le_compat_l; lra).
      assert (A : Rabs (IZR x - IZR y - IZR q * N) <= N / 2 + / 131072); [|lra]. apply Rabs_le. lra.
    + rewrite ED. set (e := rnd (d - IZR q)).
      assert (E1 : Rabs (e - (d - IZR q)) <= / 4503599627370496).
      { apply (rnd_close _ 1); [apply Rabs_le; lra|simpl; lra|unfold ulp_; simpl; lra]. }
      assert (E2 : Rabs e <= 2) by (apply Rabs_bnd in E1; apply Rabs_le; lra).
      assert (CE : Rabs (rnd (e * N) - e * N) <= / 1073741824).
      { apply (rnd_close _ (2 * 1048576)); [apply Rabs_prod; auto; apply Rabs_le; lra|simpl; lra|unfold ulp_; simpl; lra]. }
      replace (rnd (e * N) - (IZR x - IZR y - IZR q * N)) with ((rnd (e * N) - e * N) + (N * (e - (d - IZR q)) + (N * d - (IZR x - IZR y)))) by ring.
      eapply Rle_trans; [apply Rabs_sum; [exact CE|apply Rabs_sum; [apply Rabs_prod; [|exact E1]|exact ND]]|].
      * rewrite Rabs_pos_eq by lra. apply BN.
      * lra.
  - exists (x - y)%Z. split; auto. rewrite Rminus_0_r. assert (RD : rnd d = d) by apply rnd_idem. rewrite RD, minus_IZR.
    assert (CE : Rabs (rnd (d * N) - d * N) <= / 1073741824).
    { apply (rnd_close _ 2097157); [apply Rabs_bnd in ND; apply Rabs_le; lra|simpl; lra|unfold ulp_; simpl; lra]. }
    replace (rnd (d * N) - (IZR x - IZR y)) with ((rnd (d * N) - d * N) + (N * d - (IZR x - IZR y))) by ring.
    eapply Rle_trans; [apply Rabs_sum; [exact CE|exact ND]|]. lra.
Qed.
