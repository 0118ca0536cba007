(** One coordinate of a binary64 lookup. *)
From Coq Require Import Reals Lra Psatz.
From Flocq Require Import Core BinarySingleNaN.
From Verif Require Import Prelude Arith RealArith FloatArith SpecFloat64 FloatFacts.
Local Open Scope R_scope.

Lemma Rabs_prod x y A B : Rabs x <= A -> Rabs y <= B -> Rabs (x * y) <= A * B.
Proof. intros. rewrite Rabs_mult. apply Rmult_le_compat; auto using Rabs_pos. Qed.
Lemma Rabs_sum x y A B : Rabs x <= A -> Rabs y <= B -> Rabs (x + y) <= A + B.
Proof. intros. eapply Rle_trans; [apply Rabs_triang|]. lra. Qed.
Lemma eta_small : 0 < eta_ <= / IZR (2 ^ 100).
Proof.
  unfold eta_. split; [apply Rinv_0_lt_compat; apply (IZR_lt 0); reflexivity|].
  apply Rinv_le_contravar; [apply (IZR_lt 0); reflexivity|apply IZR_le; discriminate].
Qed.
(** The error in terms of a bound. *)
Lemma rnd_within x B : Rabs x <= B -> B <= IZR (2 ^ 60) -> Rabs (rnd x - x) <= ulp_ * B + / IZR (2 ^ 100).
Proof.
  intros H _. pose proof (rnd_error x). pose proof eta_small. unfold ulp_ in *. nra.
Qed.

Definition M30 : Z := 1073741824.
Definition M20 : Z := 1048576.

(** What the fractional coordinate, the wrapped coordinate and the key of [x]
    come to on a period of [n]. *)
Definition frac_of (n x : Z) : R := rnd (IZR x * rnd (1 / IZR n)).
Definition wrap_of (n x : Z) : Z := (x - Zfloor (frac_of n x) * n)%Z.
Definition cart_of (n x : Z) : R := rnd (rnd (frac_of n x - IZR (Zfloor (frac_of n x))) * IZR n).
Definition key_of (r : Z) : R := rnd (IZR (1000 * r + 1) / 1000).

Section Coord.
  Variables n x : Z.
  Hypothesis Hn : (1 <= n <= M20)%Z.
  Hypothesis Hx : (Z.abs x <= M30)%Z.
  Local Notation N := (IZR n).
  Local Notation X := (IZR x).
  Local Notation f := (frac_of n x).
  Local Notation q := (Zfloor (frac_of n x)).

  Lemma N_bounds : 1 <= N <= 1048576.
  Proof. destruct Hn as [H1 H2]. apply IZR_le in H1, H2. change (IZR M20) with 1048576 in H2. split; lra. Qed.
  Lemma X_bounds : Rabs X <= 1073741824.
  Proof. apply (IZR_abs_le x M30 Hx). Qed.
  Lemma recip_bounds : Rabs (N * rnd (1 / N) - 1) <= / 4503599627370496.
  Proof.
    pose proof N_bounds as BN. set (a := rnd (1 / N)).
    assert (H : Rabs (a - 1 / N) <= ulp_ * (1 / N) + eta_).
    { pose proof (rnd_error (1 / N)) as H. rewrite (Rabs_pos_eq (1 / N)) in H; auto.
      apply Rmult_le_pos; [lra|]. left. apply Rinv_0_lt_compat. lra. }
    replace (N * a - 1) with (N * (a - 1 / N)) by (field; lra). rewrite Rabs_mult, (Rabs_pos_eq N) by lra.
    apply Rle_trans with (N * (ulp_ * (1 / N) + eta_)); [apply Rmult_le_compat_l; lra|].
    replace (N * (ulp_ * (1 / N) + eta_)) with (ulp_ + N * eta_) by (field; lra).
    pose proof eta_small as [E1 E2]. assert (N * eta_ <= 1048576 * / IZR (2 ^ 100)) by (apply Rmult_le_compat; lra).
    unfold ulp_. assert (1048576 * / IZR (2 ^ 100) <= / 9007199254740992) by (simpl; lra). lra.
  Qed.

  Lemma frac_err : Rabs (N * f - X) <= / 1048576.
  Proof.
    pose proof N_bounds as BN. pose proof X_bounds as BX. pose proof recip_bounds as BT. unfold frac_of.
    set (a := rnd (1 / N)) in *. set (T := N * a) in *.
    assert (A1 : Rabs a <= 2).
    { replace a with (T / N) by (unfold T; field; lra). apply Rabs_bnd in BT. apply Rabs_le.
      assert (0 < / N <= 1) by (split; [apply Rinv_0_lt_compat; lra|rewrite <- Rinv_1; apply Rinv_le_contravar; lra]). unfold Rdiv. nra. }
    assert (AT : Rabs T <= 2) by (apply Rabs_bnd in BT; apply Rabs_le; lra).
    pose proof (rnd_error (X * a)) as H. pose proof eta_small as [E1 E2].
    replace (N * rnd (X * a) - X) with (N * (rnd (X * a) - X * a) + X * (T - 1)) by (unfold T; ring).
    assert (P1 : Rabs (X * (T - 1)) <= 1073741824 * / 4503599627370496) by (apply Rabs_prod; auto).
    assert (P2 : Rabs (N * (rnd (X * a) - X * a)) <= ulp_ * (1073741824 * 2) + 1048576 * / IZR (2 ^ 100)).
    { rewrite Rabs_mult, (Rabs_pos_eq N) by lra.
      apply Rle_trans with (N * (ulp_ * Rabs (X * a) + eta_)); [apply Rmult_le_compat_l; lra|].
      replace (N * (ulp_ * Rabs (X * a) + eta_)) with (ulp_ * (N * Rabs (X * a)) + N * eta_) by ring.
      apply Rplus_le_compat; [|apply Rmult_le_compat; lra]. apply Rmult_le_compat_l; [unfold ulp_; lra|].
      replace (N * Rabs (X * a)) with (Rabs (X * T)); [apply Rabs_prod; auto|].
      unfold T. rewrite <- (Rabs_pos_eq N) at 2 by lra. rewrite <- Rabs_mult. f_equal. ring. }
    eapply Rle_trans; [apply Rabs_sum; [exact P2|exact P1]|]. unfold ulp_. simpl. lra.
  Qed.

  Lemma floor_bounds : IZR q <= f < IZR q + 1.
  Proof. split; [apply Zfloor_lb|apply Zfloor_ub]. Qed.

  Lemma wrap_range : (0 <= wrap_of n x <= n)%Z /\ IZR (wrap_of n x) = X - IZR q * N.
  Proof.
    pose proof N_bounds as BN. pose proof floor_bounds as BF. pose proof frac_err as FE. apply Rabs_bnd in FE.
    assert (E : IZR (wrap_of n x) = X - IZR q * N) by (unfold wrap_of; rewrite minus_IZR, mult_IZR; reflexivity).
    split; auto. assert (L : -1 < IZR (wrap_of n x) < N + 1) by (rewrite E; nra). destruct L as [L1 L2].
    apply (lt_IZR (-1)) in L1. rewrite <- plus_IZR in L2. apply lt_IZR in L2. lia.
  Qed.

  Lemma wrap_short : wrap_of n x = n <-> falls_short n x.
  Proof.
    pose proof N_bounds as BN. pose proof floor_bounds as BF. pose proof wrap_range as [R _]. unfold falls_short. change (rnd (X * rnd (1 / N))) with f.
    split.
    - intros E. unfold wrap_of in E. assert (EX : x = ((q + 1) * n)%Z) by lia. split; [exists (q + 1)%Z; auto|].
      pose proof (f_equal IZR EX) as H. rewrite mult_IZR, plus_IZR in H.
      replace (X / N) with (IZR q + 1) by (rewrite H; field; lra). lra.
    - intros [[k Ek] L]. pose proof (f_equal IZR Ek) as H. rewrite mult_IZR in H.
      replace (X / N) with (IZR k) in L by (rewrite H; field; lra).
      assert (LQ : (q < k)%Z) by (apply lt_IZR; lra). unfold wrap_of in *. nia.
  Qed.

  Lemma wrap_mod : ~ falls_short n x -> wrap_of n x = (x mod n)%Z.
  Proof.
    intros H. pose proof wrap_range as [R _]. assert (NE : wrap_of n x <> n) by (intros E; apply H; now apply wrap_short).
    unfold wrap_of in *. apply (Z.mod_unique x n (Zfloor (frac_of n x))); lia.
  Qed.

  Lemma q_bound : (Z.abs q <= 2 ^ 31)%Z.
  Proof.
    pose proof wrap_range as [R _]. unfold wrap_of in R. unfold M30, M20 in *. nia.
  Qed.

  Lemma f_bound : Rabs f <= IZR (2 ^ 32).
  Proof.
    pose proof floor_bounds as B. pose proof q_bound as Q. apply IZR_abs_le, Rabs_bnd in Q.
    change (IZR (2 ^ 31)) with 2147483648 in Q. change (IZR (2 ^ 32)) with 4294967296. apply Rabs_le. lra.
  Qed.

  Lemma cart_err : Rabs (cart_of n x - IZR (wrap_of n x)) <= / 524288.
  Proof.
    pose proof N_bounds as BN. pose proof floor_bounds as BF. pose proof frac_err as FE. pose proof wrap_range as [_ E].
    unfold cart_of.  set (g := rnd (f - IZR q)).
    assert (G : Rabs (g - (f - IZR q)) <= ulp_ * 1 + / IZR (2 ^ 100)).
    { apply rnd_within; [apply Rabs_le; lra|simpl; lra]. }
    assert (G2 : Rabs g <= 2).
    { unfold ulp_ in G. simpl in G. apply Rabs_bnd in G. apply Rabs_le. lra. }
    assert (C : Rabs (rnd (g * N) - g * N) <= ulp_ * (2 * 1048576) + / IZR (2 ^ 100)).
    { apply rnd_within; [apply Rabs_prod; auto; apply Rabs_le; lra|simpl; lra]. }
    replace (rnd (g * N) - IZR (wrap_of n x)) with ((rnd (g * N) - g * N) + (N * (g - (f - IZR q)) + (N * f - X))) by (rewrite E; ring).
    eapply Rle_trans; [apply Rabs_sum; [exact C|apply Rabs_sum; [apply Rabs_prod; [|exact G]|exact FE]]|].
    - rewrite Rabs_pos_eq by lra. apply BN.
    - unfold ulp_. simpl. lra.
  Qed.

  Lemma cart_bound : Rabs (cart_of n x) <= 1048577.
  Proof.
    pose proof cart_err as E. pose proof wrap_range as [[R1 R2] _]. pose proof N_bounds as BN.
    apply IZR_le in R1, R2. apply Rabs_bnd in E. apply Rabs_le. lra.
  Qed.
End Coord.

(** Rounding to three decimals. *)
Lemma thousandth : Rabs (rnd (1 / 1000) - 1 / 1000) <= / 1073741824.
Proof.
  eapply Rle_trans; [apply (rnd_within _ 1); [apply Rabs_le; lra|simpl; lra]|]. unfold ulp_. simpl. lra.
Qed.

Lemma nearest_thousand y z : Rabs (y - IZR z / 1000) <= / 65536 -> (0 <= z <= 1000 * M20 + 1)%Z -> ZnearestE (rnd (y * 1000)) = z.
Proof.
  intros H [Z1 Z2]. apply Znearest_imp. apply IZR_le in Z1, Z2. rewrite plus_IZR, mult_IZR in Z2. change (IZR M20) with 1048576 in Z2.
  apply Rabs_bnd in H. assert (B : Rabs (y * 1000) <= 2000000000) by (apply Rabs_le; lra).
  pose proof (rnd_within _ _ B) as R. assert (R' : Rabs (rnd (y * 1000) - y * 1000) <= / 1024).
  { eapply Rle_trans; [apply R; simpl; lra|]. unfold ulp_. simpl. lra. }
  apply Rabs_bnd in R'. apply Rabs_def1; lra.
Qed.

Lemma round_wrap n x : (1 <= n <= M20)%Z -> (Z.abs x <= M30)%Z -> ZnearestE (rnd (cart_of n x * 1000)) = (1000 * wrap_of n x)%Z.
Proof.
  intros Hn Hx. pose proof (cart_err n x Hn Hx) as E. pose proof (wrap_range n x Hn Hx) as [R _]. unfold M20 in *.
  apply nearest_thousand; [|unfold M20; lia]. rewrite mult_IZR. replace (1000 * IZR (wrap_of n x) / 1000) with (IZR (wrap_of n x)) by field.
  apply Rabs_bnd in E. apply Rabs_le. lra.
Qed.

Lemma round_key n x : (1 <= n <= M20)%Z -> (Z.abs x <= M30)%Z ->
  ZnearestE (rnd (rnd (cart_of n x + rnd (1 / 1000)) * 1000)) = (1000 * wrap_of n x + 1)%Z.
Proof.
  intros Hn Hx. pose proof (cart_err n x Hn Hx) as E. pose proof (wrap_range n x Hn Hx) as [R _]. pose proof thousandth as T. unfold M20 in *.
  pose proof (cart_bound n x Hn Hx) as CB.
  assert (B : Rabs (cart_of n x + rnd (1 / 1000)) <= 1048578).
  { apply Rabs_bnd in CB, T. apply Rabs_le. lra. }
  assert (S : Rabs (rnd (cart_of n x + rnd (1 / 1000)) - (cart_of n x + rnd (1 / 1000))) <= / 1073741824).
  { eapply Rle_trans; [apply (rnd_within _ _ B); simpl; lra|]. unfold ulp_. simpl. lra. }
  apply nearest_thousand; [|unfold M20; lia]. rewrite plus_IZR, mult_IZR.
  replace ((1000 * IZR (wrap_of n x) + 1) / 1000) with (IZR (wrap_of n x) + 1 / 1000) by field.
  apply Rabs_bnd in E, T, S. apply Rabs_le. lra.
Qed.

Lemma key_near r : (0 <= r <= M20)%Z -> Rabs (key_of r - IZR r) <= / 4.
Proof.
  intros [R1 R2]. apply IZR_le in R1, R2. change (IZR M20) with 1048576 in R2. unfold key_of. rewrite plus_IZR, mult_IZR.
  set (y := (1000 * IZR r + 1) / 1000). assert (Ey : y = IZR r + 1 / 1000) by (unfold y; field).
  assert (B : Rabs y <= 1048577) by (apply Rabs_le; lra). pose proof (rnd_within _ _ B) as R.
  assert (R' : Rabs (rnd y - y) <= / 1024).
  { eapply Rle_trans; [apply R; simpl; lra|]. unfold ulp_. simpl. lra. }
  apply Rabs_bnd in R'. apply Rabs_le. lra.
Qed.
Lemma key_inj r r' : (0 <= r <= M20)%Z -> (0 <= r' <= M20)%Z -> key_of r = key_of r' -> r = r'.
Proof.
  intros H H' E. pose proof (key_near r H) as A. pose proof (key_near r' H') as B. rewrite E in A. apply Rabs_bnd in A, B.
  assert (L : -1 < IZR (r - r') < 1) by (rewrite minus_IZR; lra). destruct L as [L1 L2]. apply (lt_IZR (-1)) in L1. apply (lt_IZR _ 1) in L2. lia.
Qed.
