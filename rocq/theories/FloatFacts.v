(** Facts about binary64 arithmetic. *)
From Coq Require Import Reals Lra Psatz.
From Flocq Require Import Core BinarySingleNaN Relative.
From Verif Require Import Prelude Arith FloatArith SpecFloat64.
Local Open Scope R_scope.

#[local] Instance flt_valid : Valid_exp (FLT_exp (-1074) 53).
Proof. apply FLT_exp_valid. reflexivity. Qed.

Definition big : R := bpow radix2 1000.
Lemma rnd_le_big x : Rabs x <= big -> Rabs (rnd x) < bpow radix2 1024.
Proof.
  intros H. apply Rle_lt_trans with big; [|apply bpow_lt; lia]. unfold rnd. apply abs_round_le_generic; auto with typeclass_instances.
  unfold big. apply generic_format_bpow. unfold FLT_exp. lia.
Qed.

Lemma denotes_mul a b x y : denotes a x -> denotes b y -> Rabs (x * y) <= big -> denotes (f_mul a b) (rnd (x * y)).
Proof.
  intros [Fa Ea] [Fb Eb] H. pose proof (Bmult_correct 53 1024 _ _ mode_NE a b) as C. rewrite Ea, Eb in C.
  change (round radix2 _ _ (x * y)) with (rnd (x * y)) in C. rewrite Rlt_bool_true in C by (apply rnd_le_big; auto).
  destruct C as (C1 & C2 & _). split; auto. unfold f_mul. rewrite C2, Fa, Fb. reflexivity.
Qed.
Lemma denotes_add a b x y : denotes a x -> denotes b y -> Rabs (x + y) <= big -> denotes (f_add a b) (rnd (x + y)).
Proof.
  intros [Fa Ea] [Fb Eb] H. pose proof (Bplus_correct 53 1024 _ _ mode_NE a b Fa Fb) as C. rewrite Ea, Eb in C.
  change (round radix2 _ _ (x + y)) with (rnd (x + y)) in C. rewrite Rlt_bool_true in C by (apply rnd_le_big; auto).
  destruct C as (C1 & C2 & _). split; auto.
Qed.
Lemma denotes_sub a b x y : denotes a x -> denotes b y -> Rabs (x - y) <= big -> denotes (f_sub a b) (rnd (x - y)).
Proof.
  intros [Fa Ea] [Fb Eb] H. pose proof (Bminus_correct 53 1024 _ _ mode_NE a b Fa Fb) as C. rewrite Ea, Eb in C.
  change (round radix2 _ _ (x - y)) with (rnd (x - y)) in C. rewrite Rlt_bool_true in C by (apply rnd_le_big; auto).
  destruct C as (C1 & C2 & _). split; auto.
Qed.
Lemma denotes_div a b x y : denotes a x -> denotes b y -> y <> 0 -> Rabs (x / y) <= big -> denotes (f_div a b) (rnd (x / y)).
Proof.
  intros [Fa Ea] [Fb Eb] Ny H. pose proof (Bdiv_correct 53 1024 _ _ mode_NE a b) as C. rewrite Ea, Eb in C. specialize (C Ny).
  change (round radix2 _ _ (x / y)) with (rnd (x / y)) in C. rewrite Rlt_bool_true in C by (apply rnd_le_big; auto).
  destruct C as (C1 & C2 & _). split; auto. unfold f_div. rewrite C2. auto.
Qed.
Lemma denotes_floor a x : denotes a x -> denotes (f_floor a) (IZR (Zfloor x)).
Proof.
  intros [Fa Ea]. destruct (Bnearbyint_correct 53 1024 _ mode_DN a) as (C1 & C2 & _). split; [unfold f_floor; rewrite C2; auto|].
  unfold f_floor. rewrite C1, Ea. apply round_FIX_IZR.
Qed.
Lemma denotes_rint a x : denotes a x -> denotes (f_rint a) (IZR (ZnearestE x)).
Proof.
  intros [Fa Ea]. destruct (Bnearbyint_correct 53 1024 _ mode_NE a) as (C1 & C2 & _). split; [unfold f_rint; rewrite C2; auto|].
  unfold f_rint. rewrite C1, Ea. apply round_FIX_IZR.
Qed.
Lemma denotes_eqb a b x y : denotes a x -> denotes b y -> f_eqb a b = Req_bool x y.
Proof. intros [Fa Ea] [Fb Eb]. unfold f_eqb. rewrite Beqb_correct by auto. congruence. Qed.
Lemma denotes_ltb a b x y : denotes a x -> denotes b y -> f_ltb a b = Rlt_bool x y.
Proof. intros [Fa Ea] [Fb Eb]. unfold f_ltb. rewrite Bltb_correct by auto. congruence. Qed.
Lemma denotes_abs a x : denotes a x -> denotes (f_abs a) (Rabs x).
Proof. intros [Fa Ea]. split; [unfold f_abs; rewrite is_finite_Babs; auto|]. unfold f_abs. rewrite B2R_Babs. congruence. Qed.
Lemma denotes_unique a x y : denotes a x -> denotes a y -> x = y.
Proof. intros [_ E] [_ E']. congruence. Qed.

(** Whole numbers up to 2^53 are exact. *)
Lemma rnd_IZR z : (Z.abs z < 2 ^ 53)%Z -> rnd (IZR z) = IZR z.
Proof.
  intros H. unfold rnd. apply round_generic; auto with typeclass_instances. apply generic_format_FLT.
  exists (Float radix2 z 0); [unfold F2R; simpl; ring|exact H|simpl; lia].
Qed.
Lemma IZR_abs_le z k : (Z.abs z <= k)%Z -> Rabs (IZR z) <= IZR k.
Proof. intros H. rewrite <- abs_IZR. now apply IZR_le. Qed.
Lemma big_large : IZR (2 ^ 100) <= big.
Proof. unfold big. change (2 ^ 100)%Z with (radix2 ^ 100)%Z. rewrite IZR_Zpower by lia. apply bpow_le. lia. Qed.
Lemma denotes_ofZ z : (Z.abs z < 2 ^ 53)%Z -> denotes (f_ofZ z) (IZR z).
Proof.
  intros H. pose proof (binary_normalize_correct 53 1024 _ _ mode_NE z 0 false) as C. cbv zeta in C.
  assert (EF : F2R (Float radix2 z 0) = IZR z) by (unfold F2R; simpl; ring). rewrite EF in C.
  change (round radix2 _ _ (IZR z)) with (rnd (IZR z)) in C. rewrite Rlt_bool_true in C.
  - destruct C as (C1 & C2 & _). split; [exact C2|]. unfold f_ofZ. rewrite C1. now apply rnd_IZR.
  - apply rnd_le_big. apply Rle_trans with (IZR (2 ^ 100)); [|apply big_large]. apply IZR_abs_le. lia.
Qed.

(** The error of one rounding. *)
Definition ulp_ : R := / 9007199254740992.
Definition eta_ : R := / IZR (2 ^ 200).
Lemma rnd_error x : Rabs (rnd x - x) <= ulp_ * Rabs x + eta_.
Proof.
  destruct (error_N_FLT radix2 (-1074) 53 eq_refl (fun x => negb (Z.even x)) x) as (eps & eta & H1 & H2 & _ & E).
  unfold rnd. rewrite E. replace (x * (1 + eps) + eta - x) with (eps * x + eta) by ring.
  eapply Rle_trans; [apply Rabs_triang|]. rewrite Rabs_mult. apply Rplus_le_compat.
  - apply Rmult_le_compat_r; [apply Rabs_pos|]. eapply Rle_trans; [exact H1|]. unfold ulp_. simpl. lra.
  - eapply Rle_trans; [exact H2|]. unfold eta_. change (2 ^ 200)%Z with (radix2 ^ 200)%Z. rewrite IZR_Zpower by lia.
    rewrite <- bpow_opp. apply Rle_trans with (bpow radix2 (-1074)); [pose proof (bpow_gt_0 radix2 (-1074)); lra|]. apply bpow_le. lia.
Qed.
Lemma rnd_0 : rnd 0 = 0. Proof. apply (rnd_IZR 0). reflexivity. Qed.
Lemma rnd_idem x : rnd (rnd x) = rnd x.
Proof. unfold rnd. apply round_generic; auto with typeclass_instances. apply generic_format_round; auto with typeclass_instances. Qed.
Lemma rnd_le x y : x <= y -> rnd x <= rnd y.
Proof. intros. apply round_le; auto with typeclass_instances. Qed.
