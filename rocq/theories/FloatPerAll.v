(** Periodising fractional coordinates in binary64: every value, including those that are not finite (C79). *)
From Coq Require Import Reals Lra Psatz.
From Flocq Require Import Core BinarySingleNaN.
From Verif Require Import Prelude Arith FloatArith LatticeModel SpecFloat64 FloatFacts FloatPer.
Local Open Scope R_scope.

Lemma below_max (v : b64) : is_finite v = true -> Rabs (B2R v) < bpow radix2 1024.
Proof. intros _. apply abs_B2R_lt_emax. Qed.
Lemma mul_one (a b : b64) x : denotes a x -> denotes b 1 -> denotes (f_mul a b) x.
Proof.
  intros [Fa Ea] [Fb Eb]. pose proof (Bmult_correct 53 1024 _ _ mode_NE a b) as C. rewrite Ea, Eb in C. rewrite Rmult_1_r in C.
  change (round radix2 _ _ x) with (rnd x) in C. assert (R : rnd x = x) by (rewrite <- Ea; now apply rnd_format). rewrite R in C.
  rewrite Rlt_bool_true in C by (rewrite <- Ea; now apply below_max). destruct C as (C1 & C2 & _). split; auto. unfold f_mul. rewrite C2, Fa, Fb. reflexivity.
Qed.
Lemma sub_zero (a b : b64) x : denotes a x -> denotes b 0 -> denotes (f_sub a b) x.
Proof.
  intros [Fa Ea] [Fb Eb]. pose proof (Bminus_correct 53 1024 _ _ mode_NE a b Fa Fb) as C. rewrite Ea, Eb in C. rewrite Rminus_0_r in C.
  change (round radix2 _ _ x) with (rnd x) in C. assert (R : rnd x = x) by (rewrite <- Ea; now apply rnd_format). rewrite R in C.
  rewrite Rlt_bool_true in C by (rewrite <- Ea; now apply below_max). destruct C as (C1 & C2 & _). split; auto.
Qed.

Lemma per_all (v : b64) (b : bool) :
  let w := f_sub v (f_mul (f_floor v) (of_bool FA b)) in
  (is_finite v = false -> w = B754_nan) /\
  (is_finite v = true -> is_finite w = true /\ (b = false -> B2R w = B2R v) /\
   (b = true -> 0 <= B2R w <= 1 /\ (B2R w = 1 <-> - tiny <= B2R v < 0) /\
     (0 <= B2R v \/ B2R v <= -1 -> exists k, B2R w = B2R v + IZR k) /\ exists k, Rabs (B2R w - (B2R v + IZR k)) <= tiny)).
Proof.
  intros w. split; [unfold w; destruct v as [s|s| |s m e H], b; try discriminate; intros _; try destruct s; reflexivity|]. intros Fv.
  assert (Dv : denotes v (B2R v)) by (split; auto). pose proof (denotes_floor v _ Dv) as Df.
  pose proof (Zfloor_lb (B2R v)) as LB. pose proof (Zfloor_ub (B2R v)) as UB. pose proof big_large as BL. assert (T1 : 0 < tiny < 1) by (unfold tiny; lra).
  destruct b.
  - assert (D1 : denotes (of_bool FA true) 1) by (apply (denotes_ofZ 1); reflexivity).
    pose proof (mul_one _ _ _ Df D1) as Dm.
    assert (DW : denotes w (rnd (B2R v - IZR (Zfloor (B2R v))))). { apply denotes_sub; auto. apply Rabs_le. lra. }
    destruct DW as [FW EW]. rewrite EW. split; auto. split; [discriminate|]. intros _.
    destruct (Rlt_dec (-1) (B2R v)) as [A|A]; [destruct (Rlt_dec (B2R v) 0) as [C|C]|].
    + assert (K : Zfloor (B2R v) = (-1)%Z) by (apply Zfloor_imp; simpl; lra). rewrite K. replace (B2R v - IZR (-1)) with (B2R v + 1) by (simpl; ring).
      destruct (frac_between (B2R v) (conj A C)) as (I1 & I2 & I3). split; auto. split; [rewrite I2; split; lra|]. split; [intros [?|?]; lra|]. exists 1%Z. auto.
    + assert (X : 0 <= B2R v) by lra. rewrite frac_exact by auto. split; [lra|]. split; [split; lra|]. split.
      * intros _. exists (- Zfloor (B2R v))%Z. rewrite opp_IZR. ring.
      * exists (- Zfloor (B2R v))%Z. rewrite opp_IZR. replace (_ - _) with 0 by ring. rewrite Rabs_R0. unfold tiny. lra.
    + assert (X : B2R v <= -1) by lra. rewrite frac_exact by auto. split; [lra|]. split; [split; lra|]. split.
      * intros _. exists (- Zfloor (B2R v))%Z. rewrite opp_IZR. ring.
      * exists (- Zfloor (B2R v))%Z. rewrite opp_IZR. replace (_ - _) with 0 by ring. rewrite Rabs_R0. unfold tiny. lra.
  - assert (D0 : denotes (of_bool FA false) 0) by (apply (denotes_ofZ 0); reflexivity).
    assert (Dm : denotes (f_mul (f_floor v) (of_bool FA false)) 0).
    { rewrite <- rnd_0. replace 0 with (IZR (Zfloor (B2R v)) * 0) at 1 by ring. apply denotes_mul; auto. rewrite Rmult_0_r, Rabs_R0. unfold big. apply bpow_ge_0. }
    destruct (sub_zero _ _ _ Dv Dm) as [FW EW]. unfold w. rewrite EW. split; auto. split; [intros _; reflexivity|discriminate].
Qed.

Lemma C79_all_lemma : (forall (f : list b64) per, length f = length per ->
  exists g, periodize FA f per = Ok g /\ length g = length f /\
    forall i v b w, nth_error f i = Some v -> nth_error per i = Some b -> nth_error g i = Some w ->
      (is_finite v = false -> w = B754_nan) /\
      (is_finite v = true -> is_finite w = true /\ (b = false -> B2R w = B2R v) /\
       (b = true -> 0 <= B2R w <= 1 /\ (B2R w = 1 <-> - / IZR (2 ^ 54) <= B2R v < 0) /\
         (0 <= B2R v \/ B2R v <= -1 -> exists k, B2R w = B2R v + IZR k) /\
         exists k, Rabs (B2R w - (B2R v + IZR k)) <= / IZR (2 ^ 54))))%R.
Proof.
  intros f per LL. unfold periodize, bcast. rewrite !map_length, LL, Nat.eqb_refl. cbn [bind].
  assert (L2 : length (zipwith (a_mul FA) (map (a_floor FA) f) (map (of_bool FA) per)) = length per).
  { revert per LL. induction f; destruct per; simpl; intros; try discriminate; auto. }
  rewrite L2, Nat.eqb_refl. eexists. split; [reflexivity|].
  split; [clear L2; revert per LL; induction f; destruct per; simpl; intros; try discriminate; auto|].
  clear L2. revert per LL. induction f as [|v f IH]; intros [|b per] LL i v' b' w Ev Eb Ew; try discriminate; [destruct i; discriminate|].
  destruct i as [|i]; simpl in Ev, Eb, Ew.
  - injection Ev as <-. injection Eb as <-. injection Ew as <-. exact (per_all v b).
  - eapply (IH per); eauto.
Qed.
