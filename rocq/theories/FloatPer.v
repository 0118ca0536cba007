(** Periodising fractional coordinates in binary64 (C79). *)
From Coq Require Import Reals Lra Psatz.
From Flocq Require Import Core BinarySingleNaN.
From Verif Require Import Prelude Arith FloatArith LatticeModel SpecFloat64 FloatFacts.
Local Open Scope R_scope.

#[local] Instance flt_valid : Valid_exp (FLT_exp (-1074) 53).
Proof. apply FLT_exp_valid. reflexivity. Qed.

Definition tiny : R := / IZR (2 ^ 54).
Lemma tiny_bpow : tiny = bpow radix2 (-54).
Proof. unfold tiny. change (2 ^ 54)%Z with (radix2 ^ 54)%Z. rewrite IZR_Zpower by lia. now rewrite <- bpow_opp. Qed.

Lemma rnd_format (v : b64) : is_finite v = true -> rnd (B2R v) = B2R v.
Proof. intros H. unfold rnd. apply round_generic; auto with typeclass_instances. exact (generic_format_B2R 53 1024 v). Qed.

(** The fractional part is exact except between -1 and 0. *)
Lemma frac_exact (v : b64) : is_finite v = true -> 0 <= B2R v \/ B2R v <= -1 -> rnd (B2R v - IZR (Zfloor (B2R v))) = B2R v - IZR (Zfloor (B2R v)).
Proof.
  intros Fv H. unfold rnd. apply round_generic; auto with typeclass_instances.
  pose proof (generic_format_B2R 53 1024 v) as G. set (x := B2R v) in *. clearbody x.
  change (SpecFloat.fexp 53 1024) with (FLT_exp (-1074) 53) in G. apply FLT_format_generic in G; auto with typeclass_instances. destruct G as [fl E M L].
  destruct fl as [m e]. simpl in M, L. unfold F2R in E; simpl in E.
  pose proof (Zfloor_lb x) as LB. pose proof (Zfloor_ub x) as UB. set (k := Zfloor x) in *.
  destruct (Z_lt_le_dec e 0) as [N|P].
  - assert (EK : IZR k = IZR (k * 2 ^ (- e)) * bpow radix2 e).
    { rewrite mult_IZR. change (2 ^ (- e))%Z with (radix2 ^ (- e))%Z. rewrite IZR_Zpower by lia. rewrite Rmult_assoc, <- bpow_plus. replace (- e + e)%Z with 0%Z by lia. simpl. ring. }
    apply generic_format_FLT. exists (Float radix2 (m - k * 2 ^ (- e)) e); [|simpl|simpl; lia].
    + unfold F2R; simpl. rewrite minus_IZR, E, EK. ring.
    + assert (D : (0 <= m - k * 2 ^ (- e))%Z).
      { apply le_IZR. rewrite minus_IZR. apply (Rmult_le_reg_r (bpow radix2 e)); [apply bpow_gt_0|]. rewrite Rmult_minus_distr_r, <- EK, <- E. lra. }
      assert (U : (m - k * 2 ^ (- e) < 2 ^ (- e))%Z).
      { apply lt_IZR. rewrite minus_IZR. apply (Rmult_lt_reg_r (bpow radix2 e)); [apply bpow_gt_0|]. rewrite Rmult_minus_distr_r, <- EK, <- E.
        change (2 ^ (- e))%Z with (radix2 ^ (- e))%Z. rewrite IZR_Zpower by lia. rewrite <- bpow_plus. replace (- e + e)%Z with 0%Z by lia. simpl. lra. }
      rewrite Z.abs_eq by lia. destruct H as [H|H].
      * assert (0 <= k)%Z by (apply Zfloor_lub; simpl; lra). assert (0 <= k * 2 ^ (- e))%Z by (apply Z.mul_nonneg_nonneg; lia).
        apply Z.le_lt_trans with (Z.abs m); [|exact M]. lia.
      * assert (2 ^ (- e) <= - m)%Z.
        { apply le_IZR. rewrite opp_IZR. change (2 ^ (- e))%Z with (radix2 ^ (- e))%Z. rewrite IZR_Zpower by lia. apply (Rmult_le_reg_r (bpow radix2 e)); [apply bpow_gt_0|].
          rewrite <- bpow_plus. replace (- e + e)%Z with 0%Z by lia. simpl bpow. rewrite Ropp_mult_distr_l_reverse, <- E. lra. }
        apply Z.lt_le_trans with (2 ^ (- e))%Z; auto. apply Z.le_trans with (Z.abs m); [lia|]. simpl in M. lia.
  - assert (EZ : x = IZR (m * 2 ^ e)).
    { rewrite mult_IZR. change (2 ^ e)%Z with (radix2 ^ e)%Z. rewrite IZR_Zpower by lia. exact E. }
    assert (K : k = (m * 2 ^ e)%Z) by (unfold k; rewrite EZ; apply Zfloor_IZR). rewrite EZ, K, Rminus_diag_eq by reflexivity. apply generic_format_0.
Qed.

Lemma rnd_top : rnd (1 - tiny) = 1.
Proof.
  pose (h := f_div (f_ofZ 1) (f_ofZ (2 ^ 27))). assert (Dh : denotes h (/ IZR (2 ^ 27))).
  { unfold h. assert (E : / IZR (2 ^ 27) = rnd (1 / IZR (2 ^ 27))).
    { unfold Rdiv. rewrite Rmult_1_l. symmetry. unfold rnd. apply round_generic; auto with typeclass_instances.
      change (2 ^ 27)%Z with (radix2 ^ 27)%Z. rewrite IZR_Zpower by lia. rewrite <- bpow_opp. apply generic_format_bpow. unfold FLT_exp. lia. }
    rewrite E. apply denotes_div; [apply (denotes_ofZ 1); reflexivity|apply denotes_ofZ; reflexivity|apply not_0_IZR; discriminate|].
    apply Rle_trans with (IZR (2 ^ 100)); [|apply big_large]. rewrite Rabs_right; [|apply Rle_ge; lra]. lra. }
  assert (Dt : denotes (f_mul h h) tiny).
  { assert (E : tiny = rnd (/ IZR (2 ^ 27) * / IZR (2 ^ 27))).
    { rewrite <- Rinv_mult, <- mult_IZR. change (2 ^ 27 * 2 ^ 27)%Z with (2 ^ 54)%Z. fold tiny. rewrite tiny_bpow. symmetry. unfold rnd. apply round_generic; auto with typeclass_instances. apply generic_format_bpow. unfold FLT_exp. lia. }
    rewrite E. apply denotes_mul; auto. apply Rle_trans with (IZR (2 ^ 100)); [|apply big_large]. rewrite Rabs_right; [|apply Rle_ge; lra]. lra. }
  assert (D1 : denotes (f_ofZ 1) 1) by (apply (denotes_ofZ 1); reflexivity).
  assert (DS : denotes (f_sub (f_ofZ 1) (f_mul h h)) (rnd (1 - tiny))).
  { apply denotes_sub; auto. apply Rle_trans with (IZR (2 ^ 100)); [|apply big_large]. unfold tiny. rewrite Rabs_right; [|apply Rle_ge; lra]. lra. }
  assert (E : f_eqb (f_sub (f_ofZ 1) (f_mul h h)) (f_ofZ 1) = true) by (vm_compute; reflexivity).
  rewrite (denotes_eqb _ _ _ _ DS D1) in E. revert E. case Req_bool_spec; auto. discriminate.
Qed.

(** One step of rounding below 1. *)
Lemma rnd_unit y : 0 <= y < 1 -> Rabs (rnd y - y) <= tiny.
Proof.
  intros H. unfold rnd. eapply Rle_trans; [apply error_le_half_ulp; auto with typeclass_instances|]. rewrite tiny_bpow.
  destruct (Req_dec y 0) as [->|N].
  - rewrite ulp_FLT_small; [|reflexivity|rewrite Rabs_R0; apply bpow_gt_0]. change (/ 2) with (bpow radix2 (-1)). rewrite <- bpow_plus. apply bpow_le. lia.
  - rewrite ulp_neq_0 by auto. change (/ 2) with (bpow radix2 (-1)). rewrite <- bpow_plus. apply bpow_le. unfold cexp, FLT_exp.
    assert (mag radix2 y <= 0)%Z; [|lia]. apply mag_le_bpow; auto. rewrite Rabs_right by lra. simpl. lra.
Qed.

Lemma frac_between x : -1 < x < 0 -> 0 <= rnd (x + 1) <= 1 /\ (rnd (x + 1) = 1 <-> - tiny <= x) /\ Rabs (rnd (x + 1) - (x + 1)) <= tiny.
Proof.
  intros H. assert (R1 : rnd 1 = 1) by (apply (rnd_IZR 1); reflexivity). pose proof (rnd_unit (x + 1) ltac:(lra)) as B. split; [|split; auto].
  - split; [apply Rle_trans with (rnd 0); [rewrite rnd_0; lra|apply rnd_le; lra]|apply Rle_trans with (rnd 1); [apply rnd_le; lra|lra]].
  - split.
    + intros E. rewrite E in B. apply Rabs_le_inv in B. lra.
    + intros T. apply Rle_antisym; [apply Rle_trans with (rnd 1); [apply rnd_le; lra|lra]|]. apply Rle_trans with (rnd (1 - tiny)); [rewrite rnd_top; lra|apply rnd_le; lra].
Qed.

Lemma per_one (v : b64) (b : bool) : is_finite v = true -> Rabs (B2R v) <= IZR (2 ^ 100) ->
  let w := f_sub v (f_mul (f_floor v) (of_bool FA b)) in
  is_finite w = true /\ (b = false -> B2R w = B2R v) /\
  (b = true -> 0 <= B2R w <= 1 /\ (B2R w = 1 <-> - tiny <= B2R v < 0) /\
     (0 <= B2R v \/ B2R v <= -1 -> exists k, B2R w = B2R v + IZR k) /\ exists k, Rabs (B2R w - (B2R v + IZR k)) <= tiny).
Proof.
  intros Fv Bv w. assert (Dv : denotes v (B2R v)) by (split; auto). pose proof (denotes_floor v _ Dv) as Df.
  pose proof (Zfloor_lb (B2R v)) as LB. pose proof (Zfloor_ub (B2R v)) as UB. pose proof big_large as BL. apply Rabs_le_inv in Bv. assert (T1 : 0 < tiny < 1) by (unfold tiny; lra).
  assert (H200 : IZR (2 ^ 100) + 2 <= big).
  { unfold big. apply Rle_trans with (IZR (2 ^ 101)); [rewrite <- (plus_IZR (2 ^ 100) 2); apply IZR_le; discriminate|]. change (2 ^ 101)%Z with (radix2 ^ 101)%Z. rewrite IZR_Zpower by lia. apply bpow_le. lia. }
  destruct b.
  - assert (D1 : denotes (of_bool FA true) 1) by (apply (denotes_ofZ 1); reflexivity).
    assert (Dm : denotes (f_mul (f_floor v) (of_bool FA true)) (IZR (Zfloor (B2R v)))).
    { replace (IZR (Zfloor (B2R v))) with (rnd (IZR (Zfloor (B2R v)) * 1)).
      - apply denotes_mul; auto. rewrite Rmult_1_r. apply Rabs_le. lra.
      - rewrite Rmult_1_r. destruct Df as [F E]. rewrite <- E. now apply rnd_format. }
    assert (DW : denotes w (rnd (B2R v - IZR (Zfloor (B2R v))))). { apply denotes_sub; auto. apply Rabs_le. lra. }
    destruct DW as [FW EW]. rewrite EW. split; auto. split; [discriminate|]. intros _.
    destruct (Rlt_dec (-1) (B2R v)) as [A|A]; [destruct (Rlt_dec (B2R v) 0) as [C|C]|].
    + assert (K : Zfloor (B2R v) = (-1)%Z) by (apply Zfloor_imp; simpl; lra). rewrite K. replace (B2R v - IZR (-1)) with (B2R v + 1) by (simpl; ring).
      destruct (frac_between (B2R v) (conj A C)) as (I1 & I2 & I3). split; auto. split; [rewrite I2; split; lra|]. split; [intros [?|?]; lra|]. exists 1%Z. auto.
    + assert (X : 0 <= B2R v) by lra. rewrite frac_exact by auto. split; [lra|]. split; [split; lra|]. split.
      * intros _. exists (- Zfloor (B2R v))%Z. rewrite opp_IZR. ring.
      * exists (- Zfloor (B2R v))%Z. rewrite opp_IZR. replace (_ - _) with 0 by ring. rewrite Rabs_R0. unfold tiny. lra.
    + assert (X : B2R v <= -1) by lra. rewrite frac_exact by auto. split; [lra|]. split; [split; lra|]. split.
      * intros _. exists (- Zfloor (B2R v))%Z. rewrite opp_IZR. ring.
      * exists (- Zfloor (B2R v))%Z. rewrite opp_IZR. replace (_ - _) with 0 by ring. rewrite Rabs_R0. unfold tiny. lra.
  - assert (D0 : denotes (of_bool FA false) 0) by (apply (denotes_ofZ 0); reflexivity).
    assert (Dm : denotes (f_mul (f_floor v) (of_bool FA false)) 0).
    { rewrite <- rnd_0. replace 0 with (IZR (Zfloor (B2R v)) * 0) at 1 by ring. apply denotes_mul; auto. rewrite Rmult_0_r, Rabs_R0. unfold big. apply bpow_ge_0. }
    assert (DW : denotes w (rnd (B2R v - 0))). { apply denotes_sub; auto. apply Rabs_le. lra. }
    destruct DW as [FW EW]. rewrite EW. split; auto. split; [intros _; rewrite Rminus_0_r; now apply rnd_format|discriminate].
Qed.

Lemma C79_lemma : (forall (f : list b64) per, length f = length per ->
  Forall (fun v : b64 => is_finite v = true /\ Rabs (B2R v) <= IZR (2 ^ 100)) f ->
  exists g, periodize FA f per = Ok g /\ length g = length f /\
    forall i v b w, nth_error f i = Some v -> nth_error per i = Some b -> nth_error g i = Some w ->
      is_finite w = true /\ (b = false -> B2R w = B2R v) /\
      (b = true -> 0 <= B2R w <= 1 /\ (B2R w = 1 <-> - / IZR (2 ^ 54) <= B2R v < 0) /\
         (0 <= B2R v \/ B2R v <= -1 -> exists k, B2R w = B2R v + IZR k) /\
         exists k, Rabs (B2R w - (B2R v + IZR k)) <= / IZR (2 ^ 54)))%R.
Proof.
  intros f per LL F. unfold periodize, bcast. rewrite !map_length, LL, Nat.eqb_refl. cbn [bind].
  assert (L2 : length (zipwith (a_mul FA) (map (a_floor FA) f) (map (of_bool FA) per)) = length per).
  { clear F. revert per LL. induction f; destruct per; simpl; intros; try discriminate; auto. }
  rewrite L2, Nat.eqb_refl. eexists. split; [reflexivity|].
  split; [clear L2 F; revert per LL; induction f; destruct per; simpl; intros; try discriminate; auto|].
  clear L2. revert per LL. induction F as [|v f [Fv Bv] F IH]; intros [|b per] LL i v' b' w Ev Eb Ew; try discriminate; [destruct i; discriminate|].
  destruct i as [|i]; simpl in Ev, Eb, Ew.
  - injection Ev as <-. injection Eb as <-. injection Ew as <-. exact (per_one v b Fv Bv).
  - eapply (IH per); eauto.
Qed.

Lemma C79_refuted_lemma : (forall (v : b64), is_finite v = true -> - / IZR (2 ^ 54) <= B2R v < 0 ->
  exists w u, periodize FA [v] [true] = Ok [w] /\ B2R w = 1 /\ periodize FA [w] [true] = Ok [u] /\ B2R u = 0)%R.
Proof.
  intros v Fv H. assert (Bv : Rabs (B2R v) <= IZR (2 ^ 100)) by (apply Rabs_le; lra).
  destruct (C79_lemma [v] [true] eq_refl ltac:(constructor; [split; auto|constructor])) as (g & E & Lg & P). destruct g as [|w [|]]; try discriminate.
  destruct (P 0%nat v true w eq_refl eq_refl eq_refl) as (Fw & _ & T). destruct (T eq_refl) as (_ & I & _). assert (W1 : B2R w = 1) by (apply I; auto).
  assert (Bw : Rabs (B2R w) <= IZR (2 ^ 100)) by (apply Rabs_le; lra).
  destruct (C79_lemma [w] [true] eq_refl ltac:(constructor; [split; auto|constructor])) as (g & E' & Lg' & P'). destruct g as [|u [|]]; try discriminate.
  destruct (P' 0%nat w true u eq_refl eq_refl eq_refl) as (Fu & _ & T'). destruct (T' eq_refl) as (R & I' & X & _).
  exists w, u. split; auto. split; auto. split; auto. destruct X as [k Ek]; [lra|]. rewrite W1 in *.
  assert (N : B2R u <> 1) by (intros U; apply I' in U; lra). assert (-1 <= k <= 0)%Z as K. { rewrite Ek in R. split; apply le_IZR; simpl; lra. }
  assert (k = -1 \/ k = 0)%Z as [->| ->] by lia; simpl in *; lra.
Qed.
