(** Nucleation in binary64 (C95). *)
From Coq Require Import Reals Lra Psatz Permutation.
From Flocq Require Import Core BinarySingleNaN Relative Plus_error.
From Verif Require Import Prelude Dict Val ValFacts Arith LatticeModel StructModel StateModel NbModel GridModel SimModel SetupModel
  SpecState SpecGeom SpecNb SpecGrid SpecSetup StateFacts LatticeFacts StructFacts StructMore NbFacts NbMore GridFacts GridMore GridNb SetupFacts SetupMore
  NucFacts NucMore FloatArith SpecFloat64 SpecNuc FloatFacts FloatCoord FloatGrid FloatMore FloatNb FloatTorus.
Local Open Scope R_scope.
#[local] Instance flt_valid' : Valid_exp (FLT_exp (-1074) 53).
Proof. apply FLT_exp_valid. reflexivity. Qed.

(** * Sums of floats *)
Lemma denotes_generic a x : denotes a x -> generic_format radix2 (FLT_exp (-1074) 53) x.
Proof. intros [_ <-]. apply (generic_format_B2R 53 1024). Qed.
Lemma rnd_plus a b x y : denotes a x -> denotes b y -> 0 <= x -> 0 <= y -> (x + y) * (1 - ulp_) <= rnd (x + y) <= (x + y) * (1 + ulp_).
Proof.
  intros Da Db Hx Hy. destruct (FLT_plus_error_N_ex radix2 (-1074) 53 (fun z => negb (Z.even z)) x y (denotes_generic _ _ Da) (denotes_generic _ _ Db)) as (eps & He & E).
  change (round radix2 (FLT_exp (-1074) 53) (Znearest (fun z => negb (Z.even z))) (x + y)) with (rnd (x + y)) in E.
  assert (U : u_ro radix2 53 = ulp_). { unfold u_ro, ulp_. simpl. lra. }
  rewrite U in He. assert (0 < ulp_) by (unfold ulp_; lra).
  assert (ulp_ / (1 + ulp_) <= ulp_). { apply (Rmult_le_reg_r (1 + ulp_)); [lra|]. field_simplify; [nra|lra]. }
  rewrite E. apply Rabs_le_inv in He. split; nra.
Qed.
Lemma add_wide a b x y : denotes a x -> denotes b y -> 0 <= x -> 0 <= y -> x + y <= 3 / 2 * bpow radix2 1023 -> denotes (f_add a b) (rnd (x + y)).
Proof.
  intros Da Db Hx Hy H. destruct (rnd_plus a b x y Da Db Hx Hy) as [R1 R2]. destruct Da as [Fa Ea]. destruct Db as [Fb Eb].
  pose proof (Bplus_correct 53 1024 _ _ mode_NE a b Fa Fb) as C. rewrite Ea, Eb in C.
  change (round radix2 _ _ (x + y)) with (rnd (x + y)) in C. rewrite Rlt_bool_true in C.
  - destruct C as (C1 & C2 & _). split; auto.
  - replace (bpow radix2 1024) with (2 * bpow radix2 1023) by (change 1024%Z with (1 + 1023)%Z; now rewrite bpow_plus).
    pose proof (bpow_gt_0 radix2 1023). assert (0 < ulp_ < / 100) by (unfold ulp_; lra). rewrite Rabs_pos_eq by nra. nra.
Qed.

Lemma sum_B2R_nonneg (l : list b64) : (forall a, In a l -> is_finite a = true /\ 0 <= B2R a) -> 0 <= sum (map B2R l).
Proof.
  induction l as [|a l IH]; intros H; [simpl; lra|]. cbn [map]. unfold sum in *. cbn [fold_right]. pose proof (proj2 (H a (or_introl eq_refl))).
  assert (0 <= fold_right Rplus 0 (map B2R l)) by (apply IH; intros; apply H; simpl; auto). lra.
Qed.
Definition len {B} (l : list B) : R := IZR (Z.of_nat (length l)).
Lemma len_app {B} (l l' : list B) : len (l ++ l') = len l + len l'.
Proof. unfold len. now rewrite app_length, Nat2Z.inj_add, plus_IZR. Qed.
Lemma len_perm {B} (l l' : list B) : Permutation l l' -> len l = len l'.
Proof. intros P. unfold len. now rewrite (Permutation_length P). Qed.
Lemma len_nonneg {B} (l : list B) : 0 <= len l.
Proof. unfold len. apply IZR_le. lia. Qed.
Lemma len_ge1 {B} (l : list B) : l <> [] -> 1 <= len l.
Proof. intros H. unfold len. apply IZR_le. destruct l; [congruence|simpl; lia]. Qed.

Lemma rnd_denotes a x : denotes a x -> rnd x = x.
Proof. intros D. unfold rnd. apply round_generic; auto with typeclass_instances. eapply denotes_generic; eauto. Qed.

Lemma adds_up_fl (l : list b64) v : adds_up FA l v -> (forall a, In a l -> is_finite a = true /\ 0 <= B2R a) -> sum (map B2R l) <= bpow radix2 1023 -> len l * ulp_ <= / 100 ->
  exists t, denotes v t /\ 0 <= t /\ sum (map B2R l) * (1 - 2 * len l * ulp_) <= t <= sum (map B2R l) * (1 + 2 * len l * ulp_).
Proof.
  intros H. induction H as [|x|l1 l2 l x y _ IH1 _ IH2 P]; intros HF HS HL.
  - exists 0. split; [apply den_0|]. simpl. lra.
  - destruct (HF x (or_introl eq_refl)) as [Fx Nx]. exists (B2R x). split; [split; auto|]. split; auto. unfold sum, len. simpl. assert (0 < ulp_) by (unfold ulp_; lra). nra.
  - assert (HF1 : forall a : b64, In a l1 -> is_finite a = true /\ 0 <= B2R a) by (intros a Ha; apply HF; eapply Permutation_in; [exact P|apply in_or_app; auto]).
    assert (HF2 : forall a : b64, In a l2 -> is_finite a = true /\ 0 <= B2R a) by (intros a Ha; apply HF; eapply Permutation_in; [exact P|apply in_or_app; auto]).
    assert (ES : sum (map B2R l) = sum (map B2R l1) + sum (map B2R l2)).
    { rewrite <- (sum_perm _ _ (Permutation_map B2R P)), map_app. apply sum_app. }
    assert (EL : len l = len l1 + len l2) by (rewrite <- (len_perm _ _ P); apply len_app).
    pose proof (sum_B2R_nonneg l1 HF1) as N1. pose proof (sum_B2R_nonneg l2 HF2) as N2. pose proof (len_nonneg l1) as L1. pose proof (len_nonneg l2) as L2.
    assert (U : 0 < ulp_ < / 100) by (unfold ulp_; lra).
    destruct IH1 as (t1 & D1 & P1 & B1); [auto|lra|nra|]. destruct IH2 as (t2 & D2 & P2 & B2); [auto|lra|nra|].
    pose proof (bpow_gt_0 radix2 1023) as BP.
    set (S1 := sum (map B2R l1)) in *. set (S2 := sum (map B2R l2)) in *. set (k1 := len l1) in *. set (k2 := len l2) in *.
    assert (T : t1 + t2 <= 3 / 2 * bpow radix2 1023) by
      (assert (S1 * (1 + 2 * k1 * ulp_) <= S1 * (3 / 2)) by (apply Rmult_le_compat_l; [auto|nra]);
       assert (S2 * (1 + 2 * k2 * ulp_) <= S2 * (3 / 2)) by (apply Rmult_le_compat_l; [auto|nra]); lra).
    exists (rnd (t1 + t2)). split; [apply add_wide; auto|].
    destruct (rnd_plus x y t1 t2 D1 D2 P1 P2) as [R1 R2]. split; [nra|]. rewrite ES, EL.
    destruct l1 as [|a1 l1].
    { assert (k1 = 0) as -> by reflexivity. assert (S1 = 0) as S0 by reflexivity. rewrite S0 in *. assert (t1 = 0) as -> by lra.
      rewrite !Rplus_0_l. rewrite (rnd_denotes y t2 D2). lra. }
    destruct l2 as [|a2 l2].
    { assert (k2 = 0) as -> by reflexivity. assert (S2 = 0) as S0 by reflexivity. rewrite S0 in *. assert (t2 = 0) as -> by lra.
      rewrite !Rplus_0_r. rewrite (rnd_denotes x t1 D1). lra. }
    assert (1 <= k1) by (apply len_ge1; discriminate). assert (1 <= k2) by (apply len_ge1; discriminate).
    set (k := k1 + k2) in *. assert (K : k * ulp_ <= / 100) by (now rewrite <- EL).
    assert (A1 : (S1 + S2) * (1 - 2 * (k - 1) * ulp_) <= t1 + t2).
    { assert (S1 * (1 - 2 * (k - 1) * ulp_) <= S1 * (1 - 2 * k1 * ulp_)) by (apply Rmult_le_compat_l; auto; unfold k; nra).
      assert (S2 * (1 - 2 * (k - 1) * ulp_) <= S2 * (1 - 2 * k2 * ulp_)) by (apply Rmult_le_compat_l; auto; unfold k; nra). lra. }
    assert (A2 : t1 + t2 <= (S1 + S2) * (1 + 2 * (k - 1) * ulp_)).
    { assert (S1 * (1 + 2 * k1 * ulp_) <= S1 * (1 + 2 * (k - 1) * ulp_)) by (apply Rmult_le_compat_l; auto; unfold k; nra).
      assert (S2 * (1 + 2 * k2 * ulp_) <= S2 * (1 + 2 * (k - 1) * ulp_)) by (apply Rmult_le_compat_l; auto; unfold k; nra). lra. }
    set (S := S1 + S2) in *. assert (0 <= S) by (unfold S; lra). set (e := k * ulp_) in *.
    replace (2 * (k - 1) * ulp_) with (2 * e - 2 * ulp_) in * by (unfold e; ring). replace (2 * k * ulp_) with (2 * e) by (unfold e; ring).
    assert (0 <= e) by (unfold e, k; apply Rmult_le_pos; lra). set (t := t1 + t2) in *.
    split.
    + apply Rle_trans with (t * (1 - ulp_)); auto. apply Rle_trans with (S * (1 - (2 * e - 2 * ulp_)) * (1 - ulp_)); [|apply Rmult_le_compat_r; lra].
      rewrite Rmult_assoc. apply Rmult_le_compat_l; auto. nra.
    + apply Rle_trans with (t * (1 + ulp_)); auto. apply Rle_trans with (S * (1 + (2 * e - 2 * ulp_)) * (1 + ulp_)); [apply Rmult_le_compat_r; lra|].
      rewrite Rmult_assoc. apply Rmult_le_compat_l; auto. nra.
Qed.

(** * The quotas *)
Lemma quota_bounds q n : 0 <= q <= 2 -> 0 <= n ->
  n * q * (1 - 3 * ulp_) - (2 * n + 2) * eta_ <= rnd (rnd q * n) <= n * q * (1 + 3 * ulp_) + (2 * n + 2) * eta_.
Proof.
  intros [Q0 Q2] Hn. pose proof (rnd_error q) as E1. rewrite (Rabs_pos_eq q) in E1 by auto. apply Rabs_le_inv in E1.
  assert (U : 0 < ulp_ < / 100) by (unfold ulp_; lra). assert (H : 0 < eta_) by (unfold eta_; apply Rinv_0_lt_compat, IZR_lt; reflexivity).
  set (r := rnd q) in *. assert (R0 : 0 <= r) by (unfold r; rewrite <- rnd_0; now apply rnd_le).
  assert (RN : 0 <= r * n) by (now apply Rmult_le_pos). pose proof (rnd_error (r * n)) as E2. rewrite (Rabs_pos_eq (r * n)) in E2 by auto. apply Rabs_le_inv in E2.
  assert (NQ : 0 <= n * q) by (now apply Rmult_le_pos).
  assert (B1 : r * n <= (q * (1 + ulp_) + eta_) * n) by (apply Rmult_le_compat_r; [auto|lra]).
  assert (B2 : (q * (1 - ulp_) - eta_) * n <= r * n) by (apply Rmult_le_compat_r; [auto|lra]).
  assert (HN : 0 <= n * eta_) by (apply Rmult_le_pos; lra).
  set (z := rnd (r * n)) in *. set (rn := r * n) in *.
  assert (C1 : rn * (1 + ulp_) <= (q * (1 + ulp_) + eta_) * n * (1 + ulp_)) by (apply Rmult_le_compat_r; lra).
  assert (C2 : (q * (1 - ulp_) - eta_) * n * (1 - ulp_) <= rn * (1 - ulp_)) by (apply Rmult_le_compat_r; lra).
  split; nra.
Qed.

Section Amounts.
  Local Open Scope Z_scope.
  Variables (n : Z) (amts : dict string b64) (np_sum : list b64 -> b64).
  Hypothesis UQ : uniq amts.
  Hypothesis NN : forall p a, In (p, a) amts -> is_finite a = true /\ (0 <= B2R a)%R.
  Hypothesis TP : (0 < total_of amts <= bpow radix2 1023)%R.
  Hypothesis N0 : 0 <= n.
  Hypothesis SMALL : (n + 1) * (Z.of_nat (length amts) + 2) <= 2 ^ 44.
  Hypothesis SM : summation FA np_sum.
  Let species := map fst amts.
  Let ideal := ideal_num_sites FA np_sum amts n.
  Let T := B2R (np_sum (map snd amts)).
  Let K := len amts.
  Let S := total_of amts.
  Let u := ulp_.
  Let N := IZR n.

  Lemma KN : (0 <= K /\ 0 <= N /\ (N + 1) * (K + 2) * u <= / 512)%R.
  Proof.
    assert (H : (IZR ((n + 1) * (Z.of_nat (length amts) + 2)) <= IZR (2 ^ 44))%R) by (now apply IZR_le).
    rewrite mult_IZR, !plus_IZR in H. fold (len amts) in H. fold K N in H. split; [apply len_nonneg|]. split; [now apply IZR_le|].
    unfold u, ulp_. replace (IZR (2 ^ 44)) with 17592186044416%R in H by reflexivity. lra.
  Qed.
  Lemma K_small : (K * u <= / 512)%R.
  Proof.
    destruct KN as (A & B & C). assert (0 < u)%R by (unfold u, ulp_; lra). assert (K * u <= (N + 1) * (K + 2) * u)%R by (apply Rmult_le_compat_r; nra). lra.
  Qed.
  Lemma total_ok : denotes (np_sum (map snd amts)) T /\ (S * (1 - 2 * K * u) <= T <= S * (1 + 2 * K * u))%R.
  Proof.
    destruct (adds_up_fl _ _ (SM (map snd amts))) as (t & D & P & B).
    - intros a Ha. apply in_map_iff in Ha as ([p b] & <- & Hb). now apply (NN p).
    - apply TP.
    - unfold len. rewrite map_length. fold (len amts) K u. pose proof K_small. lra.
    - assert (t = T) as -> by (unfold T; destruct D as [_ D]; auto). split; auto. unfold len in B. rewrite map_length in B. exact B.
  Qed.
  Lemma T_pos : (0 < T)%R.
  Proof. destruct total_ok as [_ [H _]]. pose proof K_small. destruct TP as [TP1 _]. fold S in TP1. assert (0 < S * (1 - 2 * K * u))%R by (apply Rmult_lt_0_compat; lra). lra. Qed.
  Lemma S_over_T : (1 - 2 * K * u <= S / T <= 1 + 4 * K * u)%R.
  Proof.
    destruct total_ok as [_ [H1 H2]]. pose proof K_small as KS. destruct KN as (K0 & _ & _). pose proof T_pos as T0. destruct TP as [TP1 _]. fold S in TP1.
    assert (U : (0 < u)%R) by (unfold u, ulp_; lra). assert (e0 : (0 <= K * u)%R) by (apply Rmult_le_pos; lra).
    replace (2 * K * u)%R with (2 * (K * u))%R in * by ring. replace (4 * K * u)%R with (4 * (K * u))%R by ring. set (e := (K * u)%R) in *.
    split.
    - apply (Rmult_le_reg_r T); auto. unfold Rdiv. rewrite Rmult_assoc, Rinv_l, Rmult_1_r by lra. apply Rle_trans with ((1 - 2 * e) * (S * (1 + 2 * e)))%R; [apply Rmult_le_compat_l; lra|].
      replace ((1 - 2 * e) * (S * (1 + 2 * e)))%R with (S * (1 - 4 * e * e))%R by ring. rewrite <- (Rmult_1_r S) at 2. apply Rmult_le_compat_l; nra.
    - apply (Rmult_le_reg_r T); auto. unfold Rdiv. rewrite Rmult_assoc, Rinv_l, Rmult_1_r by lra. apply Rle_trans with ((1 + 4 * e) * (S * (1 - 2 * e)))%R; [|apply Rmult_le_compat_l; lra].
      replace ((1 + 4 * e) * (S * (1 - 2 * e)))%R with (S * (1 + 2 * e - 8 * e * e))%R by ring. rewrite <- (Rmult_1_r S) at 1. apply Rmult_le_compat_l; nra.
  Qed.
  Lemma amount_le p a : In (p, a) amts -> (0 <= B2R a <= S)%R.
  Proof.
    intros H. split; [now apply (NN p)|]. unfold S, total_of. revert H NN. clear. induction amts as [|[k v] l IH]; intros H NN; [destruct H|].
    cbn [map snd]. unfold sum in *. cbn [fold_right]. assert (NN' : forall p a, In (p, a) l -> is_finite a = true /\ (0 <= B2R a)%R) by (intros q b Hb; apply (NN q b); simpl; auto).
    assert (P : (0 <= fold_right Rplus 0 (map B2R (map snd l)))%R).
    { apply (sum_B2R_nonneg (map snd l)). intros b Hb. apply in_map_iff in Hb as ([q c] & <- & Hc). now apply (NN' q). }
    destruct H as [E|H].
    - injection E as <- <-. lra.
    - pose proof (proj2 (NN k v (or_introl eq_refl))). specialize (IH H NN'). lra.
  Qed.
  Lemma ratio_ok p a : In (p, a) amts -> (0 <= B2R a / T <= 2)%R.
  Proof.
    intros H. destruct (amount_le p a H) as [A1 A2]. pose proof T_pos as T0. pose proof S_over_T as [_ B]. pose proof K_small as KS.
    split; [apply Rmult_le_pos; [auto|left; now apply Rinv_0_lt_compat]|].
    apply Rle_trans with (S / T)%R; [apply Rmult_le_compat_r; [left; now apply Rinv_0_lt_compat|auto]|lra].
  Qed.

  Definition fquota (p : string) : R := match dget p amts with Some a => rnd (rnd (B2R a / T) * N) | None => 0 end.

  Lemma ideal_fl p : In p species -> exists v, dget p ideal = Some (Fin v) /\ denotes v (fquota p).
  Proof.
    intros Hp. unfold fquota. apply dget_key_Some in Hp as [a Ea]. rewrite Ea.
    exists (f_mul (f_div a (np_sum (map snd amts))) (f_ofZ n)). pose proof T_pos as T0. destruct total_ok as [DT _].
    pose proof (dget_In _ _ _ Ea) as Ha. split.
    - unfold ideal, ideal_num_sites.
      assert (E : forall r, np_mul FA (np_div FA r (np_sum (map snd amts))) (a_ofZ FA n) = Fin (f_mul (f_div r (np_sum (map snd amts))) (f_ofZ n))).
      { intros r. unfold np_div. cbn [a_eqb FA a_ofZ]. rewrite (denotes_eqb _ _ _ _ DT den_0), Req_bool_false by lra. reflexivity. }
      rewrite (map_ext _ _ E), map_map. revert Ea. generalize (np_sum (map snd amts)) as tt. clear. intros tt.
      induction amts as [|[k v] l IH]; simpl; [discriminate|]. destruct (eqb p k); auto. intros X; injection X as ->. reflexivity.
    - destruct (NN p a Ha) as [Fa Pa]. destruct (ratio_ok p a Ha) as [R1 R2]. destruct KN as (K0 & N1 & KB).
      assert (NB : (N <= 17592186044416)%R).
      { assert (n <= 2 ^ 44) by nia. apply IZR_le in H. exact H. }
      assert (BIG : (IZR (2 ^ 60) <= big)%R). { pose proof (small_big (IZR (2 ^ 60))) as X. rewrite Rabs_pos_eq in X; [apply X; lra|apply IZR_le; discriminate]. }
      change (IZR (2 ^ 60)) with 1152921504606846976%R in BIG.
      assert (D1 : denotes (f_div a (np_sum (map snd amts))) (rnd (B2R a / T))).
      { apply denotes_div; auto; [split; auto|lra|]. rewrite Rabs_pos_eq by auto. lra. }
      assert (Q : (0 <= rnd (B2R a / T) <= 2)%R).
      { split; [rewrite <- rnd_0; now apply rnd_le|]. apply Rle_trans with (rnd 2); [now apply rnd_le|]. rewrite (rnd_IZR 2) by reflexivity. lra. }
      apply denotes_mul; auto; [apply denotes_ofZ; assert (n <= 2 ^ 44) by nia; lia|].
      rewrite Rabs_pos_eq by (apply Rmult_le_pos; tauto). apply Rle_trans with (2 * N)%R; [apply Rmult_le_compat_r; tauto|lra].
  Qed.

  Lemma fquota_nonneg p : (0 <= fquota p)%R.
  Proof.
    unfold fquota. destruct (dget p amts) as [a|] eqn:E; [|lra]. apply dget_In in E. rewrite <- rnd_0 at 1. apply rnd_le. apply Rmult_le_pos; [|apply KN].
    rewrite <- rnd_0 at 1. apply rnd_le. now apply (ratio_ok p a).
  Qed.

  Lemma fquota_sum : (N - 1 < sum (map fquota species))%R.
  Proof.
    assert (E : map fquota species = map (fun kv => rnd (rnd (B2R (snd kv) / T) * N)) amts).
    { unfold species. rewrite map_map. apply map_ext_in. intros [p a] H. unfold fquota. cbn [fst snd]. rewrite (In_dget p a amts); auto. }
    rewrite E. destruct KN as (K0 & N1 & KB). pose proof T_pos as T0.
    assert (B : forall l : list (string * b64), (forall p a, In (p, a) l -> (0 <= B2R a / T <= 2)%R) ->
      (N * (sum (map B2R (map snd l)) / T) * (1 - 3 * u) - len l * ((2 * N + 2) * eta_) <= sum (map (fun kv => rnd (rnd (B2R (snd kv) / T) * N)) l))%R).
    { induction l as [|[p a] l IH]; intros HR; [unfold len, sum; simpl; lra|]. unfold sum in *. cbn [map fold_right snd].
      specialize (IH ltac:(intros q b Hb; apply (HR q b); simpl; auto)). destruct (quota_bounds (B2R a / T) N (HR p a (or_introl eq_refl)) N1) as [Q _].
      fold u in Q. replace (len ((p, a) :: l)) with (len l + 1)%R by (unfold len; cbn [length]; rewrite Nat2Z.inj_succ, succ_IZR; ring).
      set (s := fold_right Rplus 0%R (map B2R (map snd l))) in *.
      replace ((B2R a + s) / T)%R with (B2R a / T + s / T)%R by (field; lra). lra. }
    specialize (B amts ratio_ok). fold S in B. change (sum (map B2R (map snd amts))) with S in B. fold K in B.
    pose proof S_over_T as [R1 R2]. assert (U : (0 < u < / 1000000)%R) by (unfold u, ulp_; lra).
    assert (H : (0 < eta_ < u * u)%R).
    { unfold eta_, u, ulp_. split; [apply Rinv_0_lt_compat, IZR_lt; reflexivity|]. rewrite <- Rinv_mult. apply Rinv_lt_contravar; [apply Rmult_lt_0_compat; [lra|apply IZR_lt; reflexivity]|].
      rewrite <- mult_IZR. apply IZR_lt. reflexivity. }
    assert (NK : (0 <= N * K)%R) by (now apply Rmult_le_pos).
    assert (A : (N * (S / T) * (1 - 3 * u) >= N * ((1 - 2 * K * u) * (1 - 3 * u)))%R).
    { rewrite Rmult_assoc. apply Rle_ge, Rmult_le_compat_l; auto. apply Rmult_le_compat_r; lra. }
    assert (X : (N * ((1 - 2 * K * u) * (1 - 3 * u)) >= N - 2 * (N * K * u) - 3 * (N * u))%R).
    { replace (N * ((1 - 2 * K * u) * (1 - 3 * u)))%R with (N - 2 * (N * K * u) - 3 * (N * u) + 6 * (N * K) * (u * u))%R by ring.
      assert (0 <= 6 * (N * K) * (u * u))%R by (apply Rmult_le_pos; nra). lra. }
    assert (Y : (K * ((2 * N + 2) * eta_) <= (2 * N * K + 2 * K) * u)%R).
    { replace (K * ((2 * N + 2) * eta_))%R with ((2 * N * K + 2 * K) * eta_)%R by ring. apply Rmult_le_compat_l; nra. }
    replace ((N + 1) * (K + 2) * u)%R with (N * K * u + 2 * (N * u) + K * u + 2 * u)%R in KB by ring.
    replace ((2 * N * K + 2 * K) * u)%R with (2 * (N * K * u) + 2 * (K * u))%R in Y by ring.
    assert (0 <= N * K * u)%R by (apply Rmult_le_pos; lra). assert (0 <= N * u)%R by (apply Rmult_le_pos; lra). assert (0 <= K * u)%R by (apply Rmult_le_pos; lra). lra.
  Qed.

  Lemma fquota_share p a : In (p, a) amts -> (fquota p <= N * B2R a / S + (N + 1) * (K + 2) / IZR (2 ^ 50))%R.
  Proof.
    intros Ha. unfold fquota. rewrite (In_dget p a amts) by auto. destruct KN as (K0 & N1 & KB). pose proof T_pos as T0. pose proof K_small as KS.
    destruct (quota_bounds (B2R a / T) N (ratio_ok p a Ha) N1) as [_ Q]. fold u in Q. destruct TP as [TP1 _]. fold S in TP1.
    destruct (amount_le p a Ha) as [A1 A2]. pose proof S_over_T as [_ R2]. assert (U : (0 < u < / 1000000)%R) by (unfold u, ulp_; lra).
    assert (H : (0 < eta_ < u)%R).
    { unfold eta_, u, ulp_. split; [apply Rinv_0_lt_compat, IZR_lt; reflexivity|]. apply Rinv_lt_contravar; [apply Rmult_lt_0_compat; [lra|apply IZR_lt; reflexivity]|].
      apply IZR_lt. reflexivity. }
    set (f := (B2R a / S)%R). assert (F : (0 <= f <= 1)%R).
    { unfold f. split; [apply Rmult_le_pos; [auto|left; now apply Rinv_0_lt_compat]|]. apply (Rmult_le_reg_r S); auto. unfold Rdiv. rewrite Rmult_assoc, Rinv_l by lra. lra. }
    assert (E : (B2R a / T <= f * (1 + 4 * K * u))%R). { replace (B2R a / T)%R with (f * (S / T))%R by (unfold f; field; split; lra). apply Rmult_le_compat_l; lra. }
    replace (N * B2R a / S)%R with (N * f)%R by (unfold f; field; lra).
    replace ((N + 1) * (K + 2) / IZR (2 ^ 50))%R with (8 * ((N + 1) * (K + 2) * u))%R by (unfold u, ulp_; change (IZR (2 ^ 50)) with 1125899906842624%R; field).
    eapply Rle_trans; [exact Q|].
    assert (X : (N * (B2R a / T) * (1 + 3 * u) <= N * f * ((1 + 4 * K * u) * (1 + 3 * u)))%R).
    { replace (N * f * ((1 + 4 * K * u) * (1 + 3 * u)))%R with (N * (f * (1 + 4 * K * u)) * (1 + 3 * u))%R by ring.
      apply Rmult_le_compat_r; [lra|]. now apply Rmult_le_compat_l. }
    assert (KU : (0 <= K * u)%R) by (apply Rmult_le_pos; lra).
    assert (Y : ((1 + 4 * K * u) * (1 + 3 * u) <= 1 + (4 * K + 4) * u)%R).
    { replace ((1 + 4 * K * u) * (1 + 3 * u))%R with (1 + 4 * K * u + 3 * u + 12 * (K * u) * u)%R by ring. assert (12 * (K * u) * u <= u)%R by nra. lra. }
    assert (Z : (N * f * ((1 + 4 * K * u) * (1 + 3 * u)) <= N * f + N * ((4 * K + 4) * u))%R).
    { apply Rle_trans with (N * f * (1 + (4 * K + 4) * u))%R; [apply Rmult_le_compat_l; auto; apply Rmult_le_pos; lra|].
      replace (N * f * (1 + (4 * K + 4) * u))%R with (N * f + f * (N * ((4 * K + 4) * u)))%R by ring.
      assert (0 <= N * ((4 * K + 4) * u))%R by (apply Rmult_le_pos; [auto|apply Rmult_le_pos; lra]). nra. }
    assert (W : ((2 * N + 2) * eta_ <= (2 * N + 2) * u)%R) by (apply Rmult_le_compat_l; lra).
    assert (NKU : (0 <= N * K * u)%R) by (apply Rmult_le_pos; [now apply Rmult_le_pos|lra]). assert (0 <= N * u)%R by (apply Rmult_le_pos; lra).
    replace (8 * ((N + 1) * (K + 2) * u))%R with (8 * (N * K * u) + 16 * (N * u) + 8 * (K * u) + 16 * u)%R by ring.
    replace (N * ((4 * K + 4) * u))%R with (4 * (N * K * u) + 4 * (N * u))%R in Z by ring. replace ((2 * N + 2) * u)%R with (2 * (N * u) + 2 * u)%R in W by ring. lra.
  Qed.

  Lemma fl_identities : forall fuel, (n + 1) * Z.of_nat (length amts) <= Z.of_nat fuel ->
    exists ids, nucleus_identities FA fuel n species species ideal (dict_of (map (fun p => (p, 0)) species)) [] = Some (Ok ids) /\
      Z.of_nat (length ids) = n /\ incl ids species /\ forall p, In p species -> (IZR (cnt p ids) < fquota p + 1)%R.
  Proof.
    intros fuel HF. apply (quota_start FA n species ideal fquota); auto.
    - intros p Hp. destruct (ideal_fl p Hp) as (v & E & D). exists (Fin v). split; auto. intros k Hk. cbn [np_below a_ltb a_ofZ FA].
      rewrite (denotes_ltb _ _ (IZR k) _ (denotes_ofZ k ltac:(assert (n <= 2 ^ 44) by nia; lia)) D). split.
      + intros H. destruct (Rlt_bool_spec (IZR k) (fquota p)); auto; discriminate.
      + intros H. now apply Rlt_bool_true.
    - intros p _. apply fquota_nonneg.
    - apply fquota_sum.
    - unfold species. now rewrite map_length.
  Qed.
End Amounts.

(** * Structures made by a builder *)
Local Open Scope Z_scope.
Lemma adds_snoc {F} (A : arith F) : forall calls s c, fst (adds A s (calls ++ [c])) = fst (add_site A (fst (adds A s calls)) (fst c) (snd c)).
Proof. induction calls as [|d t IH]; intros s c; [reflexivity|]. cbn [app adds fst]. apply IH. Qed.
Lemma built_add {F} (A : arith F) L s c s' : built A L s -> add_site_or_raise A s c = Ok s' -> built A L s'.
Proof.
  intros (calls & ->) E. exists (calls ++ [c]). rewrite adds_snoc. unfold add_site_or_raise in E.
  destruct (add_site A (fst (adds A (struct_init L) calls)) (fst c) (snd c)) as [s2 [i|e]]; [|discriminate]. injection E as <-. reflexivity.
Qed.
Lemma foldM_keeps {B C} (f : B -> C -> res B) (Q : B -> Prop) (l : list C) : (forall b c b', In c l -> Q b -> f b c = Ok b' -> Q b') ->
  forall b b', Q b -> foldM f l b = Ok b' -> Q b'.
Proof.
  induction l as [|c l IH]; intros H b b' Hb E; cbn [foldM] in E; [congruence|]. apply bind_Ok in E as (b1 & E1 & E2).
  apply (IH (fun b c b' Hc => H b c b' (or_intror Hc)) b1); auto. apply (H b c); simpl; auto.
Qed.
Lemma build_is_built {F} (A : arith F) b sz s : build A b sz = Ok s -> exists L, built A L s.
Proof.
  assert (X : forall L k mo fr, build_from A L k mo fr = Ok s -> exists L', built A L' s).
  { intros L k mo fr E. unfold build_from in E. apply bind_Ok in E as (L' & _ & E). exists L'. revert E. apply foldM_keeps; [|exists []; reflexivity].
    intros s1 c s2 _ B1. apply foldM_keeps; auto. intros s3 cv s4 _ B2. apply foldM_keeps; auto. intros s5 v s6 _ B3 E.
    apply bind_Ok in E as (loc & _ & E). eapply built_add; eauto. }
  unfold build. destruct sz as [l|z]; [|apply X]. destruct (negb _); [discriminate|apply X].
Qed.

(** * The whole setup *)
Definition fl_rel (size : list Z) (s : structure b64) (r i j : Z) : Prop :=
  j <> i /\ exists p d, length p = length size /\ length d = length size /\ within_moore r d /\ fl_cell size s p i /\ fl_cell size s (shift p d) j.

Lemma fl_rel_sym size s r i j : Forall (fun m => 1 <= m <= M20) size -> fl_square size s -> fl_rel size s r i j -> fl_rel size s r j i.
Proof.
  intros Hk FS (D & p & d & Lp & Ld & W & Ci & Cj). split; [congruence|]. exists (shift p d), (map Z.opp d). split; [rewrite shift_length; congruence|]. split; [now rewrite map_length|]. split.
  - unfold within_moore in *. apply Forall_map. eapply Forall_impl; [|exact W]. simpl. intros; lia.
  - split; auto. rewrite shift_opp by congruence. exact Ci.
Qed.
Lemma setup_facts dim sz s : fl_setup dim sz s -> Forall (fun m => 1 <= m <= M20) (grid_size dim sz) /\ fl_square (grid_size dim sz) s /\ length (grid_size dim sz) = dim /\
  build_structure FA (Z.of_nat dim) sz = Ok s /\ exists L, built FA L s.
Proof.
  intros ((DM & Lg & P) & U & FS). assert (Hk : Forall (fun m => 1 <= m <= M20) (grid_size dim sz)).
  { rewrite Forall_forall in *. intros m Hm. specialize (P m Hm). specialize (U m Hm). unfold M20. lia. }
  split; auto. split; auto. split; auto.
  assert (EB : build_structure FA (Z.of_nat dim) sz = Ok s).
  { unfold build_structure, setup_builder. destruct FS as [(E & b & Eb & Es)|(E & b & Eb & Es)]; rewrite E in Lg; subst dim; cbn [Z.of_nat Pos.of_succ_nat Pos.succ Z.eqb Pos.eqb]; rewrite Eb; cbn [bind];
      destruct sz as [l|k]; auto; injection Eb as <-; exact Es. }
  split; auto. unfold build_structure in EB. apply bind_Ok in EB as (b & _ & EB). now apply build_is_built in EB.
Qed.

Lemma fl_prepared dim sz s bg buffer : fl_setup dim sz s -> fl_buffer (grid_size dim sz) buffer ->
  exists L nbg, built FA L s /\
   (do s <- build_structure FA (Z.of_nat dim) sz;
           let state := setup_solid_phase s bg in
           do nb_graph <- match buffer with
                          | None => Ok None
                          | Some r => do b <- MooreNbHoodBuilder FA r (p_dim s);
                                      do N <- nb_get FA b s None; Ok (Some N)
                          end;
           Ok (s, state, nb_graph)) = Ok (s, layout (sites s None) (fun _ => VStr bg), nbg) /\
   forall o i, legal o -> In i (map s_id (sites s None)) -> exists l, (match nbg with None => Ok [] | Some N => neighbors_of o N i end) = Ok l /\
    forall j, In j l <-> match buffer with None => False | Some r => fl_rel (grid_size dim sz) s r i j end.
Proof.
  intros FG HB. destruct (setup_facts dim sz s FG) as (Hk & FS & Lg & EB & L & BU). exists L. set (size := grid_size dim sz) in *.
  rewrite EB. cbn [bind]. unfold setup_solid_phase. rewrite blank_layout by (apply dense_NoDup, (torus_dense size s Hk FS)). rewrite (torus_dim size s Hk FS).
  destruct buffer as [r|]; [|exists None; cbn [bind]; split; auto; split; auto; intros o i _ _; exists []; split; auto; intros j; simpl; tauto].
  destruct HB as (Hr & NL). destruct (motif_total (map (nums FA) (get_points_in_cube (- r) (r + 1) (length size)))) as (d0 & Eb').
  destruct (torus_builder size s Hk FS r within_moore _ Hr (or_introl (conj eq_refl Eb'))) as [OKC _]. destruct (OKC NL) as (N & EN & HN).
  exists (Some N). unfold MooreNbHoodBuilder. rewrite Eb'. cbn [bind]. rewrite EN. cbn [bind]. split; auto. split; auto. intros o i LO Hi.
  apply (torus_ids size s Hk FS) in Hi as (p & Lp & Ci). destruct (HN p i Lp Ci o LO) as (l & El & _ & IN). exists l. split; auto. intros j. rewrite IN. split.
  - intros (D & d & Ld & W & Cj). split; auto. exists p, d. auto.
  - intros (D & q & d & Lq & Ld & W & Cq & Cj). split; auto. exists d. split; auto. split; auto. apply (torus_shift size s Hk FS q p d i j); auto.
Qed.

Lemma fl_nonempty dim sz s : fl_setup dim sz s -> sites s None <> [].
Proof.
  intros FG E. destruct (setup_facts dim sz s FG) as (Hk & FS & _). set (size := grid_size dim sz) in *.
  destruct (torus_total size s Hk FS (repeat 0 (length size)) (repeat_length _ _)) as (i & Ci).
  assert (X : In i (map s_id (sites s None))) by (apply (torus_ids size s Hk FS); exists (repeat 0 (length size)); split; auto using repeat_length). rewrite E in X. destruct X.
Qed.

Lemma fl_random dim sz s k bg amts buffer rnd ords np_sum ids F1 : fl_setup dim sz s -> fl_buffer (grid_size dim sz) buffer -> 0 <= k ->
  (forall t, legal (ords t)) -> ~ In bg (dkeys amts) -> Z.of_nat F1 <= (k + 1) * Z.of_nat (length amts) ->
  nucleus_identities FA F1 k (map fst amts) (map fst amts) (ideal_num_sites FA np_sum amts k) (dict_of (map (fun p => (p, 0)) (map fst amts))) [] = Some (Ok ids) ->
  Z.of_nat (length ids) = k -> incl ids (map fst amts) ->
  exists r, (forall f1 f2, (k + 1) * Z.of_nat (length amts) <= Z.of_nat f1 -> 1000 * k + 2 <= Z.of_nat f2 ->
      setup_random_sites FA f1 f2 np_sum rnd ords (Z.of_nat dim) sz k bg amts buffer = Some r) /\
    (r = Err RuntimeError \/ exists st, r = Ok (mkSim st s) /\
       configuration s st (fun _ q => q = bg \/ In q (dkeys amts)) /\
       Z.of_nat (length (without_phase s st bg)) = k /\
       (forall b, buffer = Some b -> fl_separated (grid_size dim sz) s b (without_phase s st bg)) /\
       forall p, p <> bg -> Z.of_nat (length (with_phase s st p)) = cnt p ids).
Proof.
  intros FG HB K0 LO NB LF EI LI II. destruct (fl_prepared dim sz s bg buffer FG HB) as (L & nbg & BU & EP & HN).
  destruct (setup_facts dim sz s FG) as (Hk & FS & Lg & _). set (size := grid_size dim sz) in *.
  set (rel := fun i j => match buffer with None => False | Some r => fl_rel size s r i j end).
  assert (RI : forall i j, In i (map s_id (sites s None)) -> rel i j -> In j (map s_id (sites s None))).
  { intros i j _ H. unfold rel in H. destruct buffer as [b|]; [|destruct H]. destruct H as (_ & p & d & Lp & Ld & _ & _ & Cj). apply (torus_ids size s Hk FS).
    exists (shift p d). split; auto. rewrite shift_length; congruence. }
  assert (RS : forall i j, rel i j -> rel j i).
  { intros i j H. unfold rel in *. destruct buffer; auto. now apply fl_rel_sym. }
  destruct (random_gen FA (Z.of_nat dim) sz k bg amts buffer rnd ords np_sum s L nbg rel ids F1 BU (fl_nonempty dim sz s FG) K0 LO EP HN RI RS NB LF EI LI II)
    as (r & U & [->|(st & -> & CF & CN & FR & CW)]).
  - exists (Err RuntimeError). auto.
  - eexists. split; [exact U|]. right. exists st. split; [reflexivity|]. split; auto. split; auto. split; auto.
    intros b Eb p d i j Ci I1 I2 D Ld W Cj. apply (FR _ _ I1 I2 D). unfold rel. rewrite Eb. split; [congruence|]. exists p, d. split; auto. destruct Ci as (c & (Lp & _) & _). rewrite Lp. apply extents_length.
Qed.

Lemma C95_lemma : forall dim sz s k bg amts buffer rnd ords np_sum, fl_setup dim sz s -> 0 <= k ->
  fl_amounts bg amts -> (k + 1) * (Z.of_nat (length amts) + 2) <= 2 ^ 44 -> (forall t, legal (ords t)) -> summation FA np_sum ->
  (fl_buffer (grid_size dim sz) buffer -> exists r, (forall f1 f2, (k + 1) * Z.of_nat (length amts) <= Z.of_nat f1 -> 1000 * k + 2 <= Z.of_nat f2 ->
      setup_random_sites FA f1 f2 np_sum rnd ords (Z.of_nat dim) sz k bg amts buffer = Some r) /\
    (r = Err RuntimeError \/ exists st, r = Ok (mkSim st s) /\
       configuration s st (fun _ q => q = bg \/ In q (dkeys amts)) /\
       Z.of_nat (length (without_phase s st bg)) = k /\
       (forall b, buffer = Some b -> fl_separated (grid_size dim sz) s b (without_phase s st bg)) /\
       forall p a, In (p, a) amts -> (IZR (Z.of_nat (length (with_phase s st p))) <
         IZR k * B2R a / total_of amts + 1 + IZR ((k + 1) * (Z.of_nat (length amts) + 2)) / IZR (2 ^ 50))%R)) /\
  (bad_buffer (grid_size dim sz) buffer -> forall f1 f2, setup_random_sites FA f1 f2 np_sum rnd ords (Z.of_nat dim) sz k bg amts buffer = Some (Err TypeError)).
Proof.
  intros dim sz s k bg amts buffer rnd ords np_sum FG K0 (UQ & NB & NN & TP) SMALL LO SM. split.
  - intros HB. set (F1 := Z.to_nat ((k + 1) * Z.of_nat (length amts))).
    destruct (fl_identities k amts np_sum UQ NN TP K0 SMALL SM F1 ltac:(lia)) as (ids & EI & LI & II & CI).
    destruct (fl_random dim sz s k bg amts buffer rnd ords np_sum ids F1 FG HB K0 LO NB ltac:(lia) EI LI II) as (r & U & [->|(st & -> & CF & CN & SE & CW)]).
    + exists (Err RuntimeError). auto.
    + eexists. split; [exact U|]. right. exists st. split; [reflexivity|]. split; auto. split; auto. split; auto.
      intros p a Hp. assert (Hs : In p (map fst amts)) by (apply (in_map fst) in Hp; auto). rewrite CW by (intros ->; contradiction).
      specialize (CI p Hs). pose proof (fquota_share k amts np_sum UQ NN TP K0 SMALL SM p a Hp) as Q. rewrite mult_IZR, !plus_IZR. fold (len amts). lra.
  - intros (r & -> & Hr & BAD) f1 f2. destruct (setup_facts dim sz s FG) as (Hk & FS & _ & EB & _). set (size := grid_size dim sz) in *.
    destruct (motif_total (map (nums FA) (get_points_in_cube (- r) (r + 1) (length size)))) as (d0 & Eb').
    destruct (torus_builder size s Hk FS r within_moore _ Hr (or_introl (conj eq_refl Eb'))) as [_ TE]. specialize (TE BAD).
    unfold setup_random_sites. rewrite EB. cbn [bind]. rewrite (torus_dim size s Hk FS). unfold MooreNbHoodBuilder. rewrite Eb'. cbn [bind]. rewrite TE. reflexivity.
Qed.

(** * Seven to eighteen *)
Lemma zsum_perm l l' : Permutation l l' -> zsum l = zsum l'.
Proof. intros P. induction P; cbn; unfold zsum in *; lia. Qed.
Lemma zsum_app l l' : zsum (l ++ l') = zsum l + zsum l'.
Proof. unfold zsum. induction l as [|a l IH]; cbn [app fold_right]; [lia|]. rewrite IH. lia. Qed.
Lemma zsum_nonneg l : Forall (fun z => 0 <= z) l -> 0 <= zsum l.
Proof. intros H. unfold zsum. induction H; cbn [fold_right]; lia. Qed.
Lemma adds_up_exact (l : list b64) v : adds_up FA l v -> forall zs, l = map f_ofZ zs -> Forall (fun z => 0 <= z) zs -> zsum zs < 2 ^ 53 -> denotes v (IZR (zsum zs)).
Proof.
  intros H. induction H as [|x|l1 l2 l x y _ IH1 _ IH2 P]; intros zs E NN LT.
  - destruct zs; [apply den_0|discriminate].
  - destruct zs as [|z [|]]; try discriminate. injection E as ->. pose proof (Forall_inv NN). unfold zsum in *. cbn [fold_right] in *. rewrite Z.add_0_r in *. apply denotes_ofZ. lia.
  - subst l. destruct (Permutation_map_inv f_ofZ _ P) as (zs' & E' & P').
    symmetry in E'. apply map_eq_app in E' as (z1 & z2 & -> & E1 & E2). rewrite (zsum_perm _ _ P'), zsum_app in *. apply (Permutation_Forall P') in NN. apply Forall_app in NN as [N1 N2].
    pose proof (zsum_nonneg _ N1). pose proof (zsum_nonneg _ N2).
    specialize (IH1 z1 (eq_sym E1) N1 ltac:(lia)). specialize (IH2 z2 (eq_sym E2) N2 ltac:(lia)).
    rewrite <- (rnd_IZR (zsum z1 + zsum z2)) by lia. rewrite plus_IZR. apply denotes_add; auto. rewrite <- plus_IZR. apply IZR_big. lia.
Qed.
Lemma denotes_ofZ_eq v z : 0 < Z.abs z < 2 ^ 53 -> denotes v (IZR z) -> v = f_ofZ z.
Proof.
  intros Hz [F E]. destruct (denotes_ofZ z ltac:(lia)) as [F' E']. assert (NZ : IZR z <> 0%R) by (apply IZR_neq; lia).
  assert (S : forall w : b64, is_finite w = true -> B2R w <> 0%R -> is_finite_strict w = true) by (intros [] X Y; try discriminate; auto; now destruct Y).
  apply B2R_inj; [apply S; auto; congruence|apply S; auto; congruence|congruence].
Qed.

Definition uneven : dict string b64 := [("a"%string, f_ofZ 7); ("b"%string, f_ofZ 18)].
Lemma uneven_sum np_sum : summation FA np_sum -> np_sum (map snd uneven) = f_ofZ 25.
Proof.
  intros SM. apply denotes_ofZ_eq; [lia|]. change 25 with (zsum [7; 18]). apply (adds_up_exact (map snd uneven)); auto; try reflexivity. repeat constructor; discriminate.
Qed.
Lemma uneven_ok : fl_amounts "bg" uneven /\ total_of uneven = 25%R.
Proof.
  assert (E : total_of uneven = 25%R).
  { unfold total_of, uneven, sum. cbn [map snd fold_right]. rewrite (proj2 (denotes_ofZ 7 ltac:(reflexivity))), (proj2 (denotes_ofZ 18 ltac:(reflexivity))). lra. }
  split; auto. split; [repeat constructor; simpl; intuition discriminate|]. split; [simpl; intuition discriminate|]. split.
  - intros p a [H|[H|[]]]; apply (f_equal snd) in H; cbn [snd] in H; subst a; (split; [reflexivity|]).
    + rewrite (proj2 (denotes_ofZ 7 ltac:(reflexivity))). lra.
    + rewrite (proj2 (denotes_ofZ 18 ltac:(reflexivity))). lra.
  - rewrite E. split; [lra|]. apply Rle_trans with (bpow radix2 5); [simpl; lra|]. apply bpow_le. lia.
Qed.
Definition uneven_ids : list string :=
  ["a"; "b"; "a"; "b"; "a"; "b"; "a"; "b"; "a"; "b"; "a"; "b"; "a"; "b"; "a"; "b"; "b"; "b"; "b"; "b"; "b"; "b"; "b"; "b"; "b"]%string.
Lemma uneven_run np_sum : summation FA np_sum ->
  nucleus_identities FA 40 25 (map fst uneven) (map fst uneven) (ideal_num_sites FA np_sum uneven 25) (dict_of (map (fun p => (p, 0)) (map fst uneven))) [] = Some (Ok uneven_ids).
Proof. intros SM. unfold ideal_num_sites. rewrite (uneven_sum np_sum SM). vm_compute. reflexivity. Qed.

Lemma C95_ratio_lemma : forall dim sz s buffer rnd ords np_sum, fl_setup dim sz s -> fl_buffer (grid_size dim sz) buffer ->
  (forall t, legal (ords t)) -> summation FA np_sum ->
  exists r, (forall f1 f2, 52 <= Z.of_nat f1 -> 25002 <= Z.of_nat f2 ->
      setup_random_sites FA f1 f2 np_sum rnd ords (Z.of_nat dim) sz 25 "bg" [("a"%string, f_ofZ 7); ("b"%string, f_ofZ 18)] buffer = Some r) /\
    (r = Err RuntimeError \/ exists st, r = Ok (mkSim st s) /\
       Z.of_nat (length (with_phase s st "a")) = 8 /\ Z.of_nat (length (with_phase s st "b")) = 17).
Proof.
  intros dim sz s buffer rnd ords np_sum FG HB LO SM. fold uneven. destruct uneven_ok as [(UQ & NB & _) _].
  destruct (fl_random dim sz s 25 "bg" uneven buffer rnd ords np_sum uneven_ids 40 FG HB ltac:(lia) LO NB ltac:(simpl; lia) (uneven_run np_sum SM) eq_refl)
    as (r & U & H).
  - intros p Hp. unfold uneven_ids in Hp. simpl in Hp |- *. intuition.
  - exists r. split; [intros f1 f2 A B; apply U; auto|]. destruct H as [->|(st & -> & _ & _ & _ & CW)]; auto. right. exists st. split; auto.
    rewrite !CW by discriminate. split; reflexivity.
Qed.
Definition fl_oracle : @nb_oracle b64 := mkOracle (fun l => l) (fun _ => 0%nat).
Lemma fl_oracle_legal : legal fl_oracle.
Proof. split; [intros l; apply Permutation_refl|]. intros l H. destruct l; simpl; [congruence|lia]. Qed.
Definition right_sum : list b64 -> b64 := fold_right (a_add FA) (a_ofZ FA 0).
Lemma right_sum_ok : summation FA right_sum.
Proof. intros l. apply fold_adds_up. Qed.

(** Sites drawn in order on a grid with at least 25 sites. *)
Lemma in_order dim sz s f1 f2 np_sum : 25 <= Z.of_nat (length (sites s None)) -> summation FA np_sum -> fl_setup dim sz s -> 52 <= Z.of_nat f1 -> 25002 <= Z.of_nat f2 ->
  setup_random_sites FA f1 f2 np_sum (fun t => t) (fun _ => fl_oracle) (Z.of_nat dim) sz 25 "bg" uneven None <> Some (Err RuntimeError).
Proof.
  intros NX SM FG Q1 Q2 U. destruct (fl_prepared dim sz s "bg" None FG I) as (L & nbg & _ & _ & _).
  destruct (setup_facts dim sz s FG) as (Hk & FS & _ & EB & L' & BU).
  assert (LI : Z.of_nat (length uneven_ids) = 25) by reflexivity. pose proof (uneven_run np_sum SM) as RUN.
  destruct (plant_identity FA s L' 25 "bg" uneven_ids (fun _ => fl_oracle) BU LI NX 25 0 f2 (fun _ => "bg"%string)) as (g & EG); try lia; auto.
  unfold setup_random_sites in U.
  rewrite EB in U. cbn [bind] in U. unfold setup_solid_phase in U. rewrite blank_layout in U by (apply dense_NoDup, (torus_dense _ s Hk FS)).
  rewrite (identities_mono FA 25 _ _ 40 f1 ltac:(lia) _ _ _ _ RUN) in U. rewrite EG in U. match type of U with Some (Ok ?x) = _ => generalize dependent x end. intros x X. discriminate X.
Qed.
Lemma uneven_a : In ("a"%string, f_ofZ 7) uneven.
Proof. left. reflexivity. Qed.
Lemma C95_ratio_refuted_lemma : exists s st amts np_sum rnd ords, fl_setup 2 (SzInt 5) s /\ fl_amounts "bg" amts /\ summation FA np_sum /\ (forall t, legal (ords t)) /\
  (forall f1 f2, 52 <= Z.of_nat f1 -> 25002 <= Z.of_nat f2 ->
     setup_random_sites FA f1 f2 np_sum rnd ords 2 (SzInt 5) 25 "bg" amts None = Some (Ok (mkSim st s))) /\
  exists p a, In (p, a) amts /\ (IZR (Z.of_nat (length (with_phase s st p))) = IZR 25 * B2R a / total_of amts + 1)%R.
Proof.
  destruct (fl_core 5 5 ltac:(unfold M20; lia) ltac:(unfold M20; lia)) as (s & FG & DE & CT & _).
  assert (FU : fl_setup 2 (SzInt 5) s) by (split; [split; [auto|split; [reflexivity|repeat constructor]]|split; [repeat constructor; discriminate|now apply fl_square_grid]]).
  destruct (C95_ratio_lemma 2 (SzInt 5) s None (fun t => t) (fun _ => fl_oracle) right_sum FU I (fun _ => fl_oracle_legal) right_sum_ok) as (r & U & [->|(st & -> & CA & _)]).
  - exfalso. assert (exists f1 f2, 52 <= Z.of_nat f1 /\ 25002 <= Z.of_nat f2) as (f1 & f2 & Q1 & Q2) by (exists (Z.to_nat 52), (Z.to_nat 25002); split; lia).
    exact (in_order 2 (SzInt 5) s f1 f2 right_sum ltac:(lia) right_sum_ok FU Q1 Q2 (U f1 f2 Q1 Q2)).
  - destruct uneven_ok as [OK TT]. exists s, st, uneven, right_sum, (fun t => t), (fun _ => fl_oracle). split; [exact FU|]. split; [exact OK|]. split; [exact right_sum_ok|]. split; [intros; exact fl_oracle_legal|].
    split; [exact U|]. exists "a"%string, (f_ofZ 7). split; [exact uneven_a|]. rewrite CA, TT, (proj2 (denotes_ofZ 7 ltac:(reflexivity))). lra.
Qed.

(** * Sums that overflow *)
Definition inf64 : b64 := B754_infinity false.
Lemma identities_stuck_gen {F} (A : arith F) n species (ideal : dict string (npnum F)) : 0 < n -> species <> [] ->
  (forall p, In p species -> exists i, dget p ideal = Some i /\ np_below A 0 i = false) ->
  forall fuel rest real ids, incl rest species -> (forall p, In p species -> dget p real = Some 0) -> ids = [] ->
  nucleus_identities A fuel n species rest ideal real ids = None.
Proof.
  intros Hn NE HI. induction fuel as [|fuel IH]; intros rest real ids IR HR ->; cbn [nucleus_identities length Z.of_nat]; replace (0 <? n) with true by lia; auto.
  destruct rest as [|p rest].
  - destruct species as [|p rest] eqn:Es; [congruence|]. destruct (HI p) as (i & Ei & Bi); [simpl; auto|]. rewrite (HR p), Ei, Bi by (simpl; auto).
    apply IH; auto. intros q Hq; simpl; auto.
  - assert (Hp : In p species) by (apply IR; simpl; auto). destruct (HI p Hp) as (i & Ei & Bi). rewrite (HR p Hp), Ei, Bi.
    apply IH; auto. intros q Hq. apply IR. simpl; auto.
Qed.
Lemma div_inf (a : b64) : is_finite a = true -> B2R (f_div a inf64) = 0%R /\ is_finite (f_div a inf64) = true.
Proof. destruct a; try discriminate; intros _; split; reflexivity. Qed.

Lemma C95_overflow_lemma : forall dim sz s k bg amts buffer rnd ords np_sum, fl_setup dim sz s -> fl_buffer (grid_size dim sz) buffer ->
  0 < k < 2 ^ 53 -> uniq amts -> amts <> [] -> (forall p a, In (p, a) amts -> is_finite a = true /\ (0 <= B2R a)%R) -> np_sum (map snd amts) = B754_infinity false ->
  forall f1 f2, setup_random_sites FA f1 f2 np_sum rnd ords (Z.of_nat dim) sz k bg amts buffer = None.
Proof.
  intros dim sz s k bg amts buffer rnd ords np_sum FG HB HK UQ NE NN INF f1 f2. fold inf64 in INF.
  destruct (fl_prepared dim sz s bg buffer FG HB) as (L & nbg & BU & EP & HN). prep EP. rewrite identities_stuck_gen; auto.
  - lia.
  - destruct amts; simpl; congruence.
  - intros p Hp. unfold ideal_num_sites. cbv zeta. match goal with |- context [np_div _ _ ?t] => change t with (np_sum (map snd amts)) end. rewrite INF. apply dget_key_Some in Hp as [a Ea]. pose proof (dget_In _ _ _ Ea) as Ha. destruct (NN p a Ha) as [Fa _].
    exists (Fin (f_mul (f_div a inf64) (f_ofZ k))). split.
    + assert (E : forall r, np_mul FA (np_div FA r inf64) (a_ofZ FA k) = Fin (f_mul (f_div r inf64) (f_ofZ k))) by reflexivity.
      rewrite (map_ext _ _ E), map_map. revert Ea. clear. induction amts as [|[q v] l IH]; simpl; [discriminate|].
      destruct (eqb p q); auto. intros X; injection X as ->. reflexivity.
    + cbn [np_below a_ltb a_ofZ FA]. destruct (div_inf a Fa) as [Z0 F0].
      assert (D : denotes (f_mul (f_div a inf64) (f_ofZ k)) 0) by (apply (den_mul0l _ _ (IZR k)); [split; auto|apply denotes_ofZ; lia]).
      rewrite (denotes_ltb _ _ _ _ den_0 D). apply Rlt_bool_false. lra.
  - intros p Hp; auto.
  - intros p Hp. rewrite dget_dict_of.
    + apply In_dget; [unfold uniq, dkeys; rewrite map_map; cbn [fst]; rewrite map_id; exact UQ|]. apply in_map_iff. exists p. auto.
    + rewrite map_map. cbn [fst]. rewrite map_id. exact UQ.
Qed.

(** Twice two to the 1023. *)
Definition huge : b64 := Bldexp mode_NE (f_ofZ 1) 1023.
Lemma huge_sum l x : adds_up FA l x -> (forall e, In e l -> e = huge) ->
  (length l = 0%nat -> exists sg, x = B754_zero sg) /\ (length l = 1%nat -> x = huge) /\ (length l = 2%nat -> x = inf64).
Proof.
  intros H. induction H as [|x|l1 l2 l x y _ IH1 _ IH2 P]; intros HE.
  - split; [exists false; reflexivity|]. split; discriminate.
  - split; [discriminate|]. split; [intros _; apply HE; simpl; auto|discriminate].
  - assert (HE1 : forall e, In e l1 -> e = huge) by (intros e He; apply HE; eapply Permutation_in; [exact P|apply in_or_app; auto]).
    assert (HE2 : forall e, In e l2 -> e = huge) by (intros e He; apply HE; eapply Permutation_in; [exact P|apply in_or_app; auto]).
    destruct (IH1 HE1) as (A0 & A1 & A2). destruct (IH2 HE2) as (B0 & B1 & B2). apply Permutation_length in P. rewrite app_length in P. rewrite <- P.
    split; [|split]; intros E.
    + destruct A0 as [sa ->]; [lia|]. destruct B0 as [sb ->]; [lia|]. exists (match sa, sb with true, true => true | _, _ => false end). destruct sa, sb; reflexivity.
    + destruct (length l1) as [|[|]] eqn:E1; try lia.
      * destruct A0 as [sa ->]; [lia|]. rewrite B1 by lia. destruct sa; apply B2SF_inj; vm_compute; reflexivity.
      * destruct B0 as [sb ->]; [lia|]. rewrite A1 by lia. destruct sb; apply B2SF_inj; vm_compute; reflexivity.
    + destruct (length l1) as [|[|[|]]] eqn:E1; try lia.
      * destruct A0 as [sa ->]; [lia|]. rewrite B2 by lia. reflexivity.
      * rewrite A1, B1 by lia. apply B2SF_inj. vm_compute. reflexivity.
      * destruct B0 as [sb ->]; [lia|]. rewrite A2 by lia. reflexivity.
Qed.
Lemma huge_val : is_finite huge = true /\ B2R huge = bpow radix2 1023.
Proof. split; [vm_compute; reflexivity|]. rewrite <- (SF2R_B2SF _ _ huge). replace (B2SF huge) with (SpecFloat.S754_finite false 4503599627370496 971) by (vm_compute; reflexivity). cbn [SF2R].
  replace 1023%Z with (52 + 971)%Z by lia. rewrite bpow_plus. unfold F2R. cbn [Fnum Fexp]. f_equal. Qed.

Lemma C95_endless_lemma : forall dim sz s k buffer rnd ords np_sum, fl_setup dim sz s -> fl_buffer (grid_size dim sz) buffer ->
  0 < k < 2 ^ 53 -> summation FA np_sum -> exists amts, uniq amts /\ ~ In "bg"%string (dkeys amts) /\
  (forall p a, In (p, a) amts -> is_finite a = true /\ B2R a = bpow radix2 1023) /\
  forall f1 f2, setup_random_sites FA f1 f2 np_sum rnd ords (Z.of_nat dim) sz k "bg" amts buffer = None.
Proof.
  intros dim sz s k buffer rnd ords np_sum FG HB HK SM. exists [("a"%string, huge); ("b"%string, huge)].
  assert (U : uniq [("a"%string, huge); ("b"%string, huge)]) by (repeat constructor; simpl; intuition discriminate).
  assert (V : forall p a, In (p, a) [("a"%string, huge); ("b"%string, huge)] -> is_finite a = true /\ B2R a = bpow radix2 1023).
  { intros p a [E|[E|[]]]; injection E as _ <-; apply huge_val. }
  split; auto. split; [simpl; intuition discriminate|]. split; auto. intros f1 f2. apply (C95_overflow_lemma dim sz s); auto.
  - discriminate.
  - intros p a H. destruct (V p a H) as [F E]. split; auto. rewrite E. left. apply bpow_gt_0.
  - apply (huge_sum _ _ (SM [huge; huge])); auto. intros e [<-|[<-|[]]]; auto.
Qed.
