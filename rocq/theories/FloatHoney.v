(** Honeycomb tilings in binary64. *)
From Coq Require Import Reals Lra Psatz.
From Flocq Require Import Core BinarySingleNaN.
From Verif Require Import Prelude Dict Arith RealArith FloatArith LatticeModel JsonModel StructModel NbModel GridModel SpecGeom SpecNb SpecGrid SpecHoney SpecFloat64 SpecHoneyFloat
  StructFacts StructMore StructBuild NbFacts NbMore GridFacts HoneyFacts FloatFacts FloatCoord FloatGrid FloatVec FloatAxis FloatBox FloatNorm FloatCut FloatNear FloatInv.
Local Open Scope R_scope.

Ltac nums := unfold ulp_; simpl; lra.

(** * One lattice *)
Section Lat.
  Variable inv : list (list b64) -> res (list (list b64)).
  Notation FI := (FAi inv).
  Variables n m : Z.
  Hypothesis (Hn : (1 <= n <= 2 ^ 20)%Z) (Hm : (1 <= m <= 2 ^ 20)%Z).
  Let N := IZR n. Let M := IZR m. Let s := sqrt 3.

  Lemma NB' : 1 <= N <= T20. Proof. apply (NB n Hn). Qed.
  Lemma MB' : 1 <= M <= T20. Proof. apply (NB m Hm). Qed.

  Definition hexa (L : lattice b64) : Prop := exists v z w h, L = mkLattice [[v; z]; [w; h]] [true; true] [[v; z]; [w; h]] 2 /\
    denotes v N /\ denotes z 0 /\ denotes w (M / 2) /\ times_near 1 h (M * (s / 2)) (M / IZR (2 ^ 49)).

  Lemma cart_hex L f1 f2 X Y e : hexa L -> ap N f1 X e -> ap M f2 Y e -> Rabs X <= 4194304 -> Rabs Y <= 4194304 -> 0 <= e <= / 100 ->
    exists p q, get_cartesian_coords FI L [f1; f2] = Ok [p; q] /\ ap 1 p (X + Y / 2) (2 * e + / T20) /\ ap 1 q (Y * (s / 2)) (2 * e + / T20).
  Proof.
    intros (v & z & w & h & -> & Dv & Dz & Dw & Dh) H1 H2 BX BY He. pose proof NB' as HN. pose proof MB' as HM. pose proof sqrt3_sp as HS. fold s in HS.
    apply ap_iff in Dh. destruct Dh as (y & Dh & Eh). rewrite Rmult_1_l in Eh.
    assert (A1 : ap 1 (f_mul f1 v) (X * 1) (e + / 1073741824)).
    { apply (ap_un N f1 v X N 1 e 0 4194304 1); auto; try lra; try nums; try (rewrite Rabs_R1; lra); rewrite Rmult_1_r, Rminus_diag_eq, Rabs_R0 by auto; lra. }
    assert (A2 : ap 1 (f_mul f2 w) (Y * (1 / 2)) (e + / 1073741824)).
    { apply (ap_un M f2 w Y (M / 2) (1 / 2) e 0 4194304 1); auto; try lra; try nums; try (rewrite Rabs_pos_eq; lra); replace (M / 2 - M * (1 / 2)) with 0 by field; rewrite Rabs_R0; lra. }
    assert (A3 : ap 1 (f_mul f1 z) (X * 0) (/ 1073741824)).
    { apply (ap_un N f1 z X 0 0 e 0 4194304 0); auto; try lra; try nums; try (rewrite Rabs_R0; lra); rewrite Rmult_0_r, Rminus_0_r, Rabs_R0; lra. }
    assert (A4 : ap 1 (f_mul f2 h) (Y * (s / 2)) (e + / 16777216)).
    { apply (ap_un M f2 h Y y (s / 2) e (/ IZR (2 ^ 49)) 4194304 (9 / 10)); auto; try lra; try (rewrite Rabs_pos_eq; lra); simpl; unfold ulp_; lra. }
    pose proof (ap_den _ _ den_0) as Z0. apply Rabs_bnd in BX, BY.
    assert (YS : Rabs (Y * (s / 2)) <= 4194304). { replace 4194304 with (4194304 * 1) by ring. apply Rabs_prod; [apply Rabs_le; lra|rewrite Rabs_pos_eq; lra]. }
    apply Rabs_bnd in YS.
    unfold get_cartesian_coords, vecmat. cbn [l_matrix length Nat.eqb width comb zeros repeat zipwith map a_add a_mul a_ofZ FAi].
    eexists _, _. split; [reflexivity|]. split.
    - apply (ap_eq _ _ (X * 1 + (Y * (1 / 2) + 0))); [|field].
      apply (ap_add 1 _ _ _ _ (e + / 1073741824) (e + / 134217728) 8388608); auto; try lra; try nums; [|apply Rabs_le; lra].
      apply (ap_add 1 _ _ _ _ (e + / 1073741824) 0 4194304); auto; try lra; try nums. apply Rabs_le; lra.
    - apply (ap_eq _ _ (X * 0 + (Y * (s / 2) + 0))); [|ring].
      apply (ap_add 1 _ _ _ _ (/ 1073741824) (e + / 8388608) 8388608); auto; try lra; try nums; [|apply Rabs_le; lra].
      apply (ap_add 1 _ _ _ _ (e + / 16777216) 0 4194304); auto; try lra; try nums. apply Rabs_le; lra.
  Qed.

  Hypothesis AC : accurate n m inv.
  Lemma frac_hex L cx cy x y : hexa L -> denotes cx x -> denotes cy y -> Rabs x <= 2097152 -> Rabs y <= 2097152 ->
    exists f1 f2, get_fractional_coords FI L [cx; cy] = Ok [f1; f2] /\ ap N f1 (x - y / s) (/ T20) /\ ap M f2 (2 * y / s) (/ T20).
  Proof.
    intros (v & z & w & h & -> & Dv & Dz & Dw & Dh) Dx Dy BX BY. pose proof NB' as HN. pose proof MB' as HM. pose proof sqrt3_sp as HS. fold s in HS.
    destruct (AC v z w h Dv Dz Dw Dh) as (a & b & c & d & EI & Ha & Hb & Hc & Hd). fold N M s in Ha, Hb, Hc, Hd. apply ap_iff in Ha, Hb, Hc, Hd.
    assert (IS : 0 < / s <= 1) by (split; [apply Rinv_0_lt_compat; lra|rewrite <- Rinv_1; apply Rinv_le_contravar; lra]).
    pose proof (ap_den _ _ Dx) as Ax. pose proof (ap_den _ _ Dy) as Ay. pose proof (ap_den _ _ den_0) as Z0.
    assert (G : forall K g k C t r B, 1 <= K <= T20 -> ap 1 g t 0 -> Rabs t <= 2097152 -> ap K k C (/ IZR (2 ^ 44)) -> Rabs C <= 2 -> B = t * C -> r = / 4194304 -> ap K (f_mul g k) B r).
    { intros K g k C t r B HK Hg Bt Hk BC -> ->. rewrite <- (Rmult_1_l K). apply (ap_mul 1 K g k t C 0 (/ IZR (2 ^ 44)) 2097152 2); auto; try lra; simpl; unfold ulp_; lra. }
    assert (A1 : ap N (f_mul cx a) x (/ 4194304)) by (eapply (G N cx a 1 x); eauto; [rewrite Rabs_R1; lra|ring]).
    assert (A2 : ap M (f_mul cx b) 0 (/ 4194304)) by (eapply (G M cx b 0 x); eauto; [rewrite Rabs_R0; lra|ring]).
    assert (A3 : ap N (f_mul cy c) (- (y / s)) (/ 4194304)) by (eapply (G N cy c (- / s) y); eauto; [rewrite Rabs_Ropp, Rabs_pos_eq; lra|unfold Rdiv; ring]).
    assert (A4 : ap M (f_mul cy d) (2 * y / s) (/ 4194304)) by (eapply (G M cy d (2 / s) y); eauto; [unfold Rdiv; rewrite Rabs_pos_eq; lra|unfold Rdiv; ring]).
    assert (YS : Rabs (y / s) <= 2097152). { unfold Rdiv. replace 2097152 with (2097152 * 1) by ring. apply Rabs_prod; [auto|rewrite Rabs_pos_eq; lra]. }
    assert (ZN : forall K, ap K (f_ofZ 0) 0 0) by (intros K; exists 0; split; [apply den_0|rewrite Rmult_0_r, Rminus_0_r, Rabs_R0; lra]).
    apply Rabs_bnd in BX, BY, YS.
    unfold get_fractional_coords, inv_matrix. cbn [l_matrix a_inv FAi]. rewrite EI. cbn [bind].
    unfold vecmat. cbn [l_matrix length Nat.eqb width comb zeros repeat zipwith map a_add a_mul a_ofZ FAi].
    eexists _, _. split; [reflexivity|]. split.
    - apply (ap_eq _ _ (x + (- (y / s) + 0))); [|ring].
      apply (ap_add N _ _ _ _ (/ 4194304) (/ 2097152) 8388608); auto; try lra; try nums; [|apply Rabs_le; lra].
      apply (ap_add N _ _ _ _ (/ 4194304) 0 4194304); auto; try lra; try nums. apply Rabs_le; lra.
    - apply (ap_eq _ _ (0 + (2 * y / s + 0))); [|ring]. assert (ES : 2 * y / s = 2 * (y / s)) by (unfold Rdiv; ring).
      apply (ap_add M _ _ _ _ (/ 4194304) (/ 2097152) 8388608); auto; try lra; try nums; [|apply Rabs_le; lra].
      apply (ap_add M _ _ _ _ (/ 4194304) 0 4194304); auto; try lra; try nums. apply Rabs_le; lra.
  Qed.
End Lat.

(** Rounding to three places. *)
Lemma round_ap inv u X e : ap 1 u X e -> Rabs X <= 4194304 -> 0 <= e <= 1 -> ap 1 (roundk (FAi inv) 1000 u) X (e + 501 / 1000000).
Proof.
  intros (y & D & H) BX He. rewrite Rmult_1_l in H. apply Rabs_bnd in H, BX.
  assert (B1 : Rabs (y * 1000) <= 4194305000) by (apply Rabs_le; lra).
  set (z := ZnearestE (rnd (y * 1000))).
  assert (R1 : Rabs (rnd (y * 1000) - y * 1000) <= / 10000) by (apply (rnd_close _ _ _ B1); [simpl; lra|unfold ulp_; simpl; lra]).
  assert (R2 : Rabs (rnd (y * 1000) - IZR z) <= / 2) by apply Znearest_half. apply Rabs_bnd in R1, R2, B1.
  assert (Bz : Rabs (IZR z) <= 4194306000) by (apply Rabs_le; lra).
  assert (Bz' : (Z.abs z <= 2 ^ 41)%Z). { apply le_IZR. rewrite abs_IZR. eapply Rle_trans; [exact Bz|]. simpl; lra. }
  exists (rnd (IZR z / 1000)). split; [apply (round_milli u y z D); auto; apply Rabs_le; lra|].
  apply Rabs_bnd in Bz. assert (B2 : Rabs (IZR z / 1000) <= 4194306) by (apply Rabs_le; lra).
  assert (R3 : Rabs (rnd (IZR z / 1000) - IZR z / 1000) <= / 10000000) by (apply (rnd_close _ _ _ B2); [simpl; lra|unfold ulp_; simpl; lra]).
  apply Rabs_bnd in R3. rewrite Rmult_1_l. apply Rabs_le. lra.
Qed.

(** * The tiling *)
Section Tiling.
  Variable inv : list (list b64) -> res (list (list b64)).
  Notation FI := (FAi inv).
  Variables n m : Z.
  Hypothesis (Hn : (3 <= n <= 2 ^ 20)%Z) (Hm : (3 <= m <= 2 ^ 20)%Z).
  Hypothesis AC : accurate n m inv.
  Let N := IZR n. Let M := IZR m. Let s := sqrt 3.
  Definition cx (i j : Z) : R := IZR i + IZR j / 2 + 3 / 4.
  Definition cy (j : Z) : R := (IZR j + 1 / 2) * (s / 2).
  Local Notation r51 := (51 / 100000).

  Lemma n1 : (1 <= n <= 2 ^ 20)%Z. Proof. lia. Qed.
  Lemma m1 : (1 <= m <= 2 ^ 20)%Z. Proof. lia. Qed.
  Lemma ij_bounds i j : (0 <= i < n)%Z -> (0 <= j < m)%Z -> 0 <= IZR i <= N - 1 /\ 0 <= IZR j <= M - 1 /\ N <= T20 /\ M <= T20 /\ 3 <= N /\ 3 <= M.
  Proof.
    intros Hi Hj. unfold N, M. rewrite <- !minus_IZR. repeat split; try (apply IZR_le; lia); try (apply (IZR_le _ (2 ^ 20)); lia).
  Qed.
  Lemma cy_bound i j : (0 <= i < n)%Z -> (0 <= j < m)%Z -> 0 <= cx i j <= 1600000 /\ 0 <= cy j <= 1048576.
  Proof.
    intros Hi Hj. destruct (ij_bounds i j Hi Hj) as (A & B & C & D & _). pose proof sqrt3_sp as HS. fold s in HS. unfold cx, cy. split; [lra|]. split; [apply Rmult_le_pos; lra|].
    apply Rle_trans with ((IZR j + 1 / 2) * 1); [apply Rmult_le_compat_l; lra|lra].
  Qed.

  (** The sides of the cell. *)
  Lemma den_half : denotes (half FI) (/ 2).
  Proof.
    replace (/ 2) with (rnd (1 / 2)).
    - apply denotes_div; [apply den_1|apply denotes_ofZ; reflexivity|lra|]. apply small_big. rewrite Rabs_pos_eq by lra. simpl. lra.
    - unfold rnd. rewrite round_generic; [lra|auto with typeclass_instances|]. apply generic_format_FLT. exists (Float radix2 1 (-1)); [unfold F2R; simpl; lra|reflexivity|simpl; lia].
  Qed.
  Lemma den_side : exists t, denotes (f_div (f_mul (f_sqrt (f_ofZ 3)) (f_ofZ 1)) (f_ofZ 2)) t /\ Rabs (t - s / 2) <= / 1125899906842624.
  Proof.
    pose proof sqrt3_sp as HS. fold s in HS.
    pose proof (denotes_sqrt _ _ (denotes_ofZ 3 eq_refl) ltac:(lra)) as D1. fold s in D1.
    assert (E1 : Rabs (rnd s - s) <= / 2251799813685248). { apply (rnd_close _ 2); [rewrite Rabs_pos_eq; lra|simpl; lra|unfold ulp_; simpl; lra]. }
    assert (B1 : 1.7 <= rnd s <= 1.8) by (apply Rabs_bnd in E1; lra).
    pose proof (den_mul1r _ _ _ D1 den_1 (rnd_idem s) ltac:(apply small_big; rewrite Rabs_pos_eq; simpl; lra)) as D2.
    exists (rnd (rnd s / 2)). split.
    - apply denotes_div; [exact D2|apply denotes_ofZ; reflexivity|lra|]. apply small_big. rewrite Rabs_pos_eq by lra. simpl. lra.
    - assert (E2 : Rabs (rnd (rnd s / 2) - rnd s / 2) <= / 4503599627370496). { apply (rnd_close _ 1); [rewrite Rabs_pos_eq; lra|simpl; lra|unfold ulp_; simpl; lra]. }
      apply Rabs_bnd in E1, E2. apply Rabs_le.  lra.
  Qed.
  Definition baseL : lattice b64 := let V := [[f_ofZ 1; f_ofZ 0]; [half FI; f_div (f_mul (f_sqrt (f_ofZ 3)) (f_ofZ 1)) (f_ofZ 2)]] in mkLattice V [true; true] V 2.
  Lemma base_hexa : hexa 1 1 baseL.
  Proof.
    destruct den_side as (t & Dt & Et). eexists _, _, _, _. split; [reflexivity|]. split; [apply den_1|]. split; [apply den_0|]. split.
    - replace (1 / 2) with (/ 2) by lra. apply den_half.
    - apply ap_iff. exists t. split; auto. fold s. rewrite !Rmult_1_l. eapply Rle_trans; [exact Et|]. simpl. lra.
  Qed.
  Lemma builder_eq : HoneycombTilingBuilder FI = Ok (mkBuilder baseL (MDict [("A"%string, [[half FI; half FI]])]) true).
  Proof. reflexivity. Qed.
  Lemma scaled_hexa : exists L, get_scaled_lattice FI baseL [n; m] = Ok L /\ hexa n m L.
  Proof.
    destruct den_side as (t & Dt & Et). pose proof sqrt3_sp as HS. fold s in HS.
    unfold get_scaled_lattice, baseL. cbn [l_vecs l_periodic zipwith map]. eexists. split; [reflexivity|].
    assert (Nn : denotes (f_ofZ n) N) by (apply denotes_ofZ; lia). assert (Nm : denotes (f_ofZ m) M) by (apply denotes_ofZ; lia).
    assert (BN : 3 <= N <= T20) by (unfold N; split; [apply (IZR_le 3)|apply (IZR_le _ (2 ^ 20))]; lia).
    assert (BM : 3 <= M <= T20) by (unfold M; split; [apply (IZR_le 3)|apply (IZR_le _ (2 ^ 20))]; lia).
    eexists _, _, _, _. split; [reflexivity|]. fold N M. split; [|split; [|split]].
    - apply den_mul1l; auto using den_1; [apply rnd_IZR; lia|apply IZR_big; lia].
    - apply (den_mul0l _ _ _ den_0 Nn).
    - replace (M / 2) with (rnd (/ 2 * M)).
      + apply denotes_mul; auto; [apply den_half|]. apply small_big. rewrite Rabs_pos_eq by lra. simpl. lra.
      + unfold rnd. rewrite round_generic; [lra|auto with typeclass_instances|]. apply generic_format_FLT. exists (Float radix2 m (-1)); [unfold F2R, M; simpl; lra|simpl; lia|simpl; lia].
    - apply ap_iff. apply ap_weak with (M * / 1125899906842624 + M * / 4503599627370496); [|simpl; lra]. exists (rnd (t * M)). split.
      + apply denotes_mul; auto. apply small_big. apply Rabs_bnd in Et. rewrite Rabs_pos_eq; [|apply Rmult_le_pos; lra]. apply Rle_trans with (1 * T20); [apply Rmult_le_compat; lra|simpl; lra].
      + fold s. rewrite Rmult_1_l. pose proof (rnd_error (t * M)) as E. pose proof eta_small as [_ E2].
        assert (T1 : 0 <= t <= 1) by (apply Rabs_bnd in Et; lra).
        assert (PT : 0 <= t * M <= M) by (split; [apply Rmult_le_pos; lra|rewrite <- (Rmult_1_l M) at 2; apply Rmult_le_compat_r; lra]).
        rewrite (Rabs_pos_eq (t * M)) in E by lra.
        replace (rnd (t * M) - M * (s / 2)) with ((M * (t - s / 2)) + (rnd (t * M) - t * M)) by ring. apply Rabs_sum.
        * rewrite Rabs_mult, (Rabs_pos_eq M) by lra. apply Rmult_le_compat_l; lra.
        * eapply Rle_trans; [exact E|]. unfold ulp_. revert E2. simpl. lra.
  Qed.

  (** Where the builder puts a cell. *)
  Lemma loc_hex i j : (0 <= i < n)%Z -> (0 <= j < m)%Z -> exists p q, motif_loc FI baseL true [i; j] [half FI; half FI] = Ok [p; q] /\
    ap 1 p (cx i j) (/ 524288) /\ ap 1 q (cy j) (/ 524288).
  Proof.
    intros Hi Hj. destruct (ij_bounds i j Hi Hj) as (Bi & Bj & CN & CM & _). pose proof (ap_den _ _ den_half) as AH.
    assert (Ai : ap 1 (f_ofZ i) (IZR i) 0) by (apply ap_den, denotes_ofZ; lia). assert (Aj : ap 1 (f_ofZ j) (IZR j) 0) by (apply ap_den, denotes_ofZ; lia).
    assert (A1 : ap 1 (f_add (f_ofZ i) (half FI)) (IZR i + / 2) (/ 1073741824)) by (apply (ap_add 1 _ _ _ _ 0 0 2097152); auto; try lra; try nums; rewrite Rabs_pos_eq; lra).
    assert (A2 : ap 1 (f_add (f_ofZ j) (half FI)) (IZR j + / 2) (/ 1073741824)) by (apply (ap_add 1 _ _ _ _ 0 0 2097152); auto; try lra; try nums; rewrite Rabs_pos_eq; lra).
    unfold motif_loc, bcast. cbn [map bind length Nat.eqb zipwith a_ofZ a_add FAi].
    destruct (cart_hex inv 1 1 ltac:(lia) ltac:(lia) baseL _ _ _ _ _ base_hexa A1 A2) as (p & q & E & P & Q); try (rewrite Rabs_pos_eq; lra); try lra.
    exists p, q. split; [exact E|]. split.
    - apply ap_weak with (2 * / 1073741824 + / T20); [|lra]. apply (ap_eq _ _ _ _ _ P). unfold cx. field.
    - apply ap_weak with (2 * / 1073741824 + / T20); [|lra]. apply (ap_eq _ _ _ _ _ Q). unfold cy, s. field.
  Qed.

  (** Taking a point of the cell into the cell does not move it. *)
  Lemma per_hex L p q i j : hexa n m L -> (0 <= i < n)%Z -> (0 <= j < m)%Z -> ap 1 p (cx i j) (/ 524288) -> ap 1 q (cy j) (/ 524288) ->
    exists u v, get_periodized_cartesian_coords FI L [p; q] = Ok [u; v] /\ ap 1 u (cx i j) (/ 131072) /\ ap 1 v (cy j) (/ 131072).
  Proof.
    intros HL Hi Hj (x & Dx & Ex) (y & Dy & Ey). rewrite Rmult_1_l in Ex, Ey. destruct (ij_bounds i j Hi Hj) as (Bi & Bj & CN & CM & N3 & M3).
    destruct (cy_bound i j Hi Hj) as [BX BY]. pose proof sqrt3_sp as HS. fold s in HS. assert (Sne : s <> 0) by lra.
    apply Rabs_bnd in Ex, Ey.
    destruct (frac_hex inv n m n1 m1 AC L p q x y HL Dx Dy) as (f1 & f2 & EF & A1 & A2); try (apply Rabs_le; lra). fold N M s in A1, A2.
    set (Y := y / s) in *. assert (EY : y = Y * s) by (unfold Y; field; auto).
    replace (2 * y / s) with (2 * Y) in A2 by (unfold Y; field; auto).
    assert (YB : Rabs (Y - (IZR j + 1 / 2) / 2) <= / 524288).
    { replace (Y - (IZR j + 1 / 2) / 2) with ((y - cy j) * / s) by (unfold Y, cy; field; auto).
      apply Rle_trans with (/ 524288 * 1); [|lra]. apply Rabs_prod; [apply Rabs_le; lra|]. rewrite Rabs_pos_eq by (left; apply Rinv_0_lt_compat; lra). rewrite <- Rinv_1. apply Rinv_le_contravar; lra. }
    apply Rabs_bnd in YB.
    destruct A1 as (t1 & D1 & E1). destruct A2 as (t2 & D2 & E2). apply Rabs_bnd in E1, E2. unfold cx in Ex.
    assert (F1 : Zfloor t1 = 0%Z). { apply Zfloor_imp. simpl. assert (0 < t1 < 1); [|lra]. split; apply Rmult_lt_reg_l with N; lra. }
    assert (F2 : Zfloor t2 = 0%Z). { apply Zfloor_imp. simpl. assert (0 < t2 < 1); [|lra]. split; apply Rmult_lt_reg_l with M; lra. }
    assert (B1 : Rabs t1 <= 1). { pose proof (Zfloor_lb t1) as LB; pose proof (Zfloor_ub t1) as UB; rewrite F1 in LB, UB; simpl in LB, UB; apply Rabs_le; lra. }
    assert (B2 : Rabs t2 <= 1). { pose proof (Zfloor_lb t2) as LB; pose proof (Zfloor_ub t2) as UB; rewrite F2 in LB, UB; simpl in LB, UB; apply Rabs_le; lra. }
    assert (KEEP : forall f t, denotes f t -> Zfloor t = 0%Z -> Rabs t <= 1 -> denotes (f_sub f (f_mul (f_floor f) (f_ofZ 1))) t).
    { intros f t D F B. pose proof (denotes_floor _ _ D) as DF. rewrite F in DF.
      apply den_sub0; auto; [apply (den_mul0l _ _ _ DF den_1)|now apply den_fix with f|apply T60_big; lra]. }
    pose proof (KEEP f1 t1 D1 F1 B1) as G1. pose proof (KEEP f2 t2 D2 F2 B2) as G2.
    unfold get_periodized_cartesian_coords. rewrite EF. cbn [bind].
    assert (LP : l_periodic L = [true; true]) by (destruct HL as (? & ? & ? & ? & -> & _); reflexivity). rewrite LP.
    unfold periodize, bcast. cbn [length map Nat.eqb zipwith bind of_bool a_floor a_mul a_sub a_ofZ FAi].
    set (g1 := f_sub f1 _) in *. set (g2 := f_sub f2 _) in *.
    assert (C1 : ap N g1 (x - Y) (/ T20)) by (exists t1; split; [exact G1|]; apply Rabs_le; lra).
    assert (C2 : ap M g2 (2 * Y) (/ T20)) by (exists t2; split; [exact G2|]; apply Rabs_le; lra).
    destruct (cart_hex inv n m n1 m1 L g1 g2 (x - Y) (2 * Y) (/ T20) HL C1 C2) as (u & v & E & U & V); try (apply Rabs_le; lra); try lra.
    fold s in V. exists u, v. split; [exact E|]. split.
    - apply (ap_shift _ _ _ _ _ (/ 524288) _ U); [|lra]. apply Rabs_le. unfold cx. lra.
    - apply (ap_shift _ _ _ _ _ (/ 524288) _ V); [|lra]. apply Rabs_le. replace (2 * Y * (s / 2)) with y by (rewrite EY; field). lra.
  Qed.

  (** What is stored for the cell [i; j]. *)
  Definition hgood (c : list Z) (e : string * list b64 * list b64) : Prop :=
    exists i j u v k1 k2, c = [i; j] /\ e = ("A"%string, [u; v], [k1; k2]) /\ (0 <= i < n)%Z /\ (0 <= j < m)%Z /\
      ap 1 (roundk FI 1000 u) (cx i j) r51 /\ ap 1 (roundk FI 1000 v) (cy j) r51 /\
      ap 1 k1 (cx i j + 1 / 1000) r51 /\ ap 1 k2 (cy j + 1 / 1000) r51.
  Lemma key_place k X : ap 1 k X (/ 131072) -> Rabs X <= 2097152 -> ap 1 (roundk FI 1000 (f_add k (VEC_OFFSET FI))) (X + 1 / 1000) r51.
  Proof.
    intros H BX. assert (AO : ap 1 (VEC_OFFSET FI) (1 / 1000) (/ 1073741824)).
    { exists (rnd (1 / 1000)). split; [apply den_offset|]. rewrite Rmult_1_l. apply (rnd_close _ 1); [rewrite Rabs_pos_eq; lra|simpl; lra|nums]. }
    apply Rabs_bnd in BX. apply ap_weak with (/ 131072 + / 268435456 + 501 / 1000000); [|lra]. apply round_ap; [|apply Rabs_le; lra|lra].
    apply (ap_add 1 _ _ _ _ (/ 131072) (/ 1073741824) 2097153); auto; try lra; try nums. apply Rabs_le; lra.
  Qed.
  Lemma transformed_hex L h S p q i j : hexa n m L -> Inv FI L h S -> (0 <= i < n)%Z -> (0 <= j < m)%Z -> ap 1 p (cx i j) (/ 524288) -> ap 1 q (cy j) (/ 524288) ->
    exists u v k1 k2, get_periodized_cartesian_coords FI L [p; q] = Ok [u; v] /\ transformed_coords FI S [p; q] = Ok [k1; k2] /\
      ap 1 (roundk FI 1000 u) (cx i j) r51 /\ ap 1 (roundk FI 1000 v) (cy j) r51 /\ ap 1 k1 (cx i j + 1 / 1000) r51 /\ ap 1 k2 (cy j + 1 / 1000) r51.
  Proof.
    intros HL I Hi Hj P Q. destruct (per_hex L p q i j HL Hi Hj P Q) as (u & v & E & U & V). destruct (cy_bound i j Hi Hj) as [BX BY].
    exists u, v. eexists _, _. split; auto. split.
    { rewrite (transformed_eq FI L h S _ _ I E). destruct HL as (v0 & z0 & w0 & h0 & -> & _). cbn [l_dim repeat].
      unfold bcast. cbn [length Nat.eqb zipwith bind get_rounded_coords map]. reflexivity. }
    split; [|split; [|split]].
    - apply ap_weak with (/ 131072 + 501 / 1000000); [|lra]. apply round_ap; auto; [apply Rabs_le; lra|lra].
    - apply ap_weak with (/ 131072 + 501 / 1000000); [|lra]. apply round_ap; auto; [apply Rabs_le; lra|lra].
    - apply key_place; auto. apply Rabs_le; lra.
    - apply key_place; auto. apply Rabs_le; lra.
  Qed.
  Lemma centres_apart i j i' j' : Rabs (cx i j - cx i' j') <= / 2 -> Rabs (cy j - cy j') <= / 2 -> i = i' /\ j = j'.
  Proof.
    intros H1 H2. apply Rabs_bnd in H1, H2. unfold cx, cy in *. pose proof sqrt3_sp as HS. fold s in HS.
    assert (J : j = j').
    { destruct (Z.lt_trichotomy j j') as [T|[T|T]]; auto; exfalso.
      - assert (T' : (j + 1 <= j')%Z) by lia. apply IZR_le in T'. rewrite plus_IZR in T'. nra.
      - assert (T' : (j' + 1 <= j)%Z) by lia. apply IZR_le in T'. rewrite plus_IZR in T'. nra. }
    subst j'. split; auto. assert (L1 : IZR i < IZR (i' + 1)) by (rewrite plus_IZR; lra). assert (L2 : IZR i' < IZR (i + 1)) by (rewrite plus_IZR; lra).
    apply lt_IZR in L1, L2. lia.
  Qed.
  Lemma key_apart k1 k2 a b i j i' j' : ap 1 k1 (cx i j + 1 / 1000) r51 -> ap 1 k2 (cy j + 1 / 1000) r51 -> ap 1 a (cx i' j' + 1 / 1000) r51 -> ap 1 b (cy j' + 1 / 1000) r51 ->
    vec_eqb FI [a; b] [k1; k2] = true -> i = i' /\ j = j'.
  Proof.
    intros (x1 & D1 & E1) (x2 & D2 & E2) (y1 & Da & Ea) (y2 & Db & Eb). unfold vec_eqb. cbn [list_eqb a_eqb FAi].
    assert (Eq1 : @eqb b64 f_eqb a k1 = Req_bool y1 x1) by (apply (denotes_eqb _ _ _ _ Da D1)).
    assert (Eq2 : @eqb b64 f_eqb b k2 = Req_bool y2 x2) by (apply (denotes_eqb _ _ _ _ Db D2)).
    rewrite Eq1, Eq2. intros H. apply Bool.andb_true_iff in H as [T1 H]. apply Bool.andb_true_iff in H as [T2 _].
    revert T1 T2. case Req_bool_spec; [|discriminate]. intros T1 _. case Req_bool_spec; [|discriminate]. intros T2 _. subst y1 y2.
    apply Rabs_bnd in E1, E2, Ea, Eb. apply centres_apart; apply Rabs_le; lra.
  Qed.
  Lemma look_hex cs h a b i j : Forall2 hgood cs h -> ap 1 a (cx i j + 1 / 1000) r51 -> ap 1 b (cy j + 1 / 1000) r51 -> ~ In [i; j] cs -> forall st,
    @dget _ _ (Eqb_vec FI) [a; b] (map (fun x : Z * (string * list b64 * list b64) => (snd (snd x), fst x)) (enumerate_from st h)) = None.
  Proof.
    intros G Ha Hb. induction G as [|c e cs h Gc G IH]; intros ND st; auto.
    destruct Gc as (i' & j' & u & v & k1 & k2 & -> & -> & _ & _ & _ & _ & K1 & K2). cbn [enumerate_from map dget fst snd].
    destruct (@eqb (list b64) (Eqb_vec FI) [a; b] [k1; k2]) eqn:E.
    - exfalso. apply ND. left. destruct (key_apart k1 k2 a b i' j' i j K1 K2 Ha Hb E) as [-> ->]. reflexivity.
    - apply IH; auto. intros X. apply ND. simpl; auto.
  Qed.
  Lemma add_hex L h S done i j p q : hexa n m L -> Inv FI L h S -> Forall2 hgood done h -> ~ In [i; j] done -> (0 <= i < n)%Z -> (0 <= j < m)%Z ->
    ap 1 p (cx i j) (/ 524288) -> ap 1 q (cy j) (/ 524288) ->
    exists S' e, add_site_or_raise FI S ("A"%string, [p; q]) = Ok S' /\ Inv FI L (h ++ [e]) S' /\ hgood [i; j] e.
  Proof.
    intros HL I G ND Hi Hj P Q.
    destruct (transformed_hex L h S p q i j HL I Hi Hj P Q) as (u & v & k1 & k2 & E & T & L1 & L2 & K1 & K2).
    destruct (add_site_cases FI L h S "A" [p; q] I) as [(e & X & _)|[(x & e & _ & T' & _)|[(x & k & y & _ & T' & D & _)|(x & k & S' & X & T' & D & EA & I')]]].
    - congruence.
    - congruence.
    - exfalso. assert (k = [k1; k2]) by congruence. subst k. destruct I as (_ & _ & _ & _ & EL). rewrite EL in D.
      unfold enumerate in D. rewrite (look_hex done h k1 k2 i j) in D; auto. discriminate.
    - exists S', ("A"%string, x, k). unfold add_site_or_raise. cbn [fst snd]. rewrite EA. split; auto. split; auto.
      assert (x = [u; v]) by congruence. assert (k = [k1; k2]) by congruence. subst. exists i, j, u, v, k1, k2. auto 12.
  Qed.
  Lemma fold_hex L : hexa n m L -> forall cs done h S, Inv FI L h S -> Forall2 hgood done h -> NoDup (done ++ cs) -> incl cs (cells [n; m]) ->
    exists S' h', foldM (fun s coeffs => foldM (fun s cv => foldM (fun s vec => do loc <- motif_loc FI baseL true coeffs vec; add_site_or_raise FI s (fst cv, loc)) (snd cv) s)
                    [("A"%string, [[half FI; half FI]])] s) cs S = Ok S' /\ Inv FI L h' S' /\ Forall2 hgood (done ++ cs) h'.
  Proof.
    intros HL. induction cs as [|c cs IH]; intros done h S I G ND IN.
    - exists S, h. rewrite app_nil_r. auto.
    - destruct (hex_cells n m c) as (i & j & -> & Hi & Hj); [apply IN; simpl; auto|].
      destruct (loc_hex i j Hi Hj) as (p & q & EL & P & Q).
      assert (NI : ~ In [i; j] done).
      { apply NoDup_remove_2 in ND. intros X. apply ND. apply in_or_app. auto. }
      destruct (add_hex L h S done i j p q HL I G NI Hi Hj P Q) as (S' & e & EA & I' & Ge).
      replace (done ++ [i; j] :: cs) with ((done ++ [[i; j]]) ++ cs) in * by (now rewrite <- app_assoc).
      destruct (IH (done ++ [[i; j]]) (h ++ [e]) S' I') as (S'' & h'' & EF & I'' & G''); auto.
      + apply Forall2_app; auto.
      + intros x Hx. apply IN. simpl; auto.
      + exists S'', h''. cbn [foldM fst snd] in *. rewrite EL. cbn [bind]. rewrite EA. cbn [bind]. auto.
  Qed.
  Record hex_struct (S : structure b64) : Prop := {
    hs_lat : hexa n m (p_lattice S);
    hs_dense : dense S;
    hs_count : Z.of_nat (length (sites S None)) = (n * m)%Z;
    hs_site : forall i j, (0 <= i < n)%Z -> (0 <= j < m)%Z -> exists u v, get_site S (i * m + j) = Some (mkSite "A" [u; v] (i * m + j)) /\ ap 1 u (cx i j) r51 /\ ap 1 v (cy j) r51;
    hs_all : forall k x, get_site S k = Some x -> exists i j, (0 <= i < n)%Z /\ (0 <= j < m)%Z /\ k = (i * m + j)%Z;
    hs_in : forall x, In x (sites S None) <-> get_site S (s_id x) = Some x
  }.
  Lemma hex_built : exists S, fl_honeycomb inv n m S /\ hex_struct S.
  Proof.
    destruct scaled_hexa as (L & EL & HL). pose proof (size_pos n m ltac:(lia) ltac:(lia)) as Pk.
    destruct (fold_hex L HL (cells [n; m]) [] [] (struct_init L)) as (S & h & EF & I & G); auto using incl_refl.
    { apply Inv_init. }
    { apply (cells_NoDup [n; m]). }
    exists S. split.
    { eexists. split; [apply builder_eq|]. unfold build. cbn [b_lattice b_motif b_frac baseL l_dim length Nat.eqb negb]. unfold build_from. rewrite EL. cbn [bind].
      replace (l_dim L) with (length [n; m]) by (destruct HL as (? & ? & ? & ? & -> & _); reflexivity). rewrite box_cells. exact EF. }
    cbn [app] in G. assert (LH : length h = length (cells [n; m])) by (symmetry; clear -G; induction G; simpl; auto).
    assert (CNT : Z.of_nat (length (sites S None)) = (n * m)%Z).
    { rewrite (sites_list FI L h S I), map_length. unfold enumerate. rewrite enumerate_from_length, LH, (cells_count _ Pk). cbn [fold_right]. lia. }
    pose proof (inv_dense FI L h S I) as DS.
    assert (INX : forall x, In x (sites S None) <-> get_site S (s_id x) = Some x).
    { intros x. rewrite (inv_get_site FI L h S (s_id x) x I). tauto. }
    constructor; auto.
    - destruct I as (-> & _). exact HL.
    - intros i j Hi Hj. pose proof (hex_cells_in n m i j Hi Hj) as HC. pose proof (cells_nth [n; m] _ Pk HC) as NT. pose proof (rank_bound _ _ HC) as RB.
      assert (ER : rank [n; m] [i; j] = (i * m + j)%Z) by (cbn [rank fold_right]; lia).
      assert (GE : exists e, nth_error h (Z.to_nat (rank [n; m] [i; j])) = Some e /\ hgood [i; j] e).
      { clear -G NT. revert NT. generalize (Z.to_nat (rank [n; m] [i; j])). induction G as [|c' e cs h Gc G IH]; intros p E; [destruct p; discriminate|].
        destruct p; simpl in *; [injection E as ->; eauto|eauto]. }
      destruct GE as (e & Ee & (i' & j' & u & v & k1 & k2 & EC & -> & _ & _ & U & V & _)). injection EC as <- <-.
      pose proof (get_site_nth FI L h S (Z.to_nat (rank [n; m] [i; j])) I) as GN. rewrite Ee in GN. cbn [option_map fst snd get_rounded_coords map] in GN.
      rewrite Z2Nat.id, ER in GN by lia. eexists _, _. split; [exact GN|]. auto.
    - intros k x Gk. apply (inv_get_site FI L h S k x I) in Gk as [Hx <-]. pose proof (dense_id S x DS Hx) as RB. rewrite CNT in RB.
      exists (s_id x / m)%Z, (s_id x mod m)%Z. pose proof (Z.mod_pos_bound (s_id x) m ltac:(lia)). pose proof (Z.div_mod (s_id x) m ltac:(lia)).
      split; [split; [apply Z.div_pos; lia|apply Z.div_lt_upper_bound; lia]|]. split; [lia|]. lia.
  Qed.

  (** * Distances *)
  Lemma sq_sum a b : Rabs a <= 2097152 -> Rabs b <= 2097152 -> a * a + b * b <= 4194300 * 4194300.
  Proof. intros H1 H2. apply Rabs_bnd in H1, H2. nra. Qed.
  Lemma length_near (c : list b64) x y X Y e : Forall2 denotes c [x; y] -> Rabs (x - X) <= e -> Rabs (y - Y) <= e -> Rabs x <= 4194304 -> Rabs y <= 4194304 -> 0 <= e <= 2 / 1000 ->
    exists t, denotes (norm FI c) t /\ 0 <= t /\ Rabs (t - sqrt (X * X + Y * Y)) <= 2 * e + / 1000000.
  Proof.
    intros HV HX HY Bx By He.
    destruct (dot_float c [x; y] HV ltac:(auto) ltac:(simpl; lia)) as (q & Dq & Pq & Eq).
    assert (CL : Rabs (sqrt (sumsq [x; y]) - sqrt (sumsq [X; Y])) <= INR (length [x; y]) * e) by (apply sumsq_close; auto).
    cbn [length] in CL, Eq. replace (INR 2) with 2 in CL, Eq by (simpl; lra).
    replace (sumsq [X; Y]) with (X * X + Y * Y) in CL by (simpl; ring).
    set (Q := sumsq [x; y]) in *. assert (PQ : 0 <= Q) by apply sumsq_nonneg.
    assert (BQ : Q <= 2 * 17592186044416).
    { unfold Q. cbn [sumsq]. apply Rabs_bnd in Bx, By. nra. }
    assert (RQ : sqrt Q <= 8388608). { rewrite <- (sqrt_square 8388608) by lra. apply sqrt_le_1_alt. lra. }
    assert (R0 : 0 <= sqrt Q) by apply sqrt_pos. assert (PU : 0 < ulp_) by (unfold ulp_; lra). assert (PE : 0 < eta_) by (unfold eta_; simpl; lra).
    assert (SN : Rabs (sqrt q - sqrt Q) <= (12 * ulp_) * sqrt Q + / IZR (2 ^ 90)).
    { apply (sqrt_near q Q (12 * ulp_) (/ IZR (2 ^ 90)) (12 * eta_)); auto; try lra.
      - unfold eta_. simpl; lra.
      - eapply Rle_trans; [exact Eq|]. apply Rplus_le_compat; [apply Rmult_le_compat_r; auto; nra|lra]. }
    pose proof (denotes_sqrt _ _ Dq Pq) as Dy. exists (rnd (sqrt q)). split; [exact Dy|].
    split; [rewrite <- rnd_0; apply rnd_le, sqrt_pos|].
    assert (U8 : 12 * ulp_ * sqrt Q <= / 10000000) by (unfold ulp_; lra). assert (T90 : / IZR (2 ^ 90) <= / 10000000) by (simpl; lra).
    apply Rabs_bnd in SN, CL. assert (Bq : Rabs (sqrt q) <= 8388609) by (apply Rabs_le; lra).
    assert (R1 : Rabs (rnd (sqrt q) - sqrt q) <= / 10000000) by (apply (rnd_close _ _ _ Bq); [simpl; lra|unfold ulp_; simpl; lra]).
    apply Rabs_bnd in R1. apply Rabs_le. lra.
  Qed.

  (** One reduced fractional difference. *)
  Lemma reduced K f f' X X' : 3 <= K <= T20 -> ap K f X (/ T20) -> ap K f' X' (/ T20) -> Rabs (X - X') <= 4194304 ->
    exists z : Z, ap K (f_sub (f_sub f f') (f_mul (f_rint (f_sub f f')) (f_ofZ 1))) (X - X' - K * IZR z) (/ 131072) /\ (exists w, Rabs (w - (X - X')) <= / 262144 /\ Rabs (w - K * IZR z) <= K / 2) /\ Rabs (X - X' - K * IZR z) <= 1048576.
  Proof.
    intros HK Hf Hf' B.
    assert (D : ap K (f_sub f f') (X - X') (/ 262144)) by (apply (ap_sub K _ _ _ _ (/ T20) (/ T20) 4194304); auto; try lra; nums).
    destruct D as (t & Dt & Et). exists (ZnearestE t).
    pose proof (Znearest_half (fun x => negb (Z.even x)) t) as ZH. fold (ZnearestE t) in ZH. set (z := ZnearestE t) in *.
    apply Rabs_bnd in Et, B, ZH. assert (Bt : Rabs t <= 4194305). { apply (scale_le K); [lra|]. apply Rabs_le. lra. }
    apply Rabs_bnd in Bt. assert (Bz : (Z.abs z <= 2 ^ 23)%Z). { apply le_IZR. rewrite abs_IZR. apply Rabs_le. simpl. lra. }
    assert (Dz : denotes (f_mul (f_rint (f_sub f f')) (f_ofZ 1)) (IZR z)).
    { apply den_mul1r; [now apply denotes_rint|apply den_1|apply rnd_IZR; lia|apply IZR_big; lia]. }
    assert (KH : Rabs (K * t - K * IZR z) <= K / 2). { replace (K * t - K * IZR z) with (K * (t - IZR z)) by ring. rewrite Rabs_mult, (Rabs_pos_eq K) by lra.
      assert (H : Rabs (t - IZR z) <= / 2) by (apply Rabs_le; lra). apply Rle_trans with (K * / 2); [apply Rmult_le_compat_l; lra|lra]. }
    apply Rabs_bnd in KH. assert (BB : Rabs (X - X' - K * IZR z) <= K / 2 + / 131072) by (apply Rabs_le; lra). split; [|split].
    - apply (ap_sub K _ _ _ _ (/ 262144) 0 1048576); try lra; try nums.
      + exists t. split; auto. apply Rabs_le; lra.
      + exists (IZR z). split; auto. rewrite Rminus_diag_eq, Rabs_R0; lra.
    - exists (K * t). split; apply Rabs_le; lra.
    - apply Rabs_bnd in BB. apply Rabs_le. lra.
  Qed.

  Lemma hex_near A B : sqrt ((IZR A + IZR B / 2) * (IZR A + IZR B / 2) + IZR B * (s / 2) * (IZR B * (s / 2))) = sqrt (IZR (hexnorm A B)).
  Proof.
    f_equal. unfold hexnorm. rewrite !plus_IZR, !mult_IZR. pose proof r3_sq as E. fold s in E.
    replace (IZR B * (s / 2) * (IZR B * (s / 2))) with (IZR B * IZR B / 4 * (s * s)) by field. rewrite E. field.
  Qed.

  Lemma distance_hex L u v u' v' i j i' j' : hexa n m L -> (0 <= i < n)%Z -> (0 <= j < m)%Z -> (0 <= i' < n)%Z -> (0 <= j' < m)%Z ->
    ap 1 u (cx i j) r51 -> ap 1 v (cy j) r51 -> ap 1 u' (cx i' j') r51 -> ap 1 v' (cy j') r51 ->
    exists A B p q d t, A = (i - i' + n * p)%Z /\ B = (j - j' + m * q)%Z /\
      (forall A0 t', (-1 <= A0 <= 1)%Z -> A = (A0 + n * t')%Z -> A = A0) /\ (forall B0 t', (-1 <= B0 <= 1)%Z -> B = (B0 + m * t')%Z -> B = B0) /\
      cartesian_periodic_distance FI L [u; v] [u'; v'] = Ok d /\ denotes d t /\
      (hexnorm A B = 1%Z -> Rabs (t - 1) <= 3 / 1000) /\ ((3 <= hexnorm A B)%Z -> 17 / 10 <= t).
  Proof.
    intros HL Hi Hj Hi' Hj' (x & Dx & Ex) (y & Dy & Ey) (x' & Dx' & Ex') (y' & Dy' & Ey'). rewrite Rmult_1_l in Ex, Ey, Ex', Ey'.
    destruct (ij_bounds i j Hi Hj) as (_ & _ & CN & CM & N3 & M3). destruct (cy_bound i j Hi Hj) as [BX BY]. destruct (cy_bound i' j' Hi' Hj') as [BX' BY'].
    pose proof sqrt3_sp as HS. fold s in HS. assert (Sne : s <> 0) by lra. apply Rabs_bnd in Ex, Ey, Ex', Ey'.
    destruct (frac_hex inv n m n1 m1 AC L u v x y HL Dx Dy) as (f1 & f2 & EF & A1 & A2); try (apply Rabs_le; lra).
    destruct (frac_hex inv n m n1 m1 AC L u' v' x' y' HL Dx' Dy') as (f1' & f2' & EF' & A1' & A2'); try (apply Rabs_le; lra). fold N M s in A1, A2, A1', A2'.
    set (Y := y / s) in *. set (Y' := y' / s) in *. assert (EY : y = Y * s) by (unfold Y; field; auto). assert (EY' : y' = Y' * s) by (unfold Y'; field; auto).
    replace (2 * y / s) with (2 * Y) in A2 by (unfold Y; field; auto). replace (2 * y' / s) with (2 * Y') in A2' by (unfold Y'; field; auto).
    assert (YN : forall a b l, a = b * s -> - r51 <= a - cy l <= r51 -> Rabs (b - (IZR l + 1 / 2) / 2) <= 3 / 10000).
    { intros a b l -> E. assert (E' : - r51 <= (b - (IZR l + 1 / 2) / 2) * s <= r51) by (unfold cy in E; replace ((b - (IZR l + 1 / 2) / 2) * s) with (b * s - (IZR l + 1 / 2) * (s / 2)) by field; lra).
      set (g := b - (IZR l + 1 / 2) / 2) in *. apply Rabs_le. split; nra. }
    pose proof (YN y Y j EY Ey) as NY. pose proof (YN y' Y' j' EY' Ey') as NY'. apply Rabs_bnd in NY, NY'. clear YN.
    assert (JB : 0 <= IZR j <= 1048576 /\ 0 <= IZR j' <= 1048576) by (split; split; (apply (IZR_le 0) || apply (IZR_le _ (2 ^ 20))); lia).
    destruct (reduced N f1 f1' (x - Y) (x' - Y')) as (z1 & C1 & (w1 & W1 & K1) & S1); auto; try lra; [apply Rabs_le; lra|].
    destruct (reduced M f2 f2' (2 * Y) (2 * Y')) as (z2 & C2 & (w2 & W2 & K2) & S2); auto; try lra; [apply Rabs_le; lra|].
    set (A := (i - i' + n * - z1)%Z). set (B := (j - j' + m * - z2)%Z).
    assert (EA : IZR A = IZR i - IZR i' - N * IZR z1) by (unfold A, N; rewrite plus_IZR, minus_IZR, mult_IZR, opp_IZR; ring).
    assert (EB : IZR B = IZR j - IZR j' - M * IZR z2) by (unfold B, M; rewrite plus_IZR, minus_IZR, mult_IZR, opp_IZR; ring).
    unfold cx in Ex, Ex'.
    set (g1 := f_sub (f_sub f1 f1') _) in *. set (g2 := f_sub (f_sub f2 f2') _) in *. set (X1 := x - Y - (x' - Y') - N * IZR z1) in *. set (X2 := 2 * Y - 2 * Y' - M * IZR z2) in *.
    destruct (cart_hex inv n m n1 m1 L g1 g2 X1 X2 (/ 131072) HL C1 C2) as (p & q & E & P & Q); try lra. fold s in Q.
    assert (E1 : Rabs (X1 + X2 / 2 - (IZR A + IZR B / 2)) <= 102 / 100000) by (apply Rabs_le; unfold X1, X2; lra).
    assert (E2 : Rabs (X2 * (s / 2) - IZR B * (s / 2)) <= 102 / 100000).
    { replace (X2 * (s / 2) - IZR B * (s / 2)) with ((y - cy j) - (y' - cy j')) by (unfold X2, cy; rewrite EB, EY, EY'; field). apply Rabs_le; lra. }
    destruct P as (px & DP & EP). destruct Q as (qy & DQ & EQ). rewrite Rmult_1_l in EP, EQ.
    assert (XS : Rabs (X2 * (s / 2)) <= 1048576). { replace 1048576 with (1048576 * 1) by ring. apply Rabs_prod; [auto|rewrite Rabs_pos_eq; lra]. }
    apply Rabs_bnd in EP, EQ, E1, E2, S1, S2, XS.
    destruct (length_near [p; q] px qy (IZR A + IZR B / 2) (IZR B * (s / 2)) (104 / 100000)) as (t & Dt & Pt & Et); auto; try (apply Rabs_le; lra); try lra.
    rewrite hex_near in Et.
    assert (TB : Rabs (sqrt (IZR (hexnorm A B))) <= 4194300).
    { rewrite <- hex_near. rewrite Rabs_pos_eq by apply sqrt_pos. rewrite <- (sqrt_square 4194300) by lra. apply sqrt_le_1_alt.
      assert (Q1 : Rabs (IZR A + IZR B / 2) <= 2097152) by (apply Rabs_le; lra). assert (Q2 : Rabs (IZR B * (s / 2)) <= 2097152) by (apply Rabs_le; lra). apply sq_sum; auto. }
    destruct (round_ap inv (norm FI [p; q]) (sqrt (IZR (hexnorm A B))) (2 * (104 / 100000) + / 1000000)) as (d & Dd & Ed); try lra.
    { exists t. split; auto. now rewrite Rmult_1_l. }
    rewrite Rmult_1_l in Ed. apply Rabs_bnd in Ed.
    exists A, B, (- z1)%Z, (- z2)%Z. eexists _, d. split; [reflexivity|]. split; [reflexivity|].
    apply Rabs_bnd in K1, K2, W1, W2. split; [|split; [|split; [|split; [exact Dd|split]]]].
    - intros A0 t' HA E'. apply (reduced_unique n A A0 (w1 - N * IZR z1 - IZR A) t'); auto; try lia; fold N; apply Rabs_le; lra.
    - intros B0 t' HB E'. apply (reduced_unique m B B0 (w2 - M * IZR z2 - IZR B) t'); auto; try lia; fold M; apply Rabs_le; lra.
    - unfold cartesian_periodic_distance, pbc_diff_cart. rewrite EF, EF'. cbn [bind]. unfold pbc_diff_frac_vec, bcast.
      assert (LP : l_periodic L = [true; true]) by (destruct HL as (? & ? & ? & ? & -> & _); reflexivity). rewrite LP.
      cbn [length map Nat.eqb zipwith bind of_bool a_rint a_mul a_sub a_ofZ FAi]. fold g1 g2. rewrite E. reflexivity.
    - intros H. rewrite H, sqrt_1 in Ed. apply Rabs_le. lra.
    - intros H. apply IZR_le, sqrt_le_1_alt in H. pose proof sqrt3_sp. lra.
  Qed.

  Lemma cutoff_hex : exists c, denotes (f_add (f_ofZ 1) (f_div (f_ofZ 1) (f_ofZ 100))) c /\ 1009 / 1000 <= c <= 1011 / 1000.
  Proof.
    assert (D1 : denotes (f_div (f_ofZ 1) (f_ofZ 100)) (rnd (1 / 100))).
    { apply denotes_div; [apply den_1|apply denotes_ofZ; reflexivity|lra|]. apply small_big. rewrite Rabs_pos_eq by lra. simpl. lra. }
    assert (E1 : Rabs (rnd (1 / 100) - 1 / 100) <= / 1000000) by (apply (rnd_close _ 1); [rewrite Rabs_pos_eq; lra|simpl; lra|nums]). apply Rabs_bnd in E1.
    exists (rnd (1 + rnd (1 / 100))). split; [apply denotes_add; auto using den_1; apply small_big; rewrite Rabs_pos_eq by lra; simpl; lra|].
    assert (E2 : Rabs (rnd (1 + rnd (1 / 100)) - (1 + rnd (1 / 100))) <= / 1000000) by (apply (rnd_close _ 2); [rewrite Rabs_pos_eq; lra|simpl; lra|nums]). apply Rabs_bnd in E2. lra.
  Qed.

  Lemma nb_hex S : hex_struct S -> exists G, nb_get FI (HoneycombNeighborhoodBuilder FI) S None = Ok G /\
    forall i j, (0 <= i < n)%Z -> (0 <= j < m)%Z ->
      neighbours G (i * m + j) (fun k => In k (six n m i j)) /\
      weights G (i * m + j) (fun k w => exists d, w = Some d /\ is_finite d = true /\ Rabs (B2R d - 1) <= 3 / 1000).
  Proof.
    intros HS. pose proof (hs_dense _ HS) as DS. pose proof (hs_in _ HS) as IN. destruct cutoff_hex as (c & Dc & Bc).
    set (cut := f_add (f_ofZ 1) (f_div (f_ofZ 1) (f_ofZ 100))) in *. change (HoneycombNeighborhoodBuilder FI) with (BDistance cut).
    assert (CELL : forall x, In x (sites S None) -> exists i j u v, (0 <= i < n)%Z /\ (0 <= j < m)%Z /\ x = mkSite "A" [u; v] (i * m + j) /\ ap 1 u (cx i j) r51 /\ ap 1 v (cy j) r51).
    { intros x Hx. apply IN in Hx. destruct (hs_all _ HS _ _ Hx) as (i & j & Hi & Hj & E). destruct (hs_site _ HS i j Hi Hj) as (u & v & G & U & V).
      rewrite E, G in Hx. injection Hx as <-. exists i, j, u, v. auto. }
    assert (LST : forall cur, In cur (sites S None) -> exists ys, get_neighbors FI (BDistance cut) S cur = Ok (map wrap ys) /\
       forall k w, In (k, w) ys <-> exists y v, In y (sites S None) /\ negb (s_id cur =? s_id y)%Z = true /\
         cartesian_periodic_distance FI (p_lattice S) (s_loc y) (s_loc cur) = Ok v /\ f_ltb v cut = true /\ k = s_id y /\ w = Some v).
    { intros cur Hc. cbn [get_neighbors].
      destruct (pick_fold (fun y => cartesian_periodic_distance FI (p_lattice S) (s_loc y) (s_loc cur))
                  (fun y => negb (s_id cur =? s_id y)%Z) (fun v => f_ltb v cut) (sites S None) []) as (ys & E & H).
      { intros y Hy _. destruct (CELL cur Hc) as (i & j & u & v & Hi & Hj & -> & U & V). destruct (CELL y Hy) as (i' & j' & u' & v' & Hi' & Hj' & -> & U' & V'). cbn [s_loc].
        destruct (distance_hex _ u' v' u v i' j' i j (hs_lat _ HS)) as (? & ? & ? & ? & d & ? & _ & _ & _ & _ & E & _); eauto. }
      exists ys. split; auto. }
    destruct (graph_of FI (BDistance cut) S None DS) as (g & Eg & OUT & _).
    { intros cur Hc. destruct (LST cur Hc) as (ys & E & H). exists (map wrap ys). split; auto.
      apply Forall_forall. intros y0 Hy0. apply in_map_iff in Hy0 as ([k w] & <- & Hy). exists k. split; auto.
      apply H in Hy as (y & v & Hy & _ & _ & _ & -> & _). now apply dense_id. }
    exists (NGraph g). split; [change (nb_get FI (BDistance cut) S None) with (do g <- get_graph FI (BDistance cut) S None; Ok (NGraph g)); rewrite Eg; reflexivity|].
    intros i j Hi Hj. destruct (hs_site _ HS i j Hi Hj) as (u & v & G & U & V).
    set (x := mkSite "A" [u; v] (i * m + j)) in *. assert (Hx : In x (sites S None)) by (apply IN; exact G).
    destruct (OUT x Hx) as (ys & E1 & E2). destruct (LST x Hx) as (ys' & E1' & H). rewrite E1 in E1'.
    assert (ys = ys').
    { assert (X : map wrap ys = map wrap ys') by (unfold wrap at 1; congruence). clear -X. revert ys' X.
      induction ys as [|[a b] ys IH]; destruct ys' as [|[c d] ys']; simpl; intros X; try discriminate; auto.
      unfold wrap in X. simpl in X. injection X as -> -> X. f_equal. auto. }
    subst ys'. change (s_id x) with (i * m + j)%Z in *. cbn [s_loc x] in H.
    assert (KEY : forall k w, In (k, w) ys -> In k (six n m i j) /\ exists d, w = Some d /\ is_finite d = true /\ Rabs (B2R d - 1) <= 3 / 1000).
    { intros k w Hk. apply H in Hk as (y & d & Hy & Ny & Ed & Tv & -> & ->). destruct (CELL y Hy) as (i' & j' & u' & v' & Hi' & Hj' & -> & U' & V'). cbn [s_loc s_id] in *.
      destruct (distance_hex _ u' v' u v i' j' i j (hs_lat _ HS)) as (A & B & p & q & d' & t & EA & EB & UA & UB & D' & Dt & W1 & W3); auto.
      assert (d' = d) by congruence. subst d'. rewrite (denotes_ltb _ _ _ _ Dt Dc) in Tv. revert Tv. case Rlt_bool_spec; [|discriminate]. intros Lt _.
      assert (SM : (hexnorm A B < 3)%Z) by (destruct (Z.lt_ge_cases (hexnorm A B) 3); auto; specialize (W3 ltac:(lia)); lra).
      destruct (hexnorm_small A B SM) as [[EA0 EB0]|[IH Q]].
      - exfalso. apply Bool.negb_true_iff in Ny. assert (i' = i) by (apply (small_same n i' i (- p)); lia). assert (j' = j) by (apply (small_same m j' j (- q)); lia). subst. lia.
      - split.
        + apply in_map_iff. exists (A, B). split; auto. unfold hex_id. cbn [fst snd]. rewrite <- (Z.opp_involutive A), <- (Z.opp_involutive B).
          rewrite (mod_of n i i' (- A) (- p)), (mod_of m j j' (- B) (- q)); auto; lia.
        + exists d. split; auto. destruct Dt as [F1 F2]. split; auto. rewrite F2. auto. }
    assert (BACK : forall k, In k (six n m i j) -> exists w, In (k, w) ys).
    { intros k Hk. apply in_map_iff in Hk as ((a & b) & <- & Hab). cbn [fst snd]. destruct (hexes_norm a b Hab) as (Q & Ba & Bb).
      set (i' := ((i + a) mod n)%Z). set (j' := ((j + b) mod m)%Z).
      assert (Hi' : (0 <= i' < n)%Z) by (apply Z.mod_pos_bound; lia). assert (Hj' : (0 <= j' < m)%Z) by (apply Z.mod_pos_bound; lia).
      change (hex_id n m (i + a) (j + b)) with (i' * m + j')%Z. destruct (hs_site _ HS i' j' Hi' Hj') as (u' & v' & G' & U' & V').
      destruct (distance_hex _ u' v' u v i' j' i j (hs_lat _ HS)) as (A & B & p & q & d & t & EA & EB & UA & UB & D & Dt & W1 & _); auto.
      pose proof (Z.div_mod (i + a) n ltac:(lia)) as Mi. pose proof (Z.div_mod (j + b) m ltac:(lia)) as Mj. fold i' in Mi. fold j' in Mj.
      assert (FA' : A = a) by (apply (UA a (p - (i + a) / n)%Z); [lia|rewrite Z.mul_sub_distr_l; lia]).
      assert (FB' : B = b) by (apply (UB b (q - (j + b) / m)%Z); [lia|rewrite Z.mul_sub_distr_l; lia]).
      assert (Q' : hexnorm A B = 1%Z) by (now rewrite FA', FB').
      specialize (W1 Q'). apply Rabs_bnd in W1. exists (Some d). apply H. exists (mkSite "A" [u'; v'] (i' * m + j')), d. cbn [s_loc s_id].
      split; [apply IN; exact G'|]. split; [|split; [exact D|split; [|auto]]].
      - apply Bool.negb_true_iff, Z.eqb_neq. intros E. apply hex_id_inj in E as [Ei Ej]; auto. unfold i', j' in Ei, Ej.
        symmetry in Ei, Ej. rewrite <- (Z.mod_small i n) in Ei at 2 by lia. rewrite <- (Z.mod_small j m) in Ej at 2 by lia.
        rewrite <- (Z.add_0_r i) in Ei at 2. rewrite <- (Z.add_0_r j) in Ej at 2.
        apply mod_eq_small in Ei; try lia. apply mod_eq_small in Ej; try lia. rewrite Ei, Ej in Q. cbn in Q. lia.
      - rewrite (denotes_ltb _ _ _ _ Dt Dc). apply Rlt_bool_true. lra. }
    split.
    - apply graph_neighbours. intros k. rewrite E2, map_rev, <- in_rev, in_map_iff. split.
      + intros Hk. destruct (BACK k Hk) as (w & Hw). exists (k, w). auto.
      + intros ([k' w] & <- & Hk). cbn [fst]. eapply KEY; eauto.
    - apply graph_weights. intros k w. rewrite E2, <- in_rev. intros Hk. eapply KEY; eauto.
  Qed.
End Tiling.

Lemma C96_lemma : forall inv n m, (3 <= n <= 2 ^ 20)%Z -> (3 <= m <= 2 ^ 20)%Z -> accurate n m inv ->
  exists s G, fl_honeycomb inv n m s /\ Z.of_nat (length (sites s None)) = (n * m)%Z /\
    nb_get (FAi inv) (HoneycombNeighborhoodBuilder (FAi inv)) s None = Ok G /\
    (forall k x, get_site s k = Some x -> exists i j, (0 <= i < n)%Z /\ (0 <= j < m)%Z /\ k = hex_id n m i j) /\
    forall i j, (0 <= i < n)%Z -> (0 <= j < m)%Z ->
      (exists loc, get_site s (hex_id n m i j) = Some (mkSite "A" loc (hex_id n m i j)) /\ close_to loc (hex_centre i j)) /\
      NoDup (six n m i j) /\ length (six n m i j) = 6%nat /\
      neighbours G (hex_id n m i j) (fun k => In k (six n m i j)) /\
      weights G (hex_id n m i j) (fun k w => exists d, w = Some d /\ is_finite d = true /\ (Rabs (B2R d - 1) <= 3 / 1000)%R).
Proof.
  intros inv n m Hn Hm AC. destruct (hex_built inv n m Hn Hm AC) as (s & HC & HS). destruct (nb_hex inv n m Hn Hm AC s HS) as (G & EG & H).
  assert (EI : forall i j, (0 <= i < n)%Z -> (0 <= j < m)%Z -> hex_id n m i j = (i * m + j)%Z) by (intros; unfold hex_id; rewrite !Z.mod_small by lia; auto).
  exists s, G. split; auto. split; [apply (hs_count _ _ _ HS)|]. split; auto. split.
  - intros k x Gk. destruct (hs_all _ _ _ HS k x Gk) as (i & j & Hi & Hj & ->). exists i, j. split; auto. split; auto. now rewrite EI.
  - intros i j Hi Hj. rewrite EI by auto. destruct (H i j Hi Hj) as [H1 H2]. destruct (hs_site _ _ _ HS i j Hi Hj) as (u & v & GS & U & V).
    split; [|split; [apply six_NoDup; lia|auto]]. eexists. split; [exact GS|].
    destruct U as (x & [Fx <-] & Ex). destruct V as (y & [Fy <-] & Ey). rewrite Rmult_1_l in Ex, Ey. constructor; [split; auto; eapply Rle_trans; [exact Ex|lra]|].
    constructor; [split; auto; eapply Rle_trans; [exact Ey|lra]|constructor].
Qed.
