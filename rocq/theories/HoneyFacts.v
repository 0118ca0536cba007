(** Facts about honeycomb tilings (C44). *)
From Coq Require Import Reals Lra Psatz Permutation.
From Verif Require Import Prelude Dict Arith RVec RealArith LatticeModel JsonModel StructModel NbModel GridModel
  SpecGeom SpecNb SpecGrid SpecHoney LatticeFacts LatticeMore StructFacts StructMore StructBuild NbFacts NbMore GridFacts PmgFacts.
Local Open Scope Z_scope.

Notation r3 := (sqrt 3).
Lemma r3_sq : (r3 * r3 = 3)%R. Proof. apply sqrt_sqrt. lra. Qed.
Lemma r3_pos : (17/10 <= r3)%R.
Proof.
  rewrite <- (sqrt_pow2 (17/10)) by lra. apply sqrt_le_1_alt. lra.
Qed.

Definition rhomb : list vec := [[1; 0]; [1/2; r3 / 2]]%R.

(** * Hexagonal arithmetic *)
Definition hexnorm (A B : Z) : Z := A * A + A * B + B * B.

Lemma hexnorm_small A B : hexnorm A B < 3 -> (A = 0 /\ B = 0) \/ (In (A, B) hexes /\ hexnorm A B = 1).
Proof.
  intros H. unfold hexnorm in *. assert (-1 <= B <= 1) by nia. assert (-1 <= A <= 1) by nia.
  assert (HA : A = -1 \/ A = 0 \/ A = 1) by lia. assert (HB : B = -1 \/ B = 0 \/ B = 1) by lia.
  destruct HA as [->|[->| ->]], HB as [->|[->| ->]]; try lia; try (left; lia); right; cbn; intuition.
Qed.
Lemma hexes_norm A B : In (A, B) hexes -> hexnorm A B = 1 /\ -1 <= A <= 1 /\ -1 <= B <= 1.
Proof. cbn. intros H. repeat (destruct H as [H|H]; [injection H as <- <-; cbn; lia|]). contradiction. Qed.
Lemma hexnorm_B A B : 3 * (B * B) <= 4 * hexnorm A B.
Proof. unfold hexnorm. pose proof (Z.square_nonneg (2 * A + B)). nia. Qed.

Lemma reduce n a f e : 3 <= n -> f = ((IZR a + e) / IZR n)%R -> (Rabs (IZR (a - n * zrint f) + e) <= IZR n / 2)%R.
Proof.
  intros Hn ->. pose proof (zrint_bound ((IZR a + e) / IZR n)) as H. set (z := zrint _) in *.
  assert (Pn : (3 <= IZR n)%R) by (apply IZR_le; auto). rewrite minus_IZR, mult_IZR.
  replace (IZR a - IZR n * IZR z + e)%R with (IZR n * ((IZR a + e) / IZR n - IZR z))%R by (field; lra).
  rewrite Rabs_mult, (Rabs_pos_eq (IZR n)) by lra. nra.
Qed.

Lemma reduced_unique n A A0 e t : 3 <= n -> -1 <= A0 <= 1 -> A = A0 + n * t -> (Rabs e <= 1/100)%R ->
  (Rabs (IZR A + e) <= IZR n / 2)%R -> A = A0.
Proof.
  intros Hn HA E He H. assert (t = 0); [|subst; lia].
  apply Rabs_bnd in He. apply Rabs_bnd in H.
  assert (Pn : (3 <= IZR n)%R) by (apply IZR_le; auto).
  assert (B1 : (-1 <= IZR A0 <= 1)%R) by (split; apply IZR_le; lia).
  rewrite E, plus_IZR, mult_IZR in H.
  destruct (Z.lt_trichotomy t 0) as [T|[T|T]]; auto; exfalso.
  - assert (IZR t <= -1)%R by (apply IZR_le; lia). nra.
  - assert (1 <= IZR t)%R by (apply IZR_le; lia). nra.
Qed.

(** The length of a reduced difference. *)
Lemma hex_length A B u : (Rabs u <= 1/1000)%R ->
  let d := round3 (sqrt (IZR (hexnorm A B) + 3 * IZR B * u + 3 * u * u)) in
  (hexnorm A B = 1 -> (Rabs (d - 1) <= 4/1000)%R) /\ (3 <= hexnorm A B -> (101/100 <= d)%R).
Proof.
  intros Hu d. apply Rabs_bnd in Hu. set (x := (IZR (hexnorm A B) + 3 * IZR B * u + 3 * u * u)%R) in *.
  pose proof (round3_bound (sqrt x)) as RB. fold d in RB. apply Rabs_bnd in RB.
  assert (U2 : (0 <= u * u <= 1/1000000)%R) by nra.
  split; intros Q.
  - assert (HB : (-1 <= IZR B <= 1)%R).
    { pose proof (hexnorm_B A B) as H. assert (-1 <= B <= 1) by nia. split; apply IZR_le; lia. }
    assert (HX : ((995/1000) <= x <= (1005/1000))%R) by (unfold x; rewrite Q; nra).
    assert (S1 : ((997/1000) <= sqrt x)%R).
    { rewrite <- (sqrt_pow2 (997/1000)) by lra. apply sqrt_le_1_alt. lra. }
    assert (S2 : (sqrt x <= (10025/10000))%R).
    { rewrite <- (sqrt_pow2 (10025/10000)) by lra. apply sqrt_le_1_alt. lra. }
    clearbody d. apply Rabs_le. split; lra.
  - assert (HX : ((29/10) <= x)%R).
    { pose proof (hexnorm_B A B) as HB. apply IZR_le in HB. rewrite !mult_IZR in HB. apply IZR_le in Q.
      assert (AB : (Rabs (IZR B) <= IZR B * IZR B)%R).
      { rewrite <- mult_IZR, <- abs_IZR. apply IZR_le. nia. }
      pose proof (Rabs_bnd (IZR B) (IZR B * IZR B) AB) as AB'. unfold x. nra. }
    assert (S1 : (17/10 <= sqrt x)%R).
    { rewrite <- (sqrt_pow2 (17/10)) by lra. apply sqrt_le_1_alt. lra. }
    lra.
Qed.

(** * The tiling *)
Notation hx := hex_centre.
Definition off (j : Z) : R := ((round3 ((IZR j + 1/2) * (r3 / 2)) - (IZR j + 1/2) * (r3 / 2)) / r3)%R.

Lemma off_bound j : (Rabs (off j) <= 1/2000)%R.
Proof.
  unfold off. set (y := ((IZR j + 1/2) * (r3 / 2))%R). pose proof (round3_bound y) as H. pose proof r3_pos as P.
  rewrite <- Rabs_Ropp, Ropp_minus_distr in H. unfold Rdiv at 1. rewrite Rabs_mult, (Rabs_pos_eq (/ r3)).
  - assert (0 <= / r3 <= 1)%R.
    { split; [left; apply Rinv_0_lt_compat; lra|]. rewrite <- Rinv_1. apply Rinv_le_contravar; lra. }
    pose proof (Rabs_pos (round3 y - y)). nra.
  - left. apply Rinv_0_lt_compat. lra.
Qed.

Lemma rhomb_basis : basis 2 rhomb.
Proof. apply basis_2. pose proof r3_pos. lra. Qed.

Section Size.
  Variables n m : Z.
  Hypothesis Hn : 3 <= n.
  Hypothesis Hm : 3 <= m.
  Let W := scaled [n; m] rhomb.

  Lemma size_pos : Forall (fun a => 0 < a) [n; m]. Proof. repeat constructor; lia. Qed.
  Lemma IZR_n : (3 <= IZR n)%R. Proof. apply IZR_le; auto. Qed.
  Lemma IZR_m : (3 <= IZR m)%R. Proof. apply IZR_le; auto. Qed.

  Lemma wide_comb f g : lincomb 2 [f; g] W = [f * IZR n + g * IZR m / 2; g * IZR m * (r3 / 2)]%R.
  Proof. unfold W, rhomb, scaled, lincomb, vplus, vscale, vzero; simpl. f_equal; [|f_equal]; field. Qed.

  Lemma hx_coords i j : coords 2 W [(IZR i + 1/2) / IZR n; (IZR j + 1/2) / IZR m]%R (hx i j).
  Proof.
    split; [reflexivity|]. rewrite wide_comb. unfold hex_centre. pose proof IZR_n. pose proof IZR_m. f_equal; [|f_equal]; field; lra.
  Qed.

  Lemma round_hx i j : coords 2 W [(IZR i + 1/2 - off j) / IZR n; (IZR j + 1/2 + 2 * off j) / IZR m]%R (map round3 (hx i j)).
  Proof.
    split; [reflexivity|]. rewrite wide_comb. unfold hex_centre. cbn [map]. pose proof IZR_n. pose proof IZR_m. pose proof r3_pos.
    f_equal; [|f_equal].
    - replace (IZR i + IZR j / 2 + 3 / 4)%R with (IZR (1000 * i + 500 * j + 750) / 1000)%R at 1
        by (rewrite !plus_IZR, !mult_IZR; field).
      rewrite round3_milli, !plus_IZR, !mult_IZR. field. lra.
    - unfold off. set (y := round3 _). field. lra.
  Qed.

  Lemma hx_in i j : 0 <= i < n -> 0 <= j < m -> in_cell 2 W [true; true] (hx i j).
  Proof.
    intros Hi Hj. eexists. split; [apply hx_coords|]. pose proof IZR_n. pose proof IZR_m.
    assert (forall k l, 3 <= l -> 0 <= k < l -> (0 <= (IZR k + 1/2) / IZR l < 1)%R).
    { intros k l Hl [K1 K2]. apply IZR_le in K1, Hl. assert (K3 : k + 1 <= l) by lia. apply IZR_le in K3. rewrite plus_IZR in K3.
      split; [apply Rmult_le_pos; [lra|left; apply Rinv_0_lt_compat; lra]|].
      apply Rmult_lt_reg_r with (IZR l); [lra|]. unfold Rdiv. rewrite Rmult_assoc, Rinv_l; lra. }
    constructor; [intros _; auto|]. constructor; [intros _; auto|constructor].
  Qed.

  (** Distance between two sites. *)
  Lemma hx_dist L i j i' j' : lattice_on 2 W [true; true] L ->
    exists A B s t d, A = i - i' + n * s /\ B = j - j' + m * t /\
      (forall A0 t', -1 <= A0 <= 1 -> A = A0 + n * t' -> A = A0) /\ (forall B0 t', -1 <= B0 <= 1 -> B = B0 + m * t' -> B = B0) /\
      cartesian_periodic_distance RA L (map round3 (hx i j)) (map round3 (hx i' j')) = Ok d /\
      (hexnorm A B = 1 -> (Rabs (d - 1) <= 4/1000)%R) /\ (3 <= hexnorm A B -> (101/100 <= d)%R).
  Proof.
    intros HL. pose proof IZR_n as Pn. pose proof IZR_m as Pm.
    rewrite (dist_ok 2 W [true; true] L HL _ _ _ _ (round_hx i j) (round_hx i' j')).
    set (f := vminus _ _).
    set (u := (off j - off j')%R).
    assert (Hu : (Rabs u <= 1/1000)%R).
    { pose proof (off_bound j) as H1. pose proof (off_bound j') as H2. apply Rabs_bnd in H1, H2. apply Rabs_le. unfold u. lra. }
    assert (Ef : f = [(IZR (i - i') + - u) / IZR n; (IZR (j - j') + 2 * u) / IZR m]%R).
    { unfold f, vminus, u. cbn [zipwith]. rewrite !minus_IZR. f_equal; [|f_equal]; field; lra. }
    rewrite Ef. set (f1 := ((IZR (i - i') + - u) / IZR n)%R). set (f2 := ((IZR (j - j') + 2 * u) / IZR m)%R).
    exists (i - i' - n * zrint f1), (j - j' - m * zrint f2), (- zrint f1), (- zrint f2).
    set (A := i - i' - n * zrint f1). set (B := j - j' - m * zrint f2).
    assert (R1 : (Rabs (IZR A + - u) <= IZR n / 2)%R) by (apply reduce; auto).
    assert (R2 : (Rabs (IZR B + 2 * u) <= IZR m / 2)%R) by (apply reduce; auto).
    eexists. split; [lia|]. split; [lia|]. split.
    { intros A0 t' HA EA. eapply (reduced_unique n A A0 (- u) t'); eauto. rewrite Rabs_Ropp. lra. }
    split.
    { intros B0 t' HB EB. eapply (reduced_unique m B B0 (2 * u) t'); eauto. apply Rabs_bnd in Hu. apply Rabs_le. lra. }
    split; [reflexivity|].
    assert (ED : diff_frac [true; true] [f1; f2] = [(IZR A - u) / IZR n; (IZR B + 2 * u) / IZR m]%R).
    { unfold diff_frac, rints, vminus. cbn [zipwith map]. unfold f1 at 1, f2 at 1, A, B.
      rewrite !minus_IZR, !mult_IZR. rewrite <- !minus_IZR. f_equal; [|f_equal]; field; lra. }
    rewrite ED, wide_comb.
    replace (vlength _) with (sqrt (IZR (hexnorm A B) + 3 * IZR B * u + 3 * u * u)).
    { apply hex_length; auto. }
    unfold vlength. f_equal. unfold vdot, hexnorm. cbn [zipwith fold_right]. rewrite !plus_IZR, !mult_IZR.
    pose proof r3_sq as R3.
    replace ((IZR B + 2 * u) / IZR m * IZR m * (r3 / 2))%R with ((IZR B / 2 + u) * r3)%R by (field; lra).
    replace ((IZR A - u) / IZR n * IZR n + (IZR B + 2 * u) / IZR m * IZR m / 2)%R with (IZR A + IZR B / 2)%R by (field; lra).
    replace ((IZR B / 2 + u) * r3 * ((IZR B / 2 + u) * r3))%R with ((IZR B / 2 + u) * (IZR B / 2 + u) * (r3 * r3))%R by ring.
    rewrite R3. field.
  Qed.
End Size.

(** * The structure *)
Lemma honey_builder : exists L, lattice_on 2 rhomb [true; true] L /\
  HoneycombTilingBuilder RA = Ok (mkBuilder L (MDict [("A"%string, [[1/2; 1/2]%R])]) true).
Proof.
  assert (E : [[1; 0]; [1 / 2; sqrt 3 * 1 / 2]]%R = rhomb) by (unfold rhomb; now rewrite Rmult_1_r).
  pose proof (lattice_init_flags 2 rhomb (PBool true) ltac:(lia) rhomb_basis) as H.
  eexists. split.
  - split; [apply rhomb_basis|]. split; auto. exists (PBool true). split; auto. exact H.
  - unfold HoneycombTilingBuilder, RhombohedralLattice. unfold half. cbn [a_div a_ofZ a_mul a_sqrt RA].
    change (IZR 1) with 1%R. change (IZR 2) with 2%R. change (IZR 3) with 3%R. rewrite E.
    rewrite H. reflexivity.
Qed.

Lemma hx_place i j : frac_place 2 rhomb [i; j] [1/2; 1/2]%R = hx i j.
Proof. unfold frac_place, rhomb, hex_centre, lincomb, vplus, vscale, vzero; simpl. f_equal; [|f_equal]; field. Qed.

Lemma place_hx i j i' j' : place (hx i j) = place (hx i' j') -> i = i' /\ j = j'.
Proof.
  unfold place, hex_centre. cbn [map]. intros E. injection E as E1 E2. pose proof r3_pos as P.
  assert (J : j = j').
  { pose proof (round3_bound ((IZR j + 1 / 2) * (r3 / 2) + 1 / 1000)) as H1.
    pose proof (round3_bound ((IZR j' + 1 / 2) * (r3 / 2) + 1 / 1000)) as H2.
    rewrite E2 in H1. set (x := round3 _) in *. apply Rabs_bnd in H1, H2.
    destruct (Z.lt_trichotomy j j') as [T|[T|T]]; auto; exfalso.
    - assert (T' : j + 1 <= j') by lia. apply IZR_le in T'. rewrite plus_IZR in T'. nra.
    - assert (T' : j' + 1 <= j) by lia. apply IZR_le in T'. rewrite plus_IZR in T'. nra. }
  subst j'. split; auto.
  assert (G : forall k, (IZR k + IZR j / 2 + 3 / 4 + 1 / 1000 = IZR (1000 * k + 500 * j + 751) / 1000)%R)
    by (intros; rewrite !plus_IZR, !mult_IZR; field).
  rewrite !G, !round3_milli in E1. assert (E3 : IZR (1000 * i + 500 * j + 751) = IZR (1000 * i' + 500 * j + 751)) by lra.
  apply eq_IZR in E3. lia.
Qed.

Lemma hex_cells n m c : In c (cells [n; m]) -> exists i j, c = [i; j] /\ 0 <= i < n /\ 0 <= j < m.
Proof.
  cbn [cells]. rewrite in_flat_map. intros (i & Hi & H). apply in_map_iff in H as (t & <- & H).
  apply in_flat_map in H as (j & Hj & H). apply in_map_iff in H as (t' & <- & H). destruct H as [<-|[]].
  apply zrange_In in Hi, Hj. eauto.
Qed.
Lemma hex_cells_in n m i j : 0 <= i < n -> 0 <= j < m -> In [i; j] (cells [n; m]).
Proof.
  intros Hi Hj. cbn [cells]. apply in_flat_map. exists i. split; [apply zrange_In; lia|]. apply in_map, in_flat_map.
  exists j. split; [apply zrange_In; lia|]. simpl; auto.
Qed.

Lemma honey_struct n m : 3 <= n -> 3 <= m -> exists s L', honeycomb n m s /\ lattice_on 2 (scaled [n; m] rhomb) [true; true] L' /\
  built RA L' s /\ Z.of_nat (length (sites s None)) = n * m /\
  (forall i j, 0 <= i < n -> 0 <= j < m -> get_site s (i * m + j) = Some (mkSite "A" (map round3 (hx i j)) (i * m + j))).
Proof.
  intros Hn Hm. destruct honey_builder as (L & HL & EB). pose proof (size_pos n m Hn Hm) as Pk.
  set (mo := MDict [("A"%string, [[1/2; 1/2]%R])]) in *. set (t := tiling [n; m] (motif_dict mo) (frac_place 2 rhomb)).
  assert (MO : motif_ok 2 mo).
  { intros c l v [E|[]] Hv. injection E as <- <-. destruct Hv as [<-|[]]. reflexivity. }
  assert (ET : t = map (fun c => ("A"%string, hx (nth 0 c 0) (nth 1 c 0))) (cells [n; m])).
  { unfold t, tiling. cbn [motif_dict mo flat_map map fst snd app].
    assert (G : forall l, incl l (cells [n; m]) ->
      flat_map (fun c => [("A"%string, frac_place 2 rhomb c [1/2; 1/2]%R)]) l = map (fun c => ("A"%string, hx (nth 0 c 0) (nth 1 c 0))) l).
    { induction l as [|c l IH]; intros Hl; auto. cbn [flat_map map app]. rewrite IH by (intros x Hx; apply Hl; simpl; auto). do 2 f_equal.
      destruct (hex_cells n m c) as (i & j & -> & _); [apply Hl; simpl; auto|]. apply hx_place. }
    apply G. apply incl_refl. }
  destruct (C33_fractional_lemma 2 rhomb [true; true] L [n; m] mo HL eq_refl Pk MO) as [H1 _]. fold t in H1.
  destruct (build_tiling 2 rhomb [true; true] L [n; m] mo true (frac_place 2 rhomb) HL eq_refl Pk) as (L' & HL' & EF).
  { intros c v Hc Hv. apply (frac_loc 2 rhomb [true; true] L [n; m] mo c v HL eq_refl MO Hc Hv). }
  fold t in EF.
  assert (PER : forall i j, 0 <= i < n -> 0 <= j < m -> periodised 2 (scaled [n; m] rhomb) [true; true] (hx i j) (hx i j)).
  { intros i j Hi Hj. split; [|apply hx_in; auto]. apply (image_refl 2 (scaled [n; m] rhomb) [true; true] L' HL'). reflexivity. }
  assert (NC : no_collision 2 (scaled [n; m] rhomb) [true; true] t).
  { intros a b c d p q D Ha Hb (p' & q' & P & Q & E). rewrite ET, nth_error_map in Ha, Hb.
    destruct (nth_error (cells [n; m]) a) as [x|] eqn:Ea; [|discriminate]. destruct (nth_error (cells [n; m]) b) as [y|] eqn:Eb; [|discriminate].
    injection Ha as <- <-. injection Hb as <- <-.
    destruct (hex_cells n m x (nth_error_In _ _ Ea)) as (i & j & -> & Hi & Hj).
    destruct (hex_cells n m y (nth_error_In _ _ Eb)) as (i' & j' & -> & Hi' & Hj'). cbn [nth] in P, Q.
    rewrite (periodised_unique 2 _ _ L' HL' (hx i j) p' _ eq_refl P (PER i j Hi Hj)) in E.
    rewrite (periodised_unique 2 _ _ L' HL' (hx i' j') q' _ eq_refl Q (PER i' j' Hi' Hj')) in E.
    apply place_hx in E as [-> ->]. apply D. eapply NoDup_nth_error; [|apply nth_error_Some; rewrite Ea; discriminate|congruence].
    apply cells_NoDup. }
  destruct (H1 NC) as (s & EBF & HS & CNT). exists s, L'.
  pose proof EBF as EBF'. rewrite EF in EBF'. destruct (foldM_adds RA t _ _ EBF') as (outs & EA & EACC).
  assert (HB : built RA L' s) by (exists t; now rewrite EA).
  split. { eexists. split; [exact EB|]. unfold build. cbn [b_lattice b_motif b_frac]. rewrite (on_dim _ _ _ _ HL). exact EBF. }
  split; auto. split; auto. split; [rewrite CNT; cbn; lia|].
  intros i j Hi Hj. pose proof (hex_cells_in n m i j Hi Hj) as HC.
  assert (NTH : nth_error t (Z.to_nat (rank [n; m] [i; j])) = Some ("A"%string, hx i j)).
  { rewrite ET, nth_error_map, (cells_nth [n; m] [i; j] Pk HC). reflexivity. }
  destruct (holds_nth _ _ _ _ _ _ _ _ HS NTH) as (q & P & E).
  assert (ER : rank [n; m] [i; j] = i * m + j) by (cbn [rank fold_right]; lia).
  pose proof (rank_bound _ _ HC) as RB. rewrite Z2Nat.id in E by lia. rewrite ER in E.
  rewrite (periodised_unique 2 _ _ L' HL' (hx i j) q _ eq_refl P (PER i j Hi Hj)) in E.
  apply (built_get L' s HB). split; [eapply nth_error_In; eauto|reflexivity].
Qed.

(** * The neighbourhood *)
Lemma mod_of n i i' d t : 3 <= n -> 0 <= i' < n -> d = i - i' + n * t -> (i + - d) mod n = i'.
Proof. intros Hn Hi ->. replace (i + - (i - i' + n * t)) with (i' + (- t) * n) by lia. rewrite Z_mod_plus_full. apply Z.mod_small; lia. Qed.

Lemma small_same n i' i p : 0 <= i' < n -> 0 <= i < n -> i' = i + n * p -> i' = i.
Proof. intros H H' E. assert (p = 0); [|subst; lia]. destruct (Z.lt_trichotomy p 0) as [T|[T|T]]; auto; exfalso; nia. Qed.

Lemma hexes_opp A B : In (A, B) hexes <-> In (- A, - B) hexes.
Proof.
  assert (G : forall A B, In (A, B) hexes -> In (- A, - B) hexes).
  { clear. cbn. intros A B H. repeat (destruct H as [H|H]; [injection H as <- <-; cbn; intuition congruence|]). contradiction. }
  split; [apply G|]. intros H. apply G in H. now rewrite !Z.opp_involutive in H.
Qed.

Lemma six_bound n m i j k : 3 <= n -> 3 <= m -> In k (six n m i j) -> 0 <= k < n * m.
Proof.
  intros Hn Hm H. apply in_map_iff in H as ((a & b) & <- & _). unfold hex_id.
  pose proof (Z.mod_pos_bound (i + a) n ltac:(lia)). pose proof (Z.mod_pos_bound (j + b) m ltac:(lia)). cbn [fst snd]. nia.
Qed.

Lemma hex_id_inj m a b a' b' : 0 <= b < m -> 0 <= b' < m -> a * m + b = a' * m + b' -> a = a' /\ b = b'.
Proof.
  intros Hb Hb' E. assert (a = a'); [|subst; lia].
  rewrite (Z.div_unique (a * m + b) m a b) by lia. rewrite E. symmetry. apply Z.div_unique with b'; lia.
Qed.

Lemma mod_eq_small n i a a' : 3 <= n -> -1 <= a <= 1 -> -1 <= a' <= 1 -> (i + a) mod n = (i + a') mod n -> a = a'.
Proof.
  intros Hn Ha Ha' E. pose proof (Z.div_mod (i + a) n ltac:(lia)) as E1. pose proof (Z.div_mod (i + a') n ltac:(lia)) as E2.
  rewrite E in E1. set (x := (i + a) / n) in *. set (y := (i + a') / n) in *.
  assert (D : a - a' = n * (x - y)) by lia. assert (x - y = 0); [|nia].
  destruct (Z.lt_trichotomy (x - y) 0) as [T|[T|T]]; auto; exfalso; nia.
Qed.

Lemma six_NoDup n m i j : 3 <= n -> 3 <= m -> NoDup (six n m i j).
Proof.
  intros Hn Hm. unfold six.
  assert (G : forall l, NoDup l -> incl l hexes -> NoDup (map (fun d => hex_id n m (i + fst d) (j + snd d)) l)).
  { induction l as [|[a b] l IH]; intros ND I; [constructor|]. inversion ND as [|? ? N1 N2]; subst. cbn [map]. constructor.
    - intros H. apply in_map_iff in H as ((a' & b') & E & H). unfold hex_id in E. cbn [fst snd] in E.
      apply hex_id_inj in E as [E1 E2]; try (apply Z.mod_pos_bound; lia).
      destruct (hexes_norm a b) as (_ & A1 & A2); [apply I; simpl; auto|].
      destruct (hexes_norm a' b') as (_ & B1 & B2); [apply I; simpl; auto|].
      apply mod_eq_small in E1; auto. apply mod_eq_small in E2; auto. subst. contradiction.
    - apply IH; auto. intros x Hx. apply I. simpl; auto. }
  apply G; [|apply incl_refl]. unfold hexes. repeat (constructor; [cbn; intuition congruence|]). constructor.
Qed.

Lemma C44_lemma : forall n m, 3 <= n -> 3 <= m ->
  exists s N, honeycomb n m s /\ Z.of_nat (length (sites s None)) = n * m /\
    nb_get RA (HoneycombNeighborhoodBuilder RA) s None = Ok N /\
    (forall k x, get_site s k = Some x -> exists i j, 0 <= i < n /\ 0 <= j < m /\ k = hex_id n m i j) /\
    forall i j, 0 <= i < n -> 0 <= j < m ->
      get_site s (hex_id n m i j) = Some (mkSite "A" (map round3 (hex_centre i j)) (hex_id n m i j)) /\
      NoDup (six n m i j) /\ length (six n m i j) = 6%nat /\
      neighbours N (hex_id n m i j) (fun k => In k (six n m i j)) /\
      weights N (hex_id n m i j) (fun k w => exists d, w = Some d /\ (Rabs (d - 1) <= 4/1000)%R).
Proof.
  intros n m Hn Hm. destruct (honey_struct n m Hn Hm) as (s & L & HC & HL & HB & CNT & GS).
  destruct (C37_lemma 2 _ _ L s (1 + 1/100)%R None HL HB) as (N & EN & HN).
  exists s, N. split; auto. split; auto. split; [exact EN|].
  assert (BK : forall k y, get_site s k = Some y -> exists i' j', 0 <= i' < n /\ 0 <= j' < m /\ k = i' * m + j').
  { intros k y Gk. apply (built_get L s HB) in Gk as [Ik Ek].
    apply In_nth_error in Ik as [p Ep]. pose proof (dense_nth s p y (built_dense RA L s HB) Ep) as Es.
    assert (p < length (sites s None))%nat by (apply nth_error_Some; congruence).
    exists (k / m), (k mod m). pose proof (Z.mod_pos_bound k m ltac:(lia)). pose proof (Z.div_mod k m ltac:(lia)).
    assert (0 <= k < n * m) by lia. split; [split; [apply Z.div_pos; lia|apply Z.div_lt_upper_bound; lia]|]. split; [lia|]. lia. }
  split.
  { intros k x Gk. destruct (BK k x Gk) as (i & j & Hi & Hj & ->). exists i, j. split; auto. split; auto.
    unfold hex_id. now rewrite !Z.mod_small by lia. }
  intros i j Hi Hj.
  assert (EI : hex_id n m i j = i * m + j) by (unfold hex_id; rewrite !Z.mod_small by lia; auto). rewrite EI.
  pose proof (GS i j Hi Hj) as G. split; [exact G|]. split; [apply six_NoDup; auto|]. split; [reflexivity|].
  destruct (HN _ _ G I) as [H1 H2]. cbn [s_loc] in H1, H2.
  assert (KEY : forall k, (k <> i * m + j /\ exists y d, get_site s k = Some y /\
      cartesian_periodic_distance RA L (map round3 (hx i j)) (s_loc y) = Ok d /\ (d < 1 + 1/100)%R) ->
      In k (six n m i j) /\ forall y d, get_site s k = Some y ->
        cartesian_periodic_distance RA L (map round3 (hx i j)) (s_loc y) = Ok d -> (Rabs (d - 1) <= 4/1000)%R).
  { intros k (Nk & y & d & Gk & D & Lt). destruct (BK k y Gk) as (i' & j' & Hi' & Hj' & ->).
    assert (Ey : y = mkSite "A" (map round3 (hx i' j')) (i' * m + j')) by (rewrite (GS i' j' Hi' Hj') in Gk; congruence).
    subst y. cbn [s_loc] in D.
    destruct (hx_dist n m Hn Hm L i j i' j' HL) as (A & B & p & q & d' & EA & EB & UA & UB & D' & W1 & W3).
    rewrite D in D'. injection D' as <-.
    assert (SM : hexnorm A B < 3) by (destruct (Z.lt_ge_cases (hexnorm A B) 3); auto; specialize (W3 H); lra).
    destruct (hexnorm_small A B SM) as [[-> ->]|[IH Q]].
    - exfalso. apply Nk. assert (i' = i) by (apply (small_same n i' i p); lia). assert (j' = j) by (apply (small_same m j' j q); lia). now subst.
    - split.
      + apply in_map_iff. exists (- A, - B). split; [|now apply hexes_opp in IH]. unfold hex_id. cbn [fst snd].
        rewrite (mod_of n i i' A p), (mod_of m j j' B q); auto.
      + intros y d0 Gy Dy. assert (Ey : y = mkSite "A" (map round3 (hx i' j')) (i' * m + j')) by congruence.
        subst y. cbn [s_loc] in Dy. rewrite D in Dy. injection Dy as <-. auto. }
  assert (BACK : forall k, In k (six n m i j) -> k <> i * m + j /\ exists y d, get_site s k = Some y /\
      cartesian_periodic_distance RA L (map round3 (hx i j)) (s_loc y) = Ok d /\ (d < 1 + 1/100)%R).
  { intros k Hk. apply in_map_iff in Hk as ((a & b) & <- & Hab). cbn [fst snd]. destruct (hexes_norm a b Hab) as (Q & Ba & Bb).
    set (i' := (i + a) mod n). set (j' := (j + b) mod m).
    assert (Hi' : 0 <= i' < n) by (apply Z.mod_pos_bound; lia). assert (Hj' : 0 <= j' < m) by (apply Z.mod_pos_bound; lia).
    change (hex_id n m (i + a) (j + b)) with (i' * m + j').
    destruct (hx_dist n m Hn Hm L i j i' j' HL) as (A & B & p & q & d & EA & EB & UA & UB & D & W1 & _).
    pose proof (Z.div_mod (i + a) n ltac:(lia)) as Mi. pose proof (Z.div_mod (j + b) m ltac:(lia)) as Mj. fold i' in Mi. fold j' in Mj.
    assert (FA : A = - a) by (apply (UA (- a) ((i + a) / n + p)); [lia|rewrite Z.mul_add_distr_l; lia]).
    assert (FB : B = - b) by (apply (UB (- b) ((j + b) / m + q)); [lia|rewrite Z.mul_add_distr_l; lia]).
    assert (Q' : hexnorm A B = 1) by (rewrite FA, FB; rewrite <- Q; unfold hexnorm; ring).
    specialize (W1 Q'). apply Rabs_bnd in W1. split.
    - intros E. apply hex_id_inj in E as [Ei Ej]; auto. unfold i', j' in Ei, Ej.
      rewrite <- (Z.mod_small i n) in Ei at 2 by lia. rewrite <- (Z.mod_small j m) in Ej at 2 by lia.
      rewrite <- (Z.add_0_r i) in Ei at 2. rewrite <- (Z.add_0_r j) in Ej at 2.
      apply mod_eq_small in Ei; try lia. apply mod_eq_small in Ej; try lia. rewrite Ei, Ej in Q. cbn in Q. lia.
    - eexists _, d. split; [apply GS; auto|]. split; [exact D|]. lra. }
  split.
  - intros o Lo. destruct (H1 o Lo) as (l & E & ND & IN). exists l. split; auto. split; auto. intros k. rewrite IN. split; auto. intros Hk. apply KEY, Hk.
  - intros o Lo. destruct (H2 o Lo) as (wl & E1 & E2 & HW). exists wl. split; auto. split; auto. intros k w Hw.
    destruct (HW k w Hw) as (y & d & Gy & D & ->). exists d. split; auto.
    destruct (H1 o Lo) as (l & E & _ & IN). rewrite E2 in E. injection E as <-.
    assert (Ik : In k (map fst wl)) by (apply in_map_iff; exists (k, Some d); auto).
    apply IN in Ik. destruct (KEY k Ik) as [_ K]. eapply K; eauto.
Qed.
