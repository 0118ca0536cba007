(** Periodic distances below half the width of the cell, on any lattice (C26, C37). *)
From Coq Require Import Reals Lra Lia Permutation.
From Verif Require Import Prelude Dict Arith RVec RealArith LatticeModel StructModel NbModel SpecGeom SpecNb SpecWide
  LatticeFacts LatticeMore LatticeOblique StructMore NbFacts NbMore.
Open Scope R_scope.

Lemma vlength_cons a c : Rabs a <= vlength (a :: c) /\ vlength c <= vlength (a :: c).
Proof.
  unfold vlength. cbn [vdot]. pose proof (vdot_nonneg c). split.
  - rewrite <- sqrt_Rsqr_abs. apply sqrt_le_1_alt. unfold Rsqr. simpl. lra.
  - apply sqrt_le_1_alt. simpl. pose proof (Rle_0_sqr a) as S. unfold Rsqr in S. lra.
Qed.
Fixpoint total (v : vec) : R := match v with [] => 0 | x :: v' => Rabs x + total v' end.
Lemma total_nonneg v : 0 <= total v.
Proof. induction v; simpl; [lra|]. pose proof (Rabs_pos a). lra. Qed.
Lemma total_nth v : forall i x, nth_error v i = Some x -> Rabs x <= total v.
Proof.
  induction v as [|y v IH]; intros [|i] x E; simpl in *; try discriminate.
  - injection E as <-. pose proof (total_nonneg v). lra.
  - apply IH in E. pose proof (Rabs_pos y). lra.
Qed.
Fixpoint totals (M : list vec) : R := match M with [] => 0 | r :: M' => total r + totals M' end.
Lemma totals_nonneg M : 0 <= totals M.
Proof. induction M; simpl; [lra|]. pose proof (total_nonneg a). lra. Qed.

Lemma lincomb_bound n : forall J, widths n J -> forall c i x, nth_error (lincomb n c J) i = Some x -> Rabs x <= vlength c * totals J.
Proof.
  assert (Z : forall c J i x, nth_error (vzero n) i = Some x -> Rabs x <= vlength c * totals J).
  { intros c J i x E. assert (x = 0) as ->.
    { unfold vzero in E. apply nth_error_In, repeat_spec in E. auto. }
    rewrite Rabs_R0. apply Rmult_le_pos; [apply vlength_nonneg|apply totals_nonneg]. }
  induction J as [|r J IH]; intros W c i x E.
  - destruct c; simpl in E; eapply Z; eauto.
  - destruct c as [|a c]; [simpl in E; eapply Z; eauto|]. apply widths_cons in W as [Lr W]. cbn [lincomb] in E.
    pose proof (lincomb_length n c J W) as Ll. unfold vplus in E.
    destruct (nth_error (vscale a r) i) as [u|] eqn:Eu.
    2: { apply nth_error_None in Eu. rewrite vscale_length in Eu. assert (nth_error (zipwith Rplus (vscale a r) (lincomb n c J)) i = None); [|congruence].
         apply nth_error_None. rewrite zipwith_length; rewrite vscale_length; lia. }
    destruct (nth_error (lincomb n c J) i) as [y|] eqn:Ey.
    2: { apply nth_error_None in Ey. assert (nth_error (vscale a r) i <> None) as B by congruence. apply nth_error_Some in B. rewrite vscale_length in B. lia. }
    rewrite zipwith_nth, Eu, Ey in E. injection E as <-.
    apply IH in Ey; auto. unfold vscale in Eu. rewrite nth_error_map in Eu. destruct (nth_error r i) as [v|] eqn:Ev; [|discriminate]. injection Eu as <-.
    apply total_nth in Ev. destruct (vlength_cons a c) as [V1 V2].
    pose proof (Rabs_triang (a * v) y) as T. rewrite Rabs_mult in T. cbn [totals].
    pose proof (totals_nonneg J). pose proof (Rabs_pos a). pose proof (Rabs_pos v). pose proof (total_nonneg r).
    pose proof (Rmult_le_compat _ _ _ _ (Rabs_pos a) (Rabs_pos v) V1 Ev).
    pose proof (Rmult_le_compat_r (totals J) _ _ H V2). lra.
Qed.

Lemma C26_width_lemma : forall n vs per, basis n vs -> exists w, 0 < w /\ wide n vs per w.
Proof.
  intros n vs per B. destruct (basis_inverse n vs B) as (J & _ & W & LJ & WJ & I1 & I2).
  pose proof (totals_nonneg J) as P. exists (/ (totals J + 1)). split; [apply Rinv_0_lt_compat; lra|].
  intros f i x Lf _ E. rewrite <- (I1 f Lf) in E. apply (lincomb_bound n J WJ) in E.
  apply (Rmult_le_reg_l (totals J + 1)); [lra|]. rewrite <- Rmult_assoc, Rinv_r, Rmult_1_l by lra.
  pose proof (vlength_nonneg (lincomb n f vs)). nra.
Qed.

(** ** The nearest image *)
Lemma vminus_nth u v i : nth_error (vminus u v) i = match nth_error u i, nth_error v i with Some x, Some y => Some (x - y) | _, _ => None end.
Proof. unfold vminus. apply zipwith_nth. Qed.

Lemma rints_are : forall per f z, length f = length per -> whole per z ->
  (forall i x y, nth_error per i = Some true -> nth_error f i = Some x -> nth_error z i = Some y -> Rabs (x - IZR y) < 1/2) ->
  rints per f = z.
Proof.
  intros per f z LL W. revert f LL. induction W as [|b k per z Hb W IH]; intros [|x f] LL H; try discriminate; [reflexivity|].
  unfold rints in *. cbn [zipwith]. f_equal.
  - destruct b; [apply zrint_near; apply (H 0%nat x k); auto|symmetry; auto].
  - apply IH; [simpl in LL; lia|]. intros i. apply (H (S i)).
Qed.
Lemma differ : forall per z y, whole per z -> whole per y -> z <> y ->
  exists i a b, nth_error per i = Some true /\ nth_error z i = Some a /\ nth_error y i = Some b /\ a <> b.
Proof.
  intros per z y W. revert y. induction W as [|b k per z Hb W IH]; intros y W' N; inversion W'; subst; [congruence|].
  destruct (Z.eq_dec k y0) as [->|D].
  - destruct (IH l') as (i & a & c & H); [auto|congruence|]. exists (S i), a, c. auto.
  - exists 0%nat, k, y0. destruct b; [auto|]. exfalso. apply D. rewrite Hb, H1 by auto. auto.
Qed.

Lemma C26_near_lemma : forall n vs per L w p q q'', lattice_on n vs per L -> wide n vs per w -> length p = n -> length q = n ->
  image n vs per q q'' -> vlength (vminus p q'') < w / 2 ->
  cartesian_periodic_distance RA L p q = Ok (round3 (vlength (vminus p q''))) /\
  forall q', image n vs per q q' -> vlength (vminus p q'') <= vlength (vminus p q').
Proof.
  intros n vs per L w p q q'' HL HW Lp Lq (z & Wz & ->) D.
  destruct (coords_exist n vs per L HL p Lp) as [f Cf]. destruct (coords_exist n vs per L HL q Lq) as [g Cg].
  pose proof Cf as [Lf Ef]. pose proof Cg as [Lg Eg].
  assert (W : widths n vs) by apply HL.
  pose proof (on_per n vs per L HL) as Lper.
  assert (Lv : length (vminus f g) = n) by (rewrite vminus_length; congruence).
  assert (X : forall z, length z = n -> vminus p (vplus q (lincomb n (map IZR z) vs)) = lincomb n (vminus (vminus f g) (map IZR z)) vs).
  { intros y Ly. assert (Lm : length (map IZR y) = n) by (rewrite map_length; auto).
    rewrite lincomb_minus; auto; [|congruence]. rewrite lincomb_minus, Ef, Eg; auto; [|congruence].
    set (t := lincomb n _ vs). assert (Lt : length t = n) by (unfold t; apply lincomb_length; auto).
    rewrite (vminus_as_plus (vminus p q)), !vminus_as_plus; auto; try congruence.
    + rewrite vscale_plus, vplus_assoc. reflexivity.
    + rewrite vplus_length; congruence.
    + rewrite vminus_length; congruence. }
  assert (Lz : length z = n) by (eapply whole_length; eauto).
  rewrite X in D by auto. rewrite X by auto.
  assert (Wp : 0 < w) by (pose proof (vlength_nonneg (lincomb n (vminus (vminus f g) (map IZR z)) vs)); lra).
  assert (C : forall i, (i < n)%nat -> exists x, nth_error (vminus f g) i = Some x).
  { intros i Hi. destruct (nth_error (vminus f g) i) eqn:E; [eauto|]. apply nth_error_None in E. lia. }
  assert (S : forall i x y, nth_error per i = Some true -> nth_error (vminus f g) i = Some x -> nth_error z i = Some y -> Rabs (x - IZR y) < 1/2).
  { intros i x y P Ex Ey. assert (w * Rabs (x - IZR y) < w * (1/2)); [|apply (Rmult_lt_reg_l w); auto].
    eapply Rle_lt_trans; [apply (HW (vminus (vminus f g) (map IZR z)) i)|lra]; auto.
    - rewrite vminus_length; auto. rewrite map_length. congruence.
    - rewrite vminus_nth, Ex, nth_error_map, Ey. reflexivity. }
  split.
  - rewrite (dist_ok n vs per L HL p q f g); auto. unfold diff_frac. rewrite (rints_are per (vminus f g) z); auto. congruence.
  - intros q' (y & Wy & ->). assert (Ly : length y = n) by (eapply whole_length; eauto). rewrite X by auto.
    destruct (list_eq_dec Z.eq_dec z y) as [->|N]; [lra|].
    destruct (differ per z y Wz Wy N) as (i & a & b & P & Ea & Eb & NE).
    destruct (C i) as [x Ex]. { assert (nth_error per i <> None) as B by congruence. apply nth_error_Some in B. lia. }
    pose proof (S i x a P Ex Ea) as Sa.
    assert (G : w * Rabs (x - IZR b) <= vlength (lincomb n (vminus (vminus f g) (map IZR y)) vs)).
    { apply (HW (vminus (vminus f g) (map IZR y)) i); auto.
      - rewrite vminus_length; auto. rewrite map_length. congruence.
      - rewrite vminus_nth, Ex, nth_error_map, Eb. reflexivity. }
    assert (1 <= Rabs (IZR a - IZR b)).
    { rewrite <- minus_IZR, <- abs_IZR. apply IZR_le. lia. }
    assert (1/2 < Rabs (x - IZR b)).
    { pose proof (Rabs_triang (IZR a - x) (x - IZR b)) as T. replace (IZR a - x + (x - IZR b)) with (IZR a - IZR b) in T by ring.
      rewrite (Rabs_minus_sym (IZR a) x) in T. lra. }
    nra.
Qed.

(** ** Neighbourhoods by distance *)
Lemma C37_images_lemma : forall n vs per L s cutoff cls, lattice_on n vs per L -> built RA L s ->
  periods_orthogonal per vs \/ (exists w, wide n vs per w /\ (cutoff + 1/2000 <= w / 2)%R) ->
  exists N, nb_get RA (BDistance cutoff) s cls = Ok N /\
    forall i x, get_site s i = Some x -> in_class cls (s_class x) ->
      neighbours N i (fun j => j <> i /\ exists y q', get_site s j = Some y /\ image n vs per (s_loc y) q' /\
        (round3 (vlength (vminus (s_loc x) q')) < cutoff)%R) /\
      weights N i (fun j d => exists y q', get_site s j = Some y /\ image n vs per (s_loc y) q' /\
        d = Some (round3 (vlength (vminus (s_loc x) q'))) /\
        forall q'', image n vs per (s_loc y) q'' -> (vlength (vminus (s_loc x) q') <= vlength (vminus (s_loc x) q''))%R).
Proof.
  intros n vs per L s cutoff cls HL HB HO. destruct (C37_lemma n vs per L s cutoff cls HL HB) as (N & EN & H).
  exists N. split; auto. intros i x Gx Ix. destruct (H i x Gx Ix) as [HN HWt]. clear H.
  assert (Lx : length (s_loc x) = n) by (apply (built_loc n vs per L HL s HB); now apply (built_get L s HB) in Gx).
  assert (Hl : forall j y, get_site s j = Some y -> length (s_loc y) = n).
  { intros j y Gy. apply (built_loc n vs per L HL s HB); now apply (built_get L s HB) in Gy. }
  assert (K : forall y, length (s_loc y) = n -> forall q'', image n vs per (s_loc y) q'' -> round3 (vlength (vminus (s_loc x) q'')) < cutoff ->
    exists q', image n vs per (s_loc y) q' /\ cartesian_periodic_distance RA L (s_loc x) (s_loc y) = Ok (round3 (vlength (vminus (s_loc x) q'))) /\
      forall q''', image n vs per (s_loc y) q''' -> vlength (vminus (s_loc x) q') <= vlength (vminus (s_loc x) q''')).
  { intros y Ly q'' Iq Dq. destruct HO as [O|(w & Ww & Cw)].
    - exact (C26_periods_lemma n vs per L (s_loc x) (s_loc y) HL O Lx Ly).
    - exists q''. split; auto. apply (C26_near_lemma n vs per L w); auto.
      pose proof (round3_bound (vlength (vminus (s_loc x) q''))) as B. pose proof (Rle_abs (vlength (vminus (s_loc x) q'') - round3 (vlength (vminus (s_loc x) q'')))). lra. }
  assert (Hin : forall j, (j <> i /\ exists y d, get_site s j = Some y /\ cartesian_periodic_distance RA L (s_loc x) (s_loc y) = Ok d /\ d < cutoff) <->
    (j <> i /\ exists y q', get_site s j = Some y /\ image n vs per (s_loc y) q' /\ round3 (vlength (vminus (s_loc x) q')) < cutoff)).
  { intros j. split; intros (Dj & y & d & Gy & H1 & H2); (split; [auto|]); exists y.
    - destruct (C26_upper_lemma n vs per L (s_loc x) (s_loc y) HL Lx (Hl _ _ Gy)) as (q' & Iq & E). rewrite H1 in E. injection E as ->. exists q'. auto.
    - destruct (K y (Hl _ _ Gy) d H1 H2) as (q' & Iq & E & M). exists (round3 (vlength (vminus (s_loc x) q'))). split; auto. split; auto.
      eapply Rle_lt_trans; [apply round3_le, M, H1|auto]. }
  split.
  - intros o Ho. destruct (HN o Ho) as (l & El & ND & Hj). exists l. split; auto. split; auto. intros j. rewrite Hj. apply Hin.
  - intros o Ho. destruct (HWt o Ho) as (wl & E1 & E2 & Hw). exists wl. split; auto. split; auto. intros j d Ijd.
    destruct (HN o Ho) as (l & El & ND & Hj). rewrite E2 in El. injection El as <-.
    destruct (Hw j d Ijd) as (y & e & Gy & Ed & ->).
    assert (Ij : In j (map fst wl)) by (apply (in_map fst) in Ijd; auto). apply Hj in Ij. destruct Ij as (Dj & y' & e' & Gy' & Ed' & Lt).
    rewrite Gy in Gy'. injection Gy' as <-. rewrite Ed in Ed'. injection Ed' as <-.
    destruct (C26_upper_lemma n vs per L (s_loc x) (s_loc y) HL Lx (Hl _ _ Gy)) as (q0 & I0 & E0). rewrite Ed in E0. injection E0 as ->.
    destruct (K y (Hl _ _ Gy) q0 I0 Lt) as (q' & Iq & E & M). exists y, q'. rewrite Ed in E. injection E as E. rewrite E. auto.
Qed.

(** ** The hexagonal lattice *)
Lemma hex_wide : wide 2 [[1; 0]; [1/2; sqrt 3 / 2]] [true; true] (sqrt 3 / 2).
Proof.
  assert (Q : sqrt 3 * sqrt 3 = 3) by (apply sqrt_sqrt; lra). pose proof (sqrt_pos 3) as P3.
  intros f i x Lf Pi Ei. destruct f as [|a [|b [|]]]; try discriminate.
  assert (E : vdot (lincomb 2 [a; b] [[1; 0]; [1/2; sqrt 3 / 2]]) (lincomb 2 [a; b] [[1; 0]; [1/2; sqrt 3 / 2]]) = a * a + a * b + b * b).
  { unfold lincomb, vplus, vscale, vzero, vdot; simpl. nra. }
  unfold vlength. rewrite E. rewrite <- (sqrt_Rsqr (sqrt 3 / 2 * Rabs x)); [|apply Rmult_le_pos; [lra|apply Rabs_pos]].
  apply sqrt_le_1_alt. replace (Rsqr (sqrt 3 / 2 * Rabs x)) with (3 / 4 * (x * x)).
  - assert (H : x = a \/ x = b) by (destruct i as [|[|i]]; simpl in Ei; [left|right|destruct i; discriminate]; congruence).
    pose proof (Rle_0_sqr (a / 2 + b)) as S1. pose proof (Rle_0_sqr (a + b / 2)) as S2. unfold Rsqr in S1, S2. destruct H as [-> | ->]; nra.
  - rewrite Rsqr_mult, <- Rsqr_abs. unfold Rsqr, Rdiv. nra.
Qed.
