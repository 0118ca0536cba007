(** The lattice properties C23-C27, as lemmas. *)
From Coq Require Import Reals Lra.
From Verif Require Import Prelude Dict Arith RVec RealArith LatticeModel StructModel SpecGeom LatticeFacts.
Open Scope R_scope.

Lemma vdot_comm u v : vdot u v = vdot v u.
Proof. revert v; induction u; destruct v; simpl; auto. rewrite IHu. ring. Qed.
Lemma vdot_plus_l u v w : length u = length v -> vdot (vplus u v) w = vdot u w + vdot v w.
Proof.
  revert v w; induction u; destruct v, w; simpl; intros; try discriminate; try ring.
  change (vplus (a :: u) (r :: v)) with ((a + r) :: vplus u v). simpl. rewrite IHu; auto. ring.
Qed.
Lemma vdot_scale_l k u v : vdot (vscale k u) v = k * vdot u v.
Proof.
  revert v; induction u; destruct v; simpl; try ring. fold (vscale k u). rewrite IHu. ring.
Qed.
Lemma vdot_vzero_l n v : vdot (vzero n) v = 0.
Proof. revert v; induction n; destruct v; simpl; auto. fold (vzero n). rewrite IHn. ring. Qed.

(** Sum of [c_i^2 * |v_i|^2]. *)
Fixpoint wsum (c : vec) (vs : list vec) : R :=
  match c, vs with x :: c', v :: vs' => x * x * vdot v v + wsum c' vs' | _, _ => 0 end.

Lemma orthogonal_tail v vs : orthogonal (v :: vs) -> orthogonal vs.
Proof. intros O i j u w N Hi Hj. apply (O (S i) (S j) u w); auto. Qed.
Lemma orthogonal_head n v vs c : orthogonal (v :: vs) -> widths n vs -> vdot v (lincomb n c vs) = 0.
Proof.
  intros O W. assert (H : forall w, In w vs -> vdot v w = 0).
  { intros w Hw. apply In_nth_error in Hw as [i Hi]. apply (O 0%nat (S i) v w); auto. }
  clear O. revert vs W H; induction c; destruct vs; simpl; intros; try (rewrite vdot_comm; apply vdot_vzero_l).
  apply widths_cons in W as [W1 W2]. rewrite vdot_comm, vdot_plus_l.
  - rewrite vdot_scale_l, (vdot_comm _ v), (vdot_comm _ v), H, IHc; auto. ring.
  - rewrite vscale_length, lincomb_length; auto.
Qed.

Lemma orthogonal_norm n c vs : orthogonal vs -> widths n vs ->
  vdot (lincomb n c vs) (lincomb n c vs) = wsum c vs.
Proof.
  revert vs; induction c; destruct vs; simpl; intros O W; try apply vdot_vzero.
  apply widths_cons in W as [W1 W2].
  assert (LL : length (vscale a l) = length (lincomb n c vs)) by (rewrite vscale_length, lincomb_length; auto).
  rewrite vdot_plus_l, (vdot_comm (vscale a l)), (vdot_comm (lincomb n c vs)), !vdot_plus_l; auto.
  rewrite IHc; [|eapply orthogonal_tail; eauto|auto].
  rewrite (vdot_comm (lincomb n c vs) (vscale a l)), !vdot_scale_l, (vdot_comm l (vscale a l)), vdot_scale_l.
  rewrite (orthogonal_head n l vs c); auto. ring.
Qed.

Lemma wsum_le c c' vs : Forall2 (fun x y => Rabs x <= Rabs y) c c' -> wsum c vs <= wsum c' vs.
Proof.
  intros H; revert vs; induction H; destruct vs; simpl; try lra.
  apply Rplus_le_compat; auto. apply Rmult_le_compat_r; [apply vdot_nonneg|].
  apply Rsqr_le_abs_1 in H. exact H.
Qed.
Lemma wsum_eq c c' vs : Forall2 (fun x y => Rabs x = Rabs y) c c' -> wsum c vs = wsum c' vs.
Proof.
  intros H. apply Rle_antisym; apply wsum_le.
  - clear vs. induction H; constructor; auto. lra.
  - clear vs. induction H; constructor; auto. lra.
Qed.

Lemma orthogonal_le n c c' vs : orthogonal vs -> widths n vs -> Forall2 (fun x y => Rabs x <= Rabs y) c c' ->
  vlength (lincomb n c vs) <= vlength (lincomb n c' vs).
Proof.
  intros O W H. unfold vlength. apply sqrt_le_1_alt. rewrite !orthogonal_norm; auto. now apply wsum_le.
Qed.
Lemma orthogonal_eq n c c' vs : orthogonal vs -> widths n vs -> Forall2 (fun x y => Rabs x = Rabs y) c c' ->
  vlength (lincomb n c vs) = vlength (lincomb n c' vs).
Proof.
  intros O W H. unfold vlength. f_equal. rewrite !orthogonal_norm; auto. now apply wsum_eq.
Qed.

Lemma diff_frac_shift per f z : length f = length per -> whole per z ->
  Forall2 (fun x y => Rabs x = Rabs y) (diff_frac per (vplus f (map IZR z))) (diff_frac per f).
Proof.
  intros LL W. revert f LL. induction W; destruct f; simpl; intros LL; try discriminate; [constructor|].
  unfold diff_frac, rints, vminus, vplus in *; simpl. constructor; [|apply IHW; lia].
  destruct x; [apply zrint_shift|]. rewrite H by auto. f_equal. ring.
Qed.
Lemma rint_nearest x z : Rabs (x - IZR (zrint x)) <= Rabs (x - IZR z).
Proof.
  destruct (Rle_dec (Rabs (x - IZR z)) (1/2)) as [H|H]; [|pose proof (zrint_bound x); lra].
  destruct (Req_dec (Rabs (x - IZR z)) (1/2)) as [E|E]; [pose proof (zrint_bound x); lra|].
  rewrite (zrint_near x z); lra.
Qed.
Lemma diff_frac_nearest per f z : length f = length per -> whole per z ->
  Forall2 (fun x y => Rabs x <= Rabs y) (diff_frac per f) (vminus f (map IZR z)).
Proof.
  intros LL W. revert f LL. induction W; destruct f; simpl; intros LL; try discriminate; [constructor|].
  unfold diff_frac, rints, vminus in *; simpl. constructor; [|apply IHW; lia].
  destruct x; [apply rint_nearest|]. rewrite H by auto. lra.
Qed.

(* ---------------------------------------------------------------- C23 *)
Lemma C23_lemma : forall n vs per L, lattice_on n vs per L ->
  (forall p, length p = n -> exists f,
     get_fractional_coords RA L p = Ok f /\ coords n vs f p /\ get_cartesian_coords RA L f = Ok p) /\
  (forall f, length f = n -> exists p,
     get_cartesian_coords RA L f = Ok p /\ coords n vs f p /\ get_fractional_coords RA L p = Ok f).
Proof.
  intros n vs per L HL. split.
  - intros p Lp. destruct (frac_ok n vs per L HL p Lp) as (f & E & C). exists f. split; auto. split; auto.
    rewrite (cart_ok n vs per L HL); [|apply C]. f_equal. apply C.
  - intros f Lf. exists (lincomb n f vs). split; [now apply (cart_ok n vs per L HL)|].
    assert (coords n vs f (lincomb n f vs)) by (split; auto). split; auto.
    now apply (frac_coords n vs per L HL).
Qed.

Lemma C23_exists_lemma : forall n vs p, (0 < n)%nat -> basis n vs -> length (flags n p) = n ->
  exists L, lattice_init vs p = Ok L /\ lattice_on n vs (flags n p) L /\ l_dim L = n.
Proof.
  intros n vs p P B LF. exists (mkLattice vs (flags n p) vs n). split; [now apply lattice_init_flags|].
  split; auto. split; auto. split; auto. exists p. split; auto. now apply lattice_init_flags.
Qed.

Lemma C23_singular_lemma : forall n vs p L q, (0 < n)%nat -> length vs = n -> widths n vs -> ~ independent n vs ->
  lattice_init vs p = Ok L -> get_fractional_coords RA L q = Err LinAlgError.
Proof.
  intros n vs p L q P Lv W I E. rewrite (lattice_init_square n) in E; auto. injection E as <-.
  unfold get_fractional_coords, inv_matrix. simpl. destruct (real_inv vs) as [J|e] eqn:EJ.
  - exfalso. apply I. apply real_inv_Ok_basis in EJ. apply inverse_basis in EJ. rewrite Lv in EJ. apply EJ.
  - apply real_inv_singular in EJ as [-> _]. reflexivity.
Qed.

(* ---------------------------------------------------------------- C24 *)
Lemma C24_lemma : forall n vs per L p, lattice_on n vs per L -> length p = n ->
  exists q, get_periodized_cartesian_coords RA L p = Ok q /\
    (exists z, whole per z /\ q = vplus p (lincomb n (map IZR z) vs)) /\
    (exists f g, coords n vs f p /\ coords n vs g q /\
       forall i b x y, nth_error per i = Some b -> nth_error f i = Some x -> nth_error g i = Some y ->
         if b then 0 <= y < 1 else y = x) /\
    get_periodized_cartesian_coords RA L q = Ok q /\
    (forall p', length p' = n ->
       (get_periodized_cartesian_coords RA L p' = Ok q <-> image n vs per p p')).
Proof.
  intros n vs per L p HL Lp. destruct (coords_exist n vs per L HL p Lp) as [f C].
  pose proof (per_ok n vs per L HL p f C) as E. pose proof (per_periodised n vs per L HL p f C) as P.
  set (q := lincomb n (into_cell per f) vs) in *. exists q. pose proof C as [Lf _].
  assert (Lq : length q = n) by (apply lincomb_length, HL).
  split; auto. split; [apply P|]. split; [|split].
  - exists f, (into_cell per f). split; auto. split; [split; auto; apply (into_cell_length n vs per L HL); auto|].
    intros i b x y Hb Hx Hy. unfold into_cell in Hy. rewrite zipwith_nth, Hx, Hb in Hy. injection Hy as <-.
    destruct b; auto. pose proof (zfloor_spec x). lra.
  - apply (per_iff n vs per L HL); auto. split; [|apply P]. now apply (image_refl n vs per L HL).
  - intros p' Lp'. rewrite <- E. rewrite <- (per_same n vs per L HL p p'); auto. split; congruence.
Qed.

(* ---------------------------------------------------------------- C25 *)
Lemma C25_lemma : forall n vs per L p q, lattice_on n vs per L -> length p = n -> length q = n ->
  exists d, cartesian_periodic_distance RA L p q = Ok d /\ cartesian_periodic_distance RA L q p = Ok d /\
    0 <= d /\ (image n vs per p q -> d = 0) /\
    (orthogonal vs -> forall p' q', image n vs per p p' -> image n vs per q q' ->
       cartesian_periodic_distance RA L p' q' = Ok d).
Proof.
  intros n vs per L p q HL Lp Lq.
  destruct (dist_image n vs per L HL p q Lp Lq) as (q0 & _ & E). eexists. split; [exact E|].
  rewrite <- (dist_sym n vs per L HL p q); auto. split; auto.
  split; [eapply dist_nonneg; eauto|]. split.
  - intros I. pose proof (dist_zero n vs per L HL p q Lp I). congruence.
  - intros O p' q' Ip Iq. rewrite <- E.
    destruct (coords_exist n vs per L HL p Lp) as [f Cf]. destruct (coords_exist n vs per L HL q Lq) as [g Cg].
    destruct (image_coords n vs per L HL p p' f Cf Ip) as (z & Wz & Cf').
    destruct (image_coords n vs per L HL q q' g Cg Iq) as (w & Ww & Cg').
    rewrite (dist_ok n vs per L HL p' q' _ _ Cf' Cg'), (dist_ok n vs per L HL p q _ _ Cf Cg). do 2 f_equal.
    apply orthogonal_eq; auto; [apply HL|].
    assert (Lz : length z = n) by (eapply whole_length; eauto). assert (Lw : length w = n) by (eapply whole_length; eauto).
    destruct Cf as [Lf _], Cg as [Lg _].
    replace (vminus (vplus f (map IZR z)) (vplus g (map IZR w)))
      with (vplus (vminus f g) (map IZR (zipwith Z.add z (map Z.opp w)))).
    + apply diff_frac_shift; [rewrite vminus_length; rewrite ?(on_per n vs per L HL); congruence|].
      apply whole_add; auto. apply whole_opp; auto.
    + clear -Lf Lg Lz Lw. revert f g z w Lf Lg Lz Lw. induction n; destruct f, g, z, w; simpl; intros; try discriminate; auto.
      unfold vplus, vminus in *; simpl. f_equal; auto. rewrite plus_IZR, opp_IZR. ring.
Qed.

(* ---------------------------------------------------------------- C26 *)
Lemma C26_orthogonal_lemma : forall n vs per L p q, lattice_on n vs per L -> orthogonal vs ->
  length p = n -> length q = n ->
  exists q', image n vs per q q' /\
    cartesian_periodic_distance RA L p q = Ok (round3 (vlength (vminus p q'))) /\
    forall q'', image n vs per q q'' -> vlength (vminus p q') <= vlength (vminus p q'').
Proof.
  intros n vs per L p q HL O Lp Lq.
  destruct (coords_exist n vs per L HL p Lp) as [f Cf]. destruct (coords_exist n vs per L HL q Lq) as [g Cg].
  pose proof Cf as [Lf Ef]. pose proof Cg as [Lg Eg].
  assert (W : widths n vs) by apply HL.
  assert (Lv : length (vminus f g) = n) by (rewrite vminus_length; congruence).
  assert (X : forall z, length z = n -> vminus p (vplus q (lincomb n (map IZR z) vs)) = lincomb n (vminus (vminus f g) (map IZR z)) vs).
  { intros z Lz. assert (Lm : length (map IZR z) = n) by (rewrite map_length; auto).
    rewrite lincomb_minus; auto; [|congruence]. rewrite lincomb_minus, Ef, Eg; auto; [|congruence].
    set (t := lincomb n _ vs). assert (Lt : length t = n) by (unfold t; apply lincomb_length; auto).
    rewrite (vminus_as_plus (vminus p q)), !vminus_as_plus; auto; try congruence.
    + rewrite vscale_plus, vplus_assoc. reflexivity.
    + rewrite vplus_length; congruence.
    + rewrite vminus_length; congruence. }
  set (z := rints per (vminus f g)).
  assert (Lz : length z = n) by (apply (rints_length n vs per L HL); auto).
  assert (Wz : whole per z) by (apply (rints_whole n vs per L HL); auto).
  exists (vplus q (lincomb n (map IZR z) vs)). split; [exists z; auto|]. split.
  - rewrite (dist_ok n vs per L HL p q f g); auto. do 3 f_equal. rewrite X; auto.
  - intros q'' (w & Ww & ->). assert (Lw : length w = n) by (eapply whole_length; eauto).
    rewrite !X; auto. apply orthogonal_le; auto.
    apply diff_frac_nearest; auto. rewrite (on_per n vs per L HL); auto.
Qed.

Lemma C26_upper_lemma : forall n vs per L p q, lattice_on n vs per L -> length p = n -> length q = n ->
  exists q', image n vs per q q' /\ cartesian_periodic_distance RA L p q = Ok (round3 (vlength (vminus p q'))).
Proof. intros n vs per L p q HL. exact (dist_image n vs per L HL p q). Qed.

Lemma basis_2 a b c d : a * d - b * c <> 0 -> basis 2 [[a; b]; [c; d]].
Proof.
  intros D. split; auto. split; [repeat constructor|]. intros cs Lc E.
  destruct cs as [|x [|y [|]]]; try discriminate. unfold lincomb, vplus, vscale, vzero in E. simpl in E.
  injection E as E1 E2. unfold vzero; simpl.
  assert (x * (a * d - b * c) = 0) as X.
  { replace (x * (a * d - b * c)) with ((x * a + (y * c + 0)) * d - (x * b + (y * d + 0)) * c) by ring. rewrite E1, E2. ring. }
  assert (y * (a * d - b * c) = 0) as Y.
  { replace (y * (a * d - b * c)) with ((x * b + (y * d + 0)) * a - (x * a + (y * c + 0)) * b) by ring. rewrite E1, E2. ring. }
  apply Rmult_integral in X as [X|X]; [|contradiction]. apply Rmult_integral in Y as [Y|Y]; [|contradiction].
  now subst.
Qed.

Definition oblique : list vec := [[8; 0]; [7; 20]].
Lemma oblique_on : lattice_on 2 oblique [true; true] (mkLattice oblique [true; true] oblique 2).
Proof. apply lattice_on_intro; auto. apply basis_2. lra. Qed.

Lemma C26_refuted_lemma : exists n vs per L p q q'' d, lattice_on n vs per L /\ length p = n /\ length q = n /\
  image n vs per q q'' /\ cartesian_periodic_distance RA L p q = Ok d /\ round3 (vlength (vminus p q'')) < d.
Proof.
  exists 2%nat, oblique, [true; true], (mkLattice oblique [true; true] oblique 2), [6; 8], [0; 0], [8; 0], 10.
  split; [apply oblique_on|]. split; auto. split; auto. split; [|split].
  - exists [1%Z; 0%Z]. split; [repeat constructor; discriminate|].
    unfold vplus, oblique, lincomb, vscale, vplus, vzero; simpl. repeat f_equal; lra.
  - rewrite (dist_ok 2 oblique [true; true] _ oblique_on _ _ [4/10; 4/10] [0; 0]).
    + assert (zrint (4/10 - 0) = 0%Z) as Z by (apply zrint_near; apply Rabs_def1; lra).
      unfold diff_frac, rints, vminus; simpl. rewrite Z. unfold oblique, lincomb, vplus, vscale, vzero, vlength; simpl.
      replace (_ + _) with (10 * 10) by field. rewrite sqrt_square by lra. f_equal. apply (round3_IZR 10).
    + split; auto. unfold oblique, lincomb, vplus, vscale, vzero; simpl. repeat f_equal; field.
    + split; auto. unfold oblique, lincomb, vplus, vscale, vzero; simpl. repeat f_equal; field.
  - apply Rle_lt_trans with 9; [|lra]. rewrite <- (round3_IZR 9). apply round3_le.
    unfold vlength, vminus; simpl. rewrite <- (sqrt_square 9) by lra. apply sqrt_le_1_alt. lra.
Qed.

(* ---------------------------------------------------------------- C27 *)
Lemma lincomb_scaled n c k vs : lincomb n c (scaled k vs) = lincomb n (zipwith (fun x a => x * IZR a) c k) vs \/ length k <> length vs.
Proof.
  destruct (Nat.eq_dec (length k) (length vs)) as [E|E]; [left|auto].
  revert k vs E; induction c; destruct k, vs; simpl; intros E; try discriminate; auto.
  unfold scaled in *; simpl. rewrite IHc by auto. now rewrite vscale_scale.
Qed.
Lemma scaled_widths n k vs : widths n vs -> widths n (scaled k vs).
Proof.
  intros W. revert k; induction W; destruct k; simpl; try constructor; auto. now rewrite vscale_length.
  apply IHW.
Qed.

Lemma C27_lemma : forall n vs per L k, lattice_on n vs per L -> length k = n -> Forall (fun a => a <> 0%Z) k ->
  exists L', get_scaled_lattice RA L k = Ok L' /\ lattice_on n (scaled k vs) per L' /\ l_periodic L' = per /\
    forall p q, length p = n -> length q = n ->
      (get_periodized_cartesian_coords RA L' p = get_periodized_cartesian_coords RA L' q <->
       exists z, whole per z /\ q = vplus p (lincomb n (map IZR (zipwith Z.mul z k)) vs)).
Proof.
  intros n vs per L k HL Lk Nk. pose proof (lattice_on_fields _ _ _ _ HL) as [EL Pn].
  pose proof (on_basis _ _ _ _ HL) as (Lv & W & I).
  assert (SC : forall c, lincomb n c (scaled k vs) = lincomb n (zipwith (fun x a => x * IZR a) c k) vs).
  { intros c. destruct (lincomb_scaled n c k vs) as [E|E]; auto. congruence. }
  assert (Bs : basis n (scaled k vs)).
  { split; [unfold scaled; rewrite zipwith_length; congruence|]. split; [now apply scaled_widths|].
    assert (Ls : length (scaled k vs) = n) by (unfold scaled; rewrite zipwith_length; congruence).
    intros c Lc E. rewrite Ls in *. rewrite SC in E. apply I in E; [|rewrite zipwith_length; congruence].
    rewrite Lv in E. clear -E Lc Lk Nk. revert c k Lc Lk Nk E.
    induction n; destruct c, k; simpl; intros; try discriminate; auto.
    inversion Nk; subst. unfold vzero in *; simpl in *. injection E as E1 E2. f_equal; [|eapply IHn with (k := k); eauto].
    apply Rmult_integral in E1 as [E1|E1]; auto. apply (eq_IZR_R0) in E1. contradiction. }
  exists (mkLattice (scaled k vs) per (scaled k vs) n). split; [|split; [|split; auto]].
  - unfold get_scaled_lattice. rewrite EL; cbn [l_vecs l_periodic].
    replace (zipwith _ k vs) with (scaled k vs).
    + now rewrite (lattice_init_flags n).
    + unfold scaled. clear. revert vs; induction k; destruct vs; simpl; f_equal; auto.
      apply map_ext; intros; simpl; ring.
  - apply lattice_on_intro; auto. eapply on_per; eauto.
  - intros p q Lp Lq. rewrite (per_same n (scaled k vs) per).
    + unfold image. split; intros (z & Wz & E); exists z; (split; [auto|]); rewrite E; f_equal.
      * rewrite SC. f_equal. clear. revert k; induction z; destruct k; simpl; f_equal; auto. now rewrite mult_IZR.
      * rewrite SC. f_equal. clear. revert k; induction z; destruct k; simpl; f_equal; auto. now rewrite mult_IZR.
    + apply lattice_on_intro; auto. eapply on_per; eauto.
    + auto. + auto.
Qed.
