(** Facts about the lattice model over the reals (C23-C27). *)
From Coq Require Import Reals Lra.
From Verif Require Import Prelude Dict Arith RVec RealArith LatticeModel StructModel SpecGeom.
Open Scope R_scope.

Lemma concat_width {B} n (vs : list (list B)) : Forall (fun v => length v = n) vs ->
  length (concat vs) = (length vs * n)%nat.
Proof. induction 1; simpl; auto. rewrite app_length. lia. Qed.

Lemma chunks_concat {B} n (vs : list (list B)) : Forall (fun v => length v = n) vs ->
  chunks (length vs) n (concat vs) = vs.
Proof.
  induction 1; simpl; auto. rewrite firstn_app, firstn_all2, skipn_app, skipn_all2 by lia.
  rewrite H, Nat.sub_diag. simpl. rewrite app_nil_r. f_equal. auto.
Qed.

Lemma rectangular_widths {B} n (vs : list (list B)) : Forall (fun v => length v = n) vs -> rectangular vs = true.
Proof.
  intros W. unfold rectangular. apply forallb_forall. intros v Hv. apply Nat.eqb_eq.
  rewrite Forall_forall in W. rewrite (W v Hv). destruct vs as [|u vs]; [destruct Hv|]. simpl.
  symmetry. apply W; simpl; auto.
Qed.

Lemma lattice_init_square {B} n (vs : list (list B)) p :
  (0 < n)%nat -> length vs = n -> Forall (fun v => length v = n) vs ->
  lattice_init vs p = Ok (mkLattice vs (match p with PBool b => map (fun _ => b) vs | PFlags l => l end) vs n).
Proof.
  intros P L W. unfold lattice_init. rewrite (rectangular_widths n); auto. simpl.
  rewrite (concat_width n); auto. rewrite L, Nat.sqrt_square, Nat.eqb_refl. simpl.
  destruct vs as [|v vs]; [simpl in L; lia|].
  rewrite <- L at 1. rewrite (chunks_concat n); auto. f_equal. f_equal. now inversion W.
Qed.

Lemma map_const {B C} (b : C) (l : list B) : map (fun _ => b) l = repeat b (length l).
Proof. induction l; simpl; f_equal; auto. Qed.

Lemma lattice_init_flags n vs p : (0 < n)%nat -> basis n vs -> lattice_init vs p = Ok (mkLattice vs (flags n p) vs n).
Proof.
  intros P (L & W & I). rewrite (lattice_init_square n); auto. do 2 f_equal. destruct p; simpl; auto.
  now rewrite map_const, L.
Qed.

Lemma lattice_on_fields n vs per L : lattice_on n vs per L -> L = mkLattice vs per vs n /\ (0 < n)%nat.
Proof.
  intros (B & Lp & p & F & E). destruct n as [|n].
  - destruct B as (Lv & _). destruct vs; [|discriminate]. unfold lattice_init in E. simpl in E. discriminate.
  - rewrite (lattice_init_flags (S n)) in E; auto; [|lia]. injection E as <-. subst per. split; [auto|lia].
Qed.

Lemma lattice_on_intro n vs per : (0 < n)%nat -> basis n vs -> length per = n ->
  lattice_on n vs per (mkLattice vs per vs n).
Proof.
  intros P B L. split; auto. split; auto. exists (PFlags per). split; auto. now apply (lattice_init_flags n).
Qed.

Lemma map_repeat {B C} (f : B -> C) x k : map f (repeat x k) = repeat (f x) k.
Proof. induction k; simpl; f_equal; auto. Qed.

Section Fixed.
  Variables (n : nat) (vs : list vec) (per : list bool) (L : lattice R).
  Hypothesis HL : lattice_on n vs per L.

  Lemma on_basis : basis n vs. Proof. apply HL. Qed.
  Lemma on_length : length vs = n. Proof. apply on_basis. Qed.
  Lemma on_widths : widths n vs. Proof. apply on_basis. Qed.
  Lemma on_per : length per = n. Proof. apply HL. Qed.
  Lemma on_matrix : l_matrix L = vs. Proof. destruct (lattice_on_fields _ _ _ _ HL) as [-> _]. auto. Qed.
  Lemma on_flags : l_periodic L = per. Proof. destruct (lattice_on_fields _ _ _ _ HL) as [-> _]. auto. Qed.
  Lemma on_dim : l_dim L = n. Proof. destruct (lattice_on_fields _ _ _ _ HL) as [-> _]. auto. Qed.
  Lemma on_vecs : l_vecs L = vs. Proof. destruct (lattice_on_fields _ _ _ _ HL) as [-> _]. auto. Qed.
  Lemma on_pos : (0 < n)%nat. Proof. apply (lattice_on_fields _ _ _ _ HL). Qed.
  Hint Resolve on_basis on_length on_widths on_per : core.

  Lemma coords_unique f g p : coords n vs f p -> coords n vs g p -> f = g.
  Proof.
    intros [L1 E1] [L2 E2]. pose proof on_basis as (Lv & W & I).
    apply vminus_eq; [congruence|]. rewrite L1.
    replace (vzero n) with (vzero (length vs)) by (now rewrite Lv). apply I.
    - rewrite vminus_length; congruence.
    - rewrite lincomb_minus; auto; [|congruence]. rewrite E1, E2, vminus_self.
      rewrite <- E1. now rewrite lincomb_length.
  Qed.
  Lemma coords_exist p : length p = n -> exists f, coords n vs f p.
  Proof. intros Lp. destruct (spans n vs on_basis p Lp) as (c & H1 & H2). exists c. split; auto. Qed.
  Lemma coords_len f p : coords n vs f p -> length p = n.
  Proof. intros [L1 <-]. now apply lincomb_length. Qed.

  Lemma cart_ok f : length f = n -> get_cartesian_coords RA L f = Ok (lincomb n f vs).
  Proof.
    intros Lf. unfold get_cartesian_coords. rewrite on_matrix. apply vecmat_RA; auto.
    - rewrite on_length; auto.
    - intros E. now rewrite <- on_length, E.
  Qed.
  Lemma frac_ok p : length p = n -> exists f, get_fractional_coords RA L p = Ok f /\ coords n vs f p.
  Proof.
    intros Lp. unfold get_fractional_coords, inv_matrix. rewrite on_matrix.
    destruct (real_inv_basis n vs on_basis) as (J & E & HJ). simpl. rewrite E. simpl.
    destruct HJ as (_ & _ & LJ & WJ & H1 & H2).
    rewrite (vecmat_RA n); auto; [|congruence|intros ->; now rewrite <- LJ].
    eexists. split; eauto. split; [now apply lincomb_length|auto].
  Qed.
  Lemma frac_coords f p : coords n vs f p -> get_fractional_coords RA L p = Ok f.
  Proof.
    intros C. destruct (frac_ok p (coords_len _ _ C)) as (g & E & C'). rewrite E. f_equal.
    eapply coords_unique; eauto.
  Qed.
  Lemma frac_wrong p : length p <> n -> get_fractional_coords RA L p = Err ValueError.
  Proof.
    intros Lp. unfold get_fractional_coords, inv_matrix. rewrite on_matrix.
    destruct (real_inv_basis n vs on_basis) as (J & E & HJ). simpl. rewrite E. simpl.
    destruct HJ as (_ & _ & LJ & WJ & _). unfold vecmat. rewrite LJ.
    destruct (Nat.eqb_spec (length p) n); congruence.
  Qed.

  Definition into_cell (f : vec) : vec :=
    zipwith (fun x (b : bool) => if b then x - IZR (zfloor x) else x) f per.

  Lemma periodize_ok f : length f = n -> periodize RA f per = Ok (into_cell f).
  Proof.
    intros Lf. unfold periodize, into_cell. rewrite bcast_eq by (rewrite !map_length; rewrite on_per; auto).
    simpl. rewrite bcast_eq.
    - f_equal. assert (length f = length per) as LL by (rewrite on_per; auto). clear Lf. clear HL.
      revert LL; revert per. induction f; destruct per; simpl; intros; try discriminate; auto. f_equal; auto.
      unfold of_bool; simpl; destruct b; ring.
    - rewrite zipwith_length; rewrite !map_length; auto. rewrite on_per; auto.
  Qed.

  Lemma into_cell_length f : length f = n -> length (into_cell f) = n.
  Proof. intros Lf. unfold into_cell. rewrite zipwith_length; auto. rewrite on_per; auto. Qed.

  Definition floors (f : vec) : list Z := zipwith (fun x (b : bool) => if b then (- zfloor x)%Z else 0%Z) f per.
  Lemma floors_whole f : length f = n -> whole per (floors f).
  Proof.
    intros Lf. unfold whole, floors. assert (length f = length per) as LL by (rewrite on_per; auto). clear Lf HL.
    revert LL; revert per. induction f; destruct per; simpl; intros; try discriminate; constructor; auto.
    intros ->. auto.
  Qed.
  Lemma into_cell_shift f : length f = n -> into_cell f = vplus f (map IZR (floors f)).
  Proof.
    intros Lf. unfold into_cell, floors. assert (length f = length per) as LL by (rewrite on_per; auto). clear Lf HL.
    revert LL; revert per. induction f; destruct per; simpl; intros; try discriminate; auto.
    unfold vplus in *. simpl. f_equal; auto. destruct b; rewrite ?opp_IZR; ring.
  Qed.
  Lemma into_cell_in f : length f = n -> Forall2 (fun (b : bool) x => b = true -> 0 <= x < 1) per (into_cell f).
  Proof.
    intros Lf. unfold into_cell. assert (length f = length per) as LL by (rewrite on_per; auto). clear Lf HL.
    revert LL; revert per. induction f; destruct per; simpl; intros; try discriminate; constructor; auto.
    intros ->. pose proof (zfloor_spec a). lra.
  Qed.

  Lemma whole_length z : whole per z -> length z = n.
  Proof. intros H. rewrite <- on_per. symmetry. clear -H. induction H; simpl; auto. Qed.

  Lemma image_len p q : length p = n -> image n vs per p q -> length q = n.
  Proof. intros Lp (z & _ & ->). rewrite vplus_length; auto. rewrite lincomb_length; auto. Qed.

  (** Images have coefficients that differ by whole numbers. *)
  Lemma image_coords p q f : coords n vs f p -> image n vs per p q ->
    exists z, whole per z /\ coords n vs (vplus f (map IZR z)) q.
  Proof.
    intros [Lf E] (z & W & ->). pose proof (whole_length z W) as Lz. exists z. split; auto. split.
    - rewrite vplus_length; rewrite ?map_length; congruence.
    - rewrite lincomb_plus; auto; [|rewrite map_length; congruence]. now rewrite E.
  Qed.
  Lemma coords_image p q f z : coords n vs f p -> whole per z -> coords n vs (vplus f (map IZR z)) q ->
    image n vs per p q.
  Proof.
    intros [Lf E] W [Lq Eq]. exists z. split; auto. rewrite <- Eq, <- E.
    apply lincomb_plus; auto. rewrite map_length, (whole_length z); auto.
  Qed.

  Lemma into_cell_whole f z : length f = n -> whole per z -> into_cell (vplus f (map IZR z)) = into_cell f.
  Proof.
    intros Lf W. unfold into_cell. assert (length f = length per) as LL by (rewrite on_per; auto). clear Lf HL.
    revert f LL. induction W; destruct f; simpl; intros; try discriminate; auto.
    unfold vplus; simpl. f_equal.
    - destruct x; [|rewrite H by auto; ring]. rewrite zfloor_plus_Z, plus_IZR. ring.
    - apply IHW. lia.
  Qed.
  Lemma into_cell_id f : length f = n -> Forall2 (fun (b : bool) x => b = true -> 0 <= x < 1) per f -> into_cell f = f.
  Proof.
    intros Lf W. unfold into_cell. clear Lf HL. induction W; simpl; auto. f_equal; auto.
    destruct x; auto. rewrite zfloor_unit by auto. ring.
  Qed.

  Lemma per_ok p f : coords n vs f p -> get_periodized_cartesian_coords RA L p = Ok (lincomb n (into_cell f) vs).
  Proof.
    intros C. unfold get_periodized_cartesian_coords. rewrite (frac_coords f p C). simpl.
    destruct C as [Lf _]. rewrite on_flags, periodize_ok; auto. simpl. apply cart_ok. now apply into_cell_length.
  Qed.
  Lemma per_wrong p : length p <> n -> get_periodized_cartesian_coords RA L p = Err ValueError.
  Proof. intros H. unfold get_periodized_cartesian_coords. now rewrite frac_wrong. Qed.

  Lemma per_periodised p f : coords n vs f p -> periodised n vs per p (lincomb n (into_cell f) vs).
  Proof.
    intros C. pose proof C as [Lf _]. split.
    - eapply coords_image; eauto; [apply floors_whole; eauto|]. split.
      + rewrite <- into_cell_shift; auto. now apply into_cell_length.
      + now rewrite <- into_cell_shift.
    - exists (into_cell f). split; [split; auto; now apply into_cell_length|now apply into_cell_in].
  Qed.

  Lemma periodised_unique p q q' : length p = n -> periodised n vs per p q -> periodised n vs per p q' -> q = q'.
  Proof.
    intros Lp [I1 (f1 & C1 & R1)] [I2 (f2 & C2 & R2)].
    destruct (coords_exist p Lp) as [f C].
    destruct (image_coords p q f C I1) as (z1 & W1 & D1).
    destruct (image_coords p q' f C I2) as (z2 & W2 & D2).
    pose proof (coords_unique _ _ _ C1 D1). pose proof (coords_unique _ _ _ C2 D2). subst f1 f2.
    assert (vplus f (map IZR z1) = vplus f (map IZR z2)) as E.
    { rewrite <- (into_cell_id _ (proj1 C1) R1), <- (into_cell_id _ (proj1 C2) R2).
      rewrite !into_cell_whole; auto; apply C. }
    destruct D1 as [_ <-], D2 as [_ <-]. now rewrite E.
  Qed.

  Lemma per_spec p : length p = n -> exists q, get_periodized_cartesian_coords RA L p = Ok q /\ periodised n vs per p q.
  Proof.
    intros Lp. destruct (coords_exist p Lp) as [f C]. eexists. split; [apply per_ok; eauto|now apply per_periodised].
  Qed.
  Lemma per_iff p q : length p = n -> (get_periodized_cartesian_coords RA L p = Ok q <-> periodised n vs per p q).
  Proof.
    intros Lp. destruct (per_spec p Lp) as (r & E & P). rewrite E. split.
    - intros H. injection H as <-. auto.
    - intros H. f_equal. eapply periodised_unique; eauto.
  Qed.

  Lemma whole_opp z : whole per z -> whole per (map Z.opp z).
  Proof. clear HL. unfold whole. intros W. induction W; simpl; constructor; auto. intros E. rewrite (H E). reflexivity. Qed.
  Lemma whole_add z z' : whole per z -> whole per z' -> whole per (zipwith Z.add z z').
  Proof.
    clear HL. intros H. revert z'. unfold whole. induction H; intros z' H'; inversion H'; subst; simpl; constructor; auto.
    intros E. rewrite H, H3; auto.
  Qed.
  Lemma whole_zero : whole per (repeat 0%Z n).
  Proof. rewrite <- on_per. clear HL. unfold whole. induction per; simpl; constructor; auto. Qed.

  Lemma map_IZR_opp z : map IZR (map Z.opp z) = vscale (-1) (map IZR z).
  Proof. unfold vscale. rewrite !map_map. apply map_ext. intros; rewrite opp_IZR; ring. Qed.
  Lemma map_IZR_add z z' : length z = length z' -> map IZR (zipwith Z.add z z') = vplus (map IZR z) (map IZR z').
  Proof.
    revert z'; induction z; destruct z'; simpl; intros; try discriminate; auto.
    unfold vplus in *; simpl. rewrite plus_IZR. f_equal; auto.
  Qed.

  Lemma image_refl p : length p = n -> image n vs per p p.
  Proof.
    intros Lp. exists (repeat 0%Z n). split; [apply whole_zero|]. rewrite map_repeat.
    change (repeat (IZR 0) n) with (vzero n). rewrite lincomb_vzero, vplus_zero_r; auto.
  Qed.
  Lemma image_sym p q : length p = n -> image n vs per p q -> image n vs per q p.
  Proof.
    intros Lp (z & W & ->). exists (map Z.opp z). split; [now apply whole_opp|].
    rewrite map_IZR_opp, lincomb_scale, <- vplus_assoc.
    assert (Ll : length (lincomb n (map IZR z) vs) = n) by (apply lincomb_length; auto).
    rewrite <- vminus_as_plus by auto. rewrite vminus_self, Ll, vplus_zero_r; auto.
  Qed.
  Lemma image_trans p q r : length p = n -> image n vs per p q -> image n vs per q r -> image n vs per p r.
  Proof.
    intros Lp (z & W & ->) (z' & W' & ->). exists (zipwith Z.add z z'). split; [now apply whole_add|].
    rewrite map_IZR_add; [|rewrite !whole_length; auto]. rewrite lincomb_plus, vplus_assoc; auto.
    rewrite !map_length, !whole_length; auto.
  Qed.

  Lemma per_same p q : length p = n -> length q = n ->
    (get_periodized_cartesian_coords RA L p = get_periodized_cartesian_coords RA L q <-> image n vs per p q).
  Proof.
    intros Lp Lq. destruct (per_spec p Lp) as (p' & Ep & [Ip Cp]). destruct (per_spec q Lq) as (q' & Eq & [Iq Cq]).
    split.
    - intros E. rewrite Ep, Eq in E. injection E as <-. eapply image_trans; eauto. apply image_sym; auto.
    - intros I. rewrite Ep. symmetry. apply per_iff; auto. split; auto.
      apply image_trans with (q := p); [auto|apply image_sym; auto|auto].
  Qed.

  (** Distance. *)
  Definition rints (f : vec) : list Z := zipwith (fun x (b : bool) => if b then zrint x else 0%Z) f per.
  Definition diff_frac (f : vec) : vec := vminus f (map IZR (rints f)).

  Lemma rints_length f : length f = n -> length (rints f) = n.
  Proof. intros Lf. unfold rints. rewrite zipwith_length; auto. rewrite on_per; auto. Qed.
  Lemma diff_frac_length f : length f = n -> length (diff_frac f) = n.
  Proof. intros Lf. unfold diff_frac. rewrite vminus_length; auto. rewrite map_length, rints_length; auto. Qed.
  Lemma rints_whole f : length f = n -> whole per (rints f).
  Proof.
    intros Lf. unfold whole, rints. assert (length f = length per) as LL by (rewrite on_per; auto). clear Lf HL.
    revert LL; revert per. induction f; destruct per; simpl; intros; try discriminate; constructor; auto.
    intros ->. auto.
  Qed.
  Lemma pbc_frac f g : length f = n -> length g = n -> pbc_diff_frac_vec RA f g per = Ok (diff_frac (vminus f g)).
  Proof.
    intros Lf Lg. unfold pbc_diff_frac_vec. rewrite bcast_eq by congruence. simpl.
    fold (vminus f g). assert (LL : length (vminus f g) = length per) by (rewrite vminus_length; rewrite ?on_per; congruence).
    rewrite bcast_eq by (rewrite !map_length; auto). simpl. rewrite bcast_eq.
    - f_equal. unfold diff_frac, rints. clear Lf Lg HL. revert LL. generalize (vminus f g) as h. intros h. revert per.
      induction h; destruct per; simpl; intros; try discriminate; auto. unfold vminus in *. simpl. f_equal; auto.
      unfold of_bool; simpl; destruct b; ring.
    - rewrite zipwith_length; rewrite !map_length; auto.
  Qed.

  Lemma dist_ok p q f g : coords n vs f p -> coords n vs g q ->
    cartesian_periodic_distance RA L p q = Ok (round3 (vlength (lincomb n (diff_frac (vminus f g)) vs))).
  Proof.
    intros Cp Cq. unfold cartesian_periodic_distance, pbc_diff_cart.
    rewrite (frac_coords f p Cp), (frac_coords g q Cq). cbn [bind].
    destruct Cp as [Lf _], Cq as [Lg _]. rewrite on_flags, pbc_frac; auto. cbn [bind]. rewrite cart_ok.
    - cbn [bind]. now rewrite norm_RA, roundk_RA.
    - apply diff_frac_length. rewrite vminus_length; congruence.
  Qed.

  Lemma diff_frac_opp f : length f = n -> diff_frac (vscale (-1) f) = vscale (-1) (diff_frac f).
  Proof.
    intros Lf. unfold diff_frac, rints. assert (length f = length per) as LL by (rewrite on_per; auto). clear Lf HL.
    revert LL; revert per. induction f; destruct per; simpl; intros; try discriminate; auto.
    unfold vminus, vscale in *. simpl. f_equal; auto.
    destruct b; [|ring]. replace (-1 * a) with (- a) by ring. rewrite zrint_opp, opp_IZR. ring.
  Qed.
  Lemma vminus_anti f g : length f = length g -> vminus g f = vscale (-1) (vminus f g).
  Proof.
    revert g; induction f; destruct g; simpl; intros; try discriminate; auto.
    unfold vminus, vscale in *; simpl. f_equal; [ring|auto].
  Qed.

  Lemma dist_sym p q : length p = n -> length q = n ->
    cartesian_periodic_distance RA L p q = cartesian_periodic_distance RA L q p.
  Proof.
    intros Lp Lq. destruct (coords_exist p Lp) as [f Cf]. destruct (coords_exist q Lq) as [g Cg].
    rewrite (dist_ok p q f g), (dist_ok q p g f); auto. do 2 f_equal.
    destruct Cf as [Lf _], Cg as [Lg _].
    rewrite (vminus_anti f g), diff_frac_opp, lincomb_scale, vlength_opp; auto; [|congruence].
    rewrite vminus_length; congruence.
  Qed.

  (** The distance is the length of the difference to some image. *)
  Lemma dist_image p q : length p = n -> length q = n ->
    exists q', image n vs per q q' /\ cartesian_periodic_distance RA L p q = Ok (round3 (vlength (vminus p q'))).
  Proof.
    intros Lp Lq. destruct (coords_exist p Lp) as [f Cf]. destruct (coords_exist q Lq) as [g Cg].
    pose proof Cf as [Lf Ef]. pose proof Cg as [Lg Eg].
    assert (Lv : length (vminus f g) = n) by (rewrite vminus_length; congruence).
    exists (vplus q (lincomb n (map IZR (rints (vminus f g))) vs)). split.
    - exists (rints (vminus f g)). split; auto. now apply rints_whole.
    - rewrite (dist_ok p q f g); auto. do 3 f_equal. unfold diff_frac.
      assert (Lr : length (map IZR (rints (vminus f g))) = n) by (rewrite map_length, rints_length; auto).
      rewrite lincomb_minus; auto; [|congruence]. rewrite lincomb_minus, Ef, Eg; auto; [|congruence].
      set (t := lincomb n _ vs). assert (Lt : length t = n) by (unfold t; apply lincomb_length; auto).
      rewrite (vminus_as_plus (vminus p q)), !vminus_as_plus; auto; try congruence.
      + rewrite vscale_plus, vplus_assoc. reflexivity.
      + rewrite vplus_length; congruence.
      + rewrite vminus_length; congruence.
  Qed.

  Lemma diff_frac_integral z : whole per z -> diff_frac (map IZR z) = vzero n.
  Proof.
    intros W. rewrite <- on_per. clear HL. unfold diff_frac, rints. unfold whole in W.
    induction W; simpl; auto. unfold vminus, vzero in *. simpl. f_equal; auto.
    destruct x; [rewrite zrint_IZR; ring|]. rewrite H; auto. ring.
  Qed.
  Lemma dist_zero p q : length p = n -> image n vs per p q -> cartesian_periodic_distance RA L p q = Ok 0.
  Proof.
    intros Lp I. assert (Lq : length q = n) by (eapply image_len; eauto). rewrite dist_sym; auto.
    destruct (coords_exist p Lp) as [f Cf]. destruct (image_coords p q f Cf I) as (z & W & Cg).
    rewrite (dist_ok q p (vplus f (map IZR z)) f); auto.
    rewrite vplus_comm, vminus_plus by (rewrite map_length, (whole_length z); auto; symmetry; apply Cf).
    rewrite diff_frac_integral, lincomb_vzero; auto. unfold vlength. rewrite vdot_vzero, sqrt_0. f_equal.
    apply (round3_IZR 0).
  Qed.
  Lemma dist_nonneg p q d : cartesian_periodic_distance RA L p q = Ok d -> 0 <= d.
  Proof.
    unfold cartesian_periodic_distance, pbc_diff_cart. intros H.
    apply bind_Ok in H as (f & _ & H). apply bind_Ok in H as (g & _ & H). apply bind_Ok in H as (fd & _ & H).
    apply bind_Ok in H as (c & _ & H). assert (d = roundk RA 1000 (norm RA c)) as -> by congruence. rewrite norm_RA, roundk_RA. apply round3_nonneg, vlength_nonneg.
  Qed.
End Fixed.
