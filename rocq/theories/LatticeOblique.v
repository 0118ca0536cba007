(** Periodic distances on lattices whose vectors need not be orthogonal (C26, C77). *)
From Coq Require Import Reals Lra.
From Verif Require Import Prelude Dict Arith RVec RealArith LatticeModel StructModel SpecGeom LatticeFacts LatticeMore.
Open Scope R_scope.

(** ** Only the periodic vectors have to be orthogonal to the others *)
Lemma po_tail b per v vs : periods_orthogonal (b :: per) (v :: vs) -> periods_orthogonal per vs.
Proof. intros O i j u w N P Hi Hj. apply (O (S i) (S j) u w); auto. Qed.

(** Same coefficients along open directions, smaller ones along periodic directions. *)
Inductive tighter : list bool -> vec -> vec -> Prop :=
| tighter_nil : tighter [] [] []
| tighter_per per x y c d : Rabs x <= Rabs y -> tighter per c d -> tighter (true :: per) (x :: c) (y :: d)
| tighter_open per x c d : tighter per c d -> tighter (false :: per) (x :: c) (x :: d).

Lemma dot_same n u : forall per c d, tighter per c d -> forall vs, widths n vs -> length u = n ->
  (forall i v, nth_error per i = Some true -> nth_error vs i = Some v -> vdot v u = 0) ->
  vdot (lincomb n c vs) u = vdot (lincomb n d vs) u.
Proof.
  induction 1; intros vs W Lu O; destruct vs as [|v vs]; auto; apply widths_cons in W as [W1 W2]; cbn [lincomb];
    (rewrite !vdot_plus_l by (rewrite vscale_length, lincomb_length; auto)); rewrite !vdot_scale_l.
  - rewrite (O 0%nat v eq_refl eq_refl). rewrite (IHtighter vs W2 Lu); [ring|]. intros i w P E. apply (O (S i) w P E).
  - rewrite (IHtighter vs W2 Lu); [ring|]. intros i w P E. apply (O (S i) w P E).
Qed.
Lemma dot_none n u : forall c vs, widths n vs -> (forall i v, nth_error vs i = Some v -> vdot v u = 0) -> vdot (lincomb n c vs) u = 0.
Proof.
  induction c as [|x c IH]; intros vs W O; destruct vs as [|v vs]; try apply vdot_vzero_l. apply widths_cons in W as [W1 W2]. cbn [lincomb].
  rewrite vdot_plus_l by (rewrite vscale_length, lincomb_length; auto). rewrite vdot_scale_l, (O 0%nat v eq_refl), IH; auto; [ring|].
  intros i w E. apply (O (S i) w E).
Qed.
Lemma dot_square n a v w : length v = n -> length w = n -> vdot (vplus (vscale a v) w) (vplus (vscale a v) w) = a * a * vdot v v + 2 * a * vdot w v + vdot w w.
Proof.
  intros Lv Lw. assert (E : length (vscale a v) = length w) by (rewrite vscale_length; congruence).
  rewrite vdot_plus_l, (vdot_comm (vscale a v)), (vdot_comm w (vplus _ _)), !vdot_plus_l by auto.
  rewrite (vdot_comm w (vscale a v)), !vdot_scale_l, (vdot_comm v (vscale a v)), vdot_scale_l, (vdot_comm v w). ring.
Qed.
Lemma tighter_le n : forall per c d, tighter per c d -> forall vs, widths n vs -> periods_orthogonal per vs ->
  vdot (lincomb n c vs) (lincomb n c vs) <= vdot (lincomb n d vs) (lincomb n d vs).
Proof.
  induction 1; intros vs W O; [lra| |]; (destruct vs as [|v vs]; [cbn [lincomb]; lra|]); apply widths_cons in W as [W1 W2]; cbn [lincomb];
    rewrite !(dot_square n) by (auto; apply lincomb_length; auto); specialize (IHtighter vs W2 (po_tail _ _ _ _ O)).
  - assert (Z : forall c, vdot (lincomb n c vs) v = 0).
    { intros e. apply dot_none; auto. intros i w E. rewrite vdot_comm. apply (O 0%nat (S i) v w); auto. }
    rewrite !Z. assert (x * x * vdot v v <= y * y * vdot v v); [|lra]. apply Rmult_le_compat_r; [apply vdot_nonneg|]. apply Rsqr_le_abs_1 in H. exact H.
  - rewrite (dot_same n v per c d H0 vs W2 W1) || rewrite (dot_same n v per c d H vs W2 W1); [lra|]. intros i w P E. apply (O (S i) 0%nat w v); auto.
Qed.
Lemma tighter_nearest : forall per f z, length f = length per -> whole per z -> tighter per (diff_frac per f) (vminus f (map IZR z)).
Proof.
  intros per f z LL W. revert f LL. induction W; destruct f; simpl; intros LL; try discriminate; [constructor|].
  unfold diff_frac, rints, vminus in *; simpl. destruct x.
  - constructor; [apply rint_nearest|apply IHW; lia].
  - rewrite H by auto. constructor. apply IHW; lia.
Qed.

Lemma C26_periods_lemma : forall n vs per L p q, lattice_on n vs per L -> periods_orthogonal per vs ->
  length p = n -> length q = n ->
  exists q', image n vs per q q' /\
    cartesian_periodic_distance RA L p q = Ok (round3 (vlength (vminus p q'))) /\
    forall q'', image n vs per q q'' -> vlength (vminus p q') <= vlength (vminus p q'').
Proof.
  intros n vs per L p q HL O Lp Lq.
  destruct (coords_exist n vs per L HL p Lp) as [f Cf]. destruct (coords_exist n vs per L HL q Lq) as [g Cg].
  pose proof Cf as [Lf Ef]. pose proof Cg as [Lg Eg].
  assert (W : widths n vs) by apply HL.
  assert (Lv : length (vminus f g) = n) by (rewrite vminus_length; congruence).
  assert (X : forall z, length z = n -> vminus p (vplus q (lincomb n (map IZR z) vs)) = lincomb n (vminus (vminus f g) (map IZR z)) vs).
  { intros z Lz. assert (Lm : length (map IZR z) = n) by (rewrite map_length; auto).
    rewrite lincomb_minus; auto; [|congruence]. rewrite lincomb_minus, Ef, Eg; auto; [|congruence].
    set (t := lincomb n _ vs). assert (Lt : length t = n) by (unfold t; apply lincomb_length; auto).
    rewrite (vminus_as_plus (vminus p q)), !vminus_as_plus; auto; try congruence.
    + rewrite vscale_plus, vplus_assoc. reflexivity.
    + rewrite vplus_length; congruence.
    + rewrite vminus_length; congruence. }
  set (z := rints per (vminus f g)).
  assert (Lz : length z = n) by (apply (rints_length n vs per L HL); auto).
  assert (Wz : whole per z) by (apply (rints_whole n vs per L HL); auto).
  exists (vplus q (lincomb n (map IZR z) vs)). split; [exists z; auto|]. split.
  - rewrite (dist_ok n vs per L HL p q f g); auto. do 3 f_equal. rewrite X; auto.
  - intros q'' (w & Ww & ->). assert (Lw : length w = n) by (eapply whole_length; eauto).
    rewrite !X; auto. unfold vlength. apply sqrt_le_1_alt. apply (tighter_le n per); auto.
    apply tighter_nearest; auto. rewrite (on_per n vs per L HL); auto.
Qed.

(** ** Two oblique periodic vectors *)
Lemma cauchy u v : length u = length v -> vdot u v * vdot u v <= vdot u u * vdot v v.
Proof.
  intros E. pose proof (vdot_nonneg u) as Hu. pose proof (vdot_nonneg v) as Hv.
  assert (Q : forall a, 0 <= a * a * vdot u u + 2 * a * vdot u v + vdot v v).
  { intros a. rewrite <- (vdot_comm v u). rewrite <- (dot_square (length v) a u v); auto. apply vdot_nonneg. }
  destruct (Req_dec (vdot u u) 0) as [Z|N].
  - rewrite Z in *. destruct (Req_dec (vdot u v) 0) as [Z'|N']; [rewrite Z'; lra|]. exfalso.
    specialize (Q (- (vdot v v + 1) / (2 * vdot u v))).
    replace (2 * (- (vdot v v + 1) / (2 * vdot u v)) * vdot u v) with (- (vdot v v + 1)) in Q by (field; auto). lra.
  - specialize (Q (- vdot u v / vdot u u)).
    replace (- vdot u v / vdot u u * (- vdot u v / vdot u u) * vdot u u + 2 * (- vdot u v / vdot u u) * vdot u v + vdot v v)
      with ((vdot u u * vdot v v - vdot u v * vdot u v) / vdot u u) in Q by (field; auto).
    assert (P : 0 < vdot u u) by lra. apply (Rmult_le_compat_r (vdot u u)) in Q; [|lra].
    unfold Rdiv in Q. rewrite Rmult_assoc, Rinv_l, Rmult_1_r, Rmult_0_l in Q; lra.
Qed.
Lemma round3_far x y : y + 1/1000 < x -> round3 y < round3 x.
Proof.
  intros H. unfold round3. pose proof (zrint_bound (x * 1000)) as A. pose proof (zrint_bound (y * 1000)) as B.
  apply Rabs_bnd in A, B. lra.
Qed.
Lemma dot_abs u v : length u = length v -> Rabs (vdot u v) <= vlength u * vlength v.
Proof.
  intros E. unfold vlength. rewrite <- sqrt_mult by apply vdot_nonneg. rewrite <- sqrt_Rsqr_abs. apply sqrt_le_1_alt. now apply cauchy.
Qed.
Lemma gap u v s : length u = length v -> (s = 1 \/ s = -1) -> s * vdot u v = Rabs (vdot u v) ->
  vlength u + vlength v < 1000 * Rabs (vdot u v) ->
  round3 (vlength (vplus (vscale (-1/2) u) (vscale (s/2) v))) < round3 (vlength (vplus (vscale (1/2) u) (vscale (s/2) v))).
Proof.
  intros E Hs HB HL. apply round3_far.
  assert (S2 : s * s = 1) by (destruct Hs as [->| ->]; ring).
  assert (Q : forall a, vdot (vplus (vscale a u) (vscale (s/2) v)) (vplus (vscale a u) (vscale (s/2) v)) = a * a * vdot u u + a * Rabs (vdot u v) + vdot v v / 4).
  { intros a. rewrite (dot_square (length u)); [|auto|rewrite vscale_length; auto]. rewrite vdot_scale_l, vdot_scale, (vdot_comm v u), <- HB.
    replace (s / 2 * (s / 2)) with (s * s / 4) by field. rewrite S2. field. }
  unfold vlength in *. rewrite !Q. pose proof (vdot_nonneg u) as Hu. pose proof (vdot_nonneg v) as Hv. pose proof (Rabs_pos (vdot u v)) as HB0.
  pose proof (dot_abs u v E) as CS. unfold vlength in CS.
  set (a := sqrt (vdot u u)) in *. set (b := sqrt (vdot v v)) in *. assert (Ea : a * a = vdot u u) by (apply sqrt_sqrt; auto). assert (Eb : b * b = vdot v v) by (apply sqrt_sqrt; auto).
  pose proof (sqrt_pos (vdot u u)) as Pa. fold a in Pa. pose proof (sqrt_pos (vdot v v)) as Pb. fold b in Pb.
  set (B := Rabs (vdot u v)) in *. rewrite <- Ea, <- Eb.
  set (X := 1/2 * (1/2) * (a * a) + 1/2 * B + b * b / 4). set (Y := -1/2 * (-1/2) * (a * a) + -1/2 * B + b * b / 4).
  clearbody a b B. assert (PX : 0 <= X) by (unfold X; nra). assert (EXY : Y = X - B) by (unfold X, Y; field).
  assert (PY : 0 <= Y). { unfold Y. pose proof (Rle_0_sqr (a - b)) as K. unfold Rsqr in K. nra. }
  pose proof (sqrt_pos X) as SX. pose proof (sqrt_pos Y) as SY. pose proof (sqrt_sqrt X PX) as QX. pose proof (sqrt_sqrt Y PY) as QY.
  assert (UX : sqrt X <= (a + b) / 2). { rewrite <- (sqrt_square ((a + b) / 2)) by lra. apply sqrt_le_1_alt. unfold X. nra. }
  set (x := sqrt X) in *. set (y := sqrt Y) in *. rewrite EXY, <- QX in QY. clearbody x y. clear -QY SX SY UX HL Pa Pb HB0.
  destruct (Rlt_dec (y + 1/1000) x) as [|N]; auto. exfalso. apply Rnot_lt_le in N.
  assert (H : x * x - y * y = B) by lra. assert (B <= 1/1000 * (x + y)).
  { replace B with ((x - y) * (x + y)) by (rewrite <- H; ring). apply Rmult_le_compat_r; lra. }
  assert (y <= x). { destruct (Rle_dec y x) as [|K]; auto. apply Rnot_le_lt in K. nra. }
  lra.
Qed.

(** Whole number coefficients with a single 1. *)
Fixpoint zunit (n i : nat) : list Z :=
  match n with O => [] | S n' => match i with O => 1%Z :: repeat 0%Z n' | S i' => 0%Z :: zunit n' i' end end.
Lemma zunit_length n i : length (zunit n i) = n.
Proof. revert i; induction n; destruct i; simpl; auto. now rewrite repeat_length. Qed.
Lemma zunit_whole per : forall i, nth_error per i = Some true -> whole per (zunit (length per) i).
Proof.
  induction per as [|b per IH]; intros [|i] E; try discriminate; simpl in *.
  - injection E as ->. constructor; [discriminate|]. clear. induction per; simpl; constructor; auto.
  - constructor; auto. apply IH; auto.
Qed.
Lemma lincomb_zunit n : forall vs i v, widths n vs -> nth_error vs i = Some v -> lincomb n (map IZR (zunit (length vs) i)) vs = v.
Proof.
  induction vs as [|w vs IH]; intros [|i] v W E; try discriminate; simpl in *; apply widths_cons in W as [W1 W2].
  - injection E as ->. rewrite vscale_one. rewrite map_repeat. change (repeat (IZR 0) (length vs)) with (vzero (length vs)).
    rewrite lincomb_vzero; auto. now apply vplus_zero_r.
  - rewrite vscale_zero, W1. rewrite IH with (v := v); auto. apply vplus_zero_l. eapply Forall_forall in W2; [exact W2|eapply nth_error_In; eauto].
Qed.
Lemma unit_round per : forall i j a s, i <> j -> Rabs a < 1 -> (s = 1 \/ s = -1) -> (a = 1/2 \/ a = -1/2 \/ a = 0) ->
  diff_frac per (vplus (vscale a (map IZR (zunit (length per) i))) (vscale (s/2) (map IZR (zunit (length per) j))))
  = vplus (vscale a (map IZR (zunit (length per) i))) (vscale (s/2) (map IZR (zunit (length per) j))).
Proof.
  assert (H0 : zrint 0 = 0%Z) by apply (zrint_IZR 0).
  assert (H1 : zrint (1/2) = 0%Z) by (apply zrint_unique; [rewrite Rabs_right; lra|reflexivity]).
  assert (H2 : zrint (-1/2) = 0%Z) by (apply zrint_unique; [rewrite Rabs_left; lra|reflexivity]).
  intros i j a s D A Hs Ha.
  assert (Q : forall x, x = 1/2 \/ x = -1/2 \/ x = 0 -> zrint x = 0%Z) by (intros x [->|[->| ->]]; auto).
  assert (G : forall (per : list bool) f, Forall (fun x => x = 1/2 \/ x = -1/2 \/ x = 0) f -> length f = length per -> diff_frac per f = f).
  { clear -Q. induction per as [|b per IH]; intros [|x f] F LL; try discriminate; auto. inversion F; subst.
    unfold diff_frac, rints, vminus in *; simpl. f_equal; [|apply IH; auto]. destruct b; rewrite ?Q; auto; lra. }
  apply G.
  - clear -D Hs Ha. generalize (length per) as n. revert i j D.
    assert (Z : forall n, vscale (s/2) (map IZR (repeat 0%Z n)) = vzero n /\ vscale a (map IZR (repeat 0%Z n)) = vzero n).
    { intros n. rewrite map_repeat. change (repeat (IZR 0) n) with (vzero n). now rewrite !vscale_vzero. }
    assert (U : forall n j, Forall (fun x => x = 1/2 \/ x = -1/2 \/ x = 0) (vscale (s/2) (map IZR (zunit n j)))).
    { induction n as [|n IH]; intros [|j]; simpl; try constructor; try lra.
      - change (map (Rmult (s/2)) ?l) with (vscale (s/2) l). rewrite (proj1 (Z n)). apply Forall_forall. intros x Hx. apply repeat_spec in Hx. lra.
      - apply IH. }
    assert (V : forall n j, Forall (fun x => x = 1/2 \/ x = -1/2 \/ x = 0) (vscale a (map IZR (zunit n j)))).
    { induction n as [|n IH]; intros [|j]; simpl; try constructor; try lra.
      - change (map (Rmult a) ?l) with (vscale a l). rewrite (proj2 (Z n)). apply Forall_forall. intros x Hx. apply repeat_spec in Hx. lra.
      - apply IH. }
    intros i j D n. revert i j D. induction n as [|n IH]; intros [|i] [|j] D; try (constructor; fail); [lia| | |].
    + simpl. unfold vplus, vscale. simpl. constructor; [lra|]. change (map (Rmult a) (map IZR (repeat 0%Z n))) with (vscale a (map IZR (repeat 0%Z n))).
      rewrite (proj2 (Z n)). change (zipwith Rplus ?u ?v) with (vplus u v). rewrite vplus_zero_l; [apply U|]. rewrite !map_length, zunit_length; auto.
    + simpl. unfold vplus, vscale. simpl. constructor; [lra|]. change (map (Rmult (s/2)) (map IZR (repeat 0%Z n))) with (vscale (s/2) (map IZR (repeat 0%Z n))).
      rewrite (proj1 (Z n)). change (zipwith Rplus ?u ?v) with (vplus u v). rewrite vplus_zero_r; [apply V|]. rewrite !map_length, zunit_length; auto.
    + simpl. unfold vplus, vscale. simpl. constructor; [lra|]. apply IH. lia.
  - rewrite vplus_length; rewrite !vscale_length, !map_length, !zunit_length; auto.
Qed.

Section Oblique.
  Context (n : nat) (vs : list vec) (per : list bool) (L : lattice R) (HL : lattice_on n vs per L) (i j : nat) (u v : vec) (OP : oblique_pair per vs i j u v).

  Let Lper : length per = n := on_per n vs per L HL.
  Let Lvs : length vs = n := on_length n vs per L HL.
  Let W : widths n vs := on_widths n vs per L HL.

  Lemma ob_lengths : length u = n /\ length v = n.
  Proof.
    destruct OP as (_ & _ & _ & Hu & Hv & _). pose proof W as W'. unfold widths in W'. rewrite Forall_forall in W'. split; apply W'; eapply nth_error_In; eauto.
  Qed.
  (** Points [a*u + (s/2)*v]. *)
  Lemma ob_coords a s : coords n vs (vplus (vscale a (map IZR (zunit n i))) (vscale (s/2) (map IZR (zunit n j)))) (vplus (vscale a u) (vscale (s/2) v)).
  Proof.
    destruct OP as (_ & _ & _ & Hu & Hv & _). split.
    - rewrite vplus_length; rewrite !vscale_length, !map_length, !zunit_length; auto.
    - rewrite lincomb_plus; auto; [|rewrite !vscale_length, !map_length, !zunit_length; auto].
      rewrite !lincomb_scale. rewrite <- Lvs. rewrite (Lvs) at 1 3. rewrite (lincomb_zunit n vs i u W Hu), (lincomb_zunit n vs j v W Hv). reflexivity.
  Qed.
  Lemma ob_dist a s : (a = 1/2 \/ a = -1/2) -> (s = 1 \/ s = -1) ->
    cartesian_periodic_distance RA L (vplus (vscale a u) (vscale (s/2) v)) (vzero n) = Ok (round3 (vlength (vplus (vscale a u) (vscale (s/2) v)))).
  Proof.
    intros Ha Hs. assert (C0 : coords n vs (vzero n) (vzero n)) by (split; [apply vzero_length|apply lincomb_vzero; auto]).
    rewrite (dist_ok n vs per L HL _ _ _ _ (ob_coords a s) C0). do 3 f_equal.
    pose proof (ob_coords a s) as [Lf Ef]. set (f := vplus (vscale a (map IZR (zunit n i))) (vscale (s / 2) (map IZR (zunit n j)))) in *.
    assert (E0 : vminus f (vzero n) = f) by (rewrite vminus_as_plus, vscale_vzero, vplus_zero_r; auto; rewrite vzero_length; auto).
    rewrite E0. rewrite <- Ef. f_equal. unfold f. rewrite <- Lper at 1 2. destruct OP as (D & _). rewrite unit_round; auto.
    - now rewrite Lper.
    - destruct Ha as [->| ->]; apply Rabs_def1; lra.
    - lra.
  Qed.
  Definition sgn : R := if Rle_dec 0 (vdot u v) then 1 else -1.
  Lemma sgn_ok : (sgn = 1 \/ sgn = -1) /\ sgn * vdot u v = Rabs (vdot u v).
  Proof. unfold sgn. destruct (Rle_dec 0 (vdot u v)); split; auto; [rewrite Rabs_right; lra|rewrite Rabs_left; lra]. Qed.
  Definition far_point : vec := vplus (vscale (1/2) u) (vscale (sgn/2) v).
  Definition near_point : vec := vplus (vscale (-1/2) u) (vscale (sgn/2) v).
  Lemma ob_gap : round3 (vlength near_point) < round3 (vlength far_point).
  Proof. destruct sgn_ok as [S1 S2]. destruct ob_lengths as [Lu Lv]. destruct OP as (_ & _ & _ & _ & _ & HB). apply gap; auto. congruence. Qed.
  Lemma ob_points : length far_point = n /\ length near_point = n.
  Proof. destruct ob_lengths as [Lu Lv]. unfold far_point, near_point. rewrite !vplus_length; rewrite ?vscale_length; auto; congruence. Qed.
  Lemma ob_shift : vplus near_point (lincomb n (map IZR (zunit n i)) vs) = far_point.
  Proof.
    destruct OP as (_ & _ & _ & Hu & Hv & _). destruct ob_lengths as [Lu Lv]. replace (zunit n i) with (zunit (length vs) i) by (now rewrite Lvs). rewrite (lincomb_zunit n vs i u W Hu).
    unfold far_point, near_point. replace (1/2) with (-1/2 + 1) by lra. rewrite vscale_add, vscale_one. rewrite <- !vplus_assoc. f_equal. apply vplus_comm.
  Qed.
  Lemma ob_image : image n vs per near_point far_point.
  Proof.
    exists (zunit n i). split; [|now rewrite ob_shift]. rewrite <- Lper. destruct OP as (_ & Hi & _). now apply zunit_whole.
  Qed.
End Oblique.

Lemma C26_oblique_lemma : forall n vs per L i j u v, lattice_on n vs per L -> oblique_pair per vs i j u v ->
  exists p q q'' d, length p = n /\ length q = n /\ image n vs per q q'' /\
    cartesian_periodic_distance RA L p q = Ok d /\ round3 (vlength (vminus p q'')) < d.
Proof.
  intros n vs per L i j u v HL OP. pose proof (ob_lengths n vs per L HL i j u v OP) as [Lu Lv]. pose proof (ob_points n vs per L HL i j u v OP) as [Lf Ln].
  pose proof OP as (D & Hi & Hj & Hu & Hv & HB).
  exists (far_point u v), (vzero n), u, (round3 (vlength (far_point u v))). split; auto. split; [apply vzero_length|]. split; [|split].
  - exists (zunit n i). split; [rewrite <- (on_per n vs per L HL); now apply zunit_whole|].
    replace (zunit n i) with (zunit (length vs) i) by (now rewrite (on_length n vs per L HL)). rewrite (lincomb_zunit n vs i u); auto; [now rewrite vplus_zero_l|apply HL].
  - apply (ob_dist n vs per L HL i j u v OP); auto. apply sgn_ok.
  - replace (vminus (far_point u v) u) with (near_point u v); [eapply ob_gap; eauto|].
    rewrite vminus_as_plus by congruence. unfold far_point, near_point. rewrite <- vplus_assoc, (vplus_comm _ (vscale (-1) u)), vplus_assoc, <- vscale_add. do 2 f_equal. lra.
Qed.

(** ** Replacing points by images (C77) *)
Lemma C77_oblique_lemma : forall n vs per L i j u v, lattice_on n vs per L -> oblique_pair per vs i j u v ->
  exists p p' q d d', length p = n /\ length q = n /\ image n vs per p p' /\
    cartesian_periodic_distance RA L p q = Ok d /\ cartesian_periodic_distance RA L p' q = Ok d' /\ d' < d.
Proof.
  intros n vs per L i j u v HL OP. pose proof (ob_points n vs per L HL i j u v OP) as [Lf Ln].
  exists (far_point u v), (near_point u v), (vzero n). do 2 eexists. split; auto. split; [apply vzero_length|]. split; [|split; [|split]].
  - apply (image_sym n vs per L HL); auto. eapply ob_image; eauto.
  - apply (ob_dist n vs per L HL i j u v OP); auto. apply sgn_ok.
  - apply (ob_dist n vs per L HL i j u v OP); auto. apply sgn_ok.
  - eapply ob_gap; eauto.
Qed.

Lemma diff_frac_off per : forall f z, length f = length per -> whole per z ->
  Forall2 (fun (b : bool) x => b = true -> forall k : Z, x <> IZR k + 1/2) per f -> diff_frac per (vplus f (map IZR z)) = diff_frac per f.
Proof.
  intros f z LL W. revert f LL. induction W; destruct f; simpl; intros LL F; try discriminate; auto. inversion F; subst.
  unfold diff_frac, rints, vminus, vplus in *; simpl. f_equal; [|apply IHW; auto].
  destruct x; [|rewrite H by auto; ring]. rewrite zrint_shift_noties; [rewrite plus_IZR; ring|]. intros E.
  unfold Rabs in E. destruct (Rcase_abs _) in E.
  - apply (H3 eq_refl (zrint r - 1)%Z). rewrite minus_IZR. lra.
  - apply (H3 eq_refl (zrint r)). lra.
Qed.
Lemma C77_lemma : forall n vs per L p q p' q', lattice_on n vs per L -> length p = n -> length q = n ->
  periods_orthogonal per vs \/ off_ties n vs per p q -> image n vs per p p' -> image n vs per q q' ->
  cartesian_periodic_distance RA L p' q' = cartesian_periodic_distance RA L p q.
Proof.
  intros n vs per L p q p' q' HL Lp Lq H Ip Iq.
  destruct (coords_exist n vs per L HL p Lp) as [f Cf]. destruct (coords_exist n vs per L HL q Lq) as [g Cg].
  destruct (image_coords n vs per L HL p p' f Cf Ip) as (z & Wz & Cf').
  destruct (image_coords n vs per L HL q q' g Cg Iq) as (w & Ww & Cg').
  rewrite (dist_ok n vs per L HL p' q' _ _ Cf' Cg'), (dist_ok n vs per L HL p q _ _ Cf Cg). do 2 f_equal.
  assert (Lz : length z = n) by (eapply whole_length; eauto). assert (Lw : length w = n) by (eapply whole_length; eauto).
  pose proof Cf as [Lf Ef]. pose proof Cg as [Lg Eg]. assert (WD : widths n vs) by apply HL.
  replace (vminus (vplus f (map IZR z)) (vplus g (map IZR w)))
    with (vplus (vminus f g) (map IZR (zipwith Z.add z (map Z.opp w)))).
  2:{ clear -Lf Lg Lz Lw. revert f g z w Lf Lg Lz Lw. induction n; destruct f, g, z, w; simpl; intros; try discriminate; auto.
      unfold vplus, vminus in *; simpl. f_equal; auto. rewrite plus_IZR, opp_IZR. ring. }
  set (y := zipwith Z.add z (map Z.opp w)). assert (Wy : whole per y) by (apply whole_add; auto; apply whole_opp; auto). clearbody y.
  set (h := vminus f g). assert (Lh : length h = length per) by (unfold h; rewrite vminus_length; rewrite ?(on_per n vs per L HL); congruence).
  destruct H as [O|(h' & Ch & F)].
  - unfold vlength. f_equal.
    assert (TT : forall x z, length x = length per -> whole per z -> tighter per (diff_frac per (vplus x (map IZR z))) (diff_frac per x) /\ tighter per (diff_frac per x) (diff_frac per (vplus x (map IZR z)))).
    { clear. intros g z LL W. revert g LL. induction W; destruct g as [|r g]; simpl; intros LL; try discriminate; [split; constructor|].
      destruct (IHW g) as [I1 I2]; [lia|]. unfold diff_frac, rints, vminus, vplus in *; simpl. destruct x.
      - split; constructor; auto; right; [apply zrint_shift|symmetry; apply zrint_shift].
      - rewrite H by auto. rewrite Rplus_0_r. split; constructor; auto. }
    destruct (TT h y Lh Wy) as [T1 T2]. apply Rle_antisym; eapply tighter_le; eauto.
  - f_equal. f_equal. apply diff_frac_off; auto. replace h with h'; auto. apply (coords_unique n vs per L HL h' h (vminus p q)); auto. split; [unfold h; rewrite vminus_length; congruence|].
    unfold h. rewrite lincomb_minus; auto; congruence.
Qed.

(** ** A periodic vector oblique to an open one *)
Lemma unit_open per : forall j y, nth_error per j = Some false -> diff_frac per (vscale y (map IZR (zunit (length per) j))) = vscale y (map IZR (zunit (length per) j)).
Proof.
  assert (H0 : zrint 0 = 0%Z) by apply (zrint_IZR 0).
  induction per as [|b per IH]; intros [|j] y E; try discriminate; simpl in E.
  - injection E as ->. cbn [length zunit map vscale]. unfold diff_frac, rints, vminus, vscale. cbn [zipwith map]. f_equal; [lra|].
    rewrite map_repeat. replace (map (Rmult y) (repeat (IZR 0) (length per))) with (vzero (length per)) by (symmetry; apply (vscale_vzero y)).
    clear -H0. induction per as [|b per IH]; [reflexivity|]. unfold vzero in *. cbn [length repeat zipwith map] in *. f_equal; auto. destruct b; rewrite ?H0; lra.
  - cbn [length zunit map vscale]. specialize (IH j y E). unfold diff_frac, rints, vminus, vscale in *. cbn [zipwith map]. rewrite IH. f_equal.
    replace (y * IZR 0) with 0 by (simpl; ring). destruct b; rewrite ?H0; lra.
Qed.
Lemma lincomb_coef n vs i v a : widths n vs -> nth_error vs i = Some v -> lincomb n (vscale a (map IZR (zunit (length vs) i))) vs = vscale a v.
Proof. intros W E. rewrite lincomb_scale. f_equal. now apply lincomb_zunit. Qed.
Lemma zunit_scale_whole per : forall i k, nth_error per i = Some true -> whole per (map (Z.mul k) (zunit (length per) i)).
Proof.
  intros i k E. apply zunit_whole in E. unfold whole in *. induction E; cbn [map]; constructor; auto. intros Hb. rewrite H by auto. lia.
Qed.

Lemma C26_mixed_lemma : forall n vs per L i j u v, lattice_on n vs per L -> nth_error per i = Some true -> nth_error per j = Some false ->
  nth_error vs i = Some u -> nth_error vs j = Some v -> vdot u v <> 0 ->
  exists p q q'' d, length p = n /\ length q = n /\ image n vs per q q'' /\
    cartesian_periodic_distance RA L p q = Ok d /\ round3 (vlength (vminus p q'')) < d.
Proof.
  intros n vs per L i j u v HL Pi Pj Hu Hv NB. pose proof (on_per n vs per L HL) as Lper. pose proof (on_length n vs per L HL) as Lvs. pose proof (on_widths n vs per L HL) as W.
  assert (Lu : length u = n) by (unfold widths in W; rewrite Forall_forall in W; apply W; eapply nth_error_In; eauto).
  assert (Lv : length v = n) by (unfold widths in W; rewrite Forall_forall in W; apply W; eapply nth_error_In; eauto).
  pose proof (dot_abs u v ltac:(congruence)) as CS. pose proof (Rabs_pos_lt _ NB) as PB. set (B := Rabs (vdot u v)) in *.
  set (b := vlength v) in *. assert (Pb : 0 < b). { destruct (Rle_lt_or_eq_dec 0 b (vlength_nonneg v)) as [|E]; auto. rewrite <- E in CS. lra. }
  set (K := up (b / B)). assert (HK : b / B < IZR K) by apply archimed. set (k := IZR K) in *.
  assert (HKB : b < k * B). { apply (Rmult_lt_compat_r B) in HK; auto. unfold Rdiv in HK. rewrite Rmult_assoc, Rinv_l, Rmult_1_r in HK; lra. }
  assert (Pk : 0 < k). { destruct (Rlt_dec 0 k) as [|N]; auto. apply Rnot_lt_le in N. nra. }
  set (aa := vdot u u) in *. assert (Paa : 0 <= aa) by apply vdot_nonneg.
  set (y := (k * k * aa + 1) / b). assert (Eyb : y * b = k * k * aa + 1) by (unfold y; field; lra). assert (Py : 0 < y). { unfold y. apply Rdiv_lt_0_compat; auto. nra. }
  set (s := if Rle_dec 0 (vdot u v) then 1%Z else (-1)%Z). assert (ES : IZR s * vdot u v = B). { unfold s, B. destruct (Rle_dec 0 (vdot u v)); [rewrite Rabs_right; lra|rewrite Rabs_left; lra]. }
  assert (S2 : IZR s * IZR s = 1) by (unfold s; destruct (Rle_dec 0 (vdot u v)); simpl; lra).
  exists (vscale y v), (vzero n), (vscale (IZR s * k) u), (round3 (vlength (vscale y v))).
  split; [rewrite vscale_length; auto|]. split; [apply vzero_length|]. split; [|split].
  - exists (map (Z.mul (s * K)) (zunit n i)). split; [rewrite <- Lper; now apply zunit_scale_whole|]. rewrite vplus_zero_l.
    + replace (map IZR (map (Z.mul (s * K)) (zunit n i))) with (vscale (IZR s * k) (map IZR (zunit n i))).
      * rewrite <- Lvs at 1. rewrite Lvs. replace (zunit n i) with (zunit (length vs) i) by now rewrite Lvs. symmetry. now apply lincomb_coef.
      * unfold vscale. rewrite !map_map. apply map_ext. intros x. unfold k. rewrite !mult_IZR. reflexivity.
    + apply lincomb_length; auto.
  - assert (C0 : coords n vs (vzero n) (vzero n)) by (split; [apply vzero_length|apply lincomb_vzero; auto]).
    assert (C1 : coords n vs (vscale y (map IZR (zunit n j))) (vscale y v)).
    { split; [rewrite vscale_length, map_length, zunit_length; auto|]. replace (zunit n j) with (zunit (length vs) j) by now rewrite Lvs. now apply lincomb_coef. }
    rewrite (dist_ok n vs per L HL _ _ _ _ C1 C0). do 3 f_equal.
    assert (E0 : vminus (vscale y (map IZR (zunit n j))) (vzero n) = vscale y (map IZR (zunit n j))).
    { rewrite vminus_as_plus, vscale_vzero, vplus_zero_r; auto; rewrite ?vzero_length, vscale_length, map_length, zunit_length; auto. }
    rewrite E0. replace (zunit n j) with (zunit (length per) j) by now rewrite Lper. rewrite unit_open by auto. rewrite Lper. apply C1.
  - apply round3_far. assert (E1 : vlength (vscale y v) = y * b).
    { unfold vlength. rewrite vdot_scale, sqrt_mult_alt, sqrt_square by nra. reflexivity. }
    rewrite E1.
    assert (E2 : vminus (vscale y v) (vscale (IZR s * k) u) = vplus (vscale (- (IZR s * k)) u) (vscale y v)).
    { rewrite vminus_as_plus by (rewrite !vscale_length; congruence). rewrite vplus_comm. f_equal. rewrite vscale_scale. f_equal. ring. }
    rewrite E2. unfold vlength. rewrite (dot_square n) by (rewrite ?vscale_length; auto). rewrite vdot_scale_l, vdot_scale, (vdot_comm v u).
    fold aa. assert (Ebb : vdot v v = b * b) by (symmetry; unfold b, vlength; apply sqrt_sqrt, vdot_nonneg). rewrite Ebb.
    replace (- (IZR s * k) * - (IZR s * k) * aa + 2 * - (IZR s * k) * (y * vdot u v) + y * y * (b * b))
      with (IZR s * IZR s * (k * k * aa) - 2 * k * y * (IZR s * vdot u v) + (y * b) * (y * b)) by ring.
    rewrite S2, ES. set (X := y * b) in *. assert (HX : 1 <= X) by (rewrite Eyb; nra).
    assert (HYB : 2 * X <= 2 * k * y * B) by (unfold X; nra).
    assert (Q : 1 * (k * k * aa) - 2 * k * y * B + X * X < (X - 2/1000) * (X - 2/1000)) by nra.
    assert (sqrt (1 * (k * k * aa) - 2 * k * y * B + X * X) <= X - 2/1000); [|lra].
    rewrite <- (sqrt_square (X - 2/1000)) by lra. apply sqrt_le_1_alt. lra.
Qed.
