(** Exact real arithmetic as an instance of [Arith.arith], with floor and
    rounding, and the translation of the generic array operations into the
    vectors of [RVec]. *)
From Coq Require Import Reals Lra ClassicalEpsilon.
From Verif Require Import Prelude Dict Arith RVec.
Open Scope R_scope.

(** Largest integer not above [x]. *)
Definition zfloor (x : R) : Z := Int_part x.

(** Nearest integer, ties to the even one. *)
Definition zrint (x : R) : Z :=
  let z := zfloor x in
  let f := x - IZR z in
  if Rlt_dec f (1/2) then z
  else if Rlt_dec (1/2) f then (z + 1)%Z
  else if Z.even z then z else (z + 1)%Z.

(** The inverse matrix, if there is one. *)
Definition real_inv (M : list vec) : res (list vec) :=
  match excluded_middle_informative (exists J, inverse_of (length M) M J) with
  | left H => Ok (proj1_sig (constructive_indefinite_description _ H))
  | right _ => Err LinAlgError
  end.

Definition RA : arith R := {|
  a_add := Rplus; a_sub := Rminus; a_mul := Rmult; a_div := Rdiv;
  a_sqrt := sqrt; a_abs := Rabs; a_ofZ := IZR;
  a_floor := fun x => IZR (zfloor x);
  a_rint := fun x => IZR (zrint x);
  a_eqb := fun x y => if Req_EM_T x y then true else false;
  a_ltb := fun x y => if Rlt_dec x y then true else false;
  a_inv := real_inv
|}.

#[export] Instance Eqb_R : Eqb R := a_eqb RA.
#[export] Instance EqbOk_R : EqbOk R.
Proof. intros x y; unfold eqb, Eqb_R; simpl; destruct (Req_EM_T x y); constructor; auto. Qed.

Lemma Rabs_bnd x a : Rabs x <= a -> - a <= x <= a.
Proof. intros H. pose proof (Rle_abs x). pose proof (Rle_abs (- x)). rewrite Rabs_Ropp in *. lra. Qed.

Lemma zfloor_spec x : IZR (zfloor x) <= x < IZR (zfloor x) + 1.
Proof. unfold zfloor. destruct (base_Int_part x). lra. Qed.
Lemma zfloor_unique x z : IZR z <= x < IZR z + 1 -> zfloor x = z.
Proof.
  intros [H1 H2]. destruct (zfloor_spec x) as [H3 H4].
  assert (IZR (zfloor x) < IZR (z + 1)) as A by (rewrite plus_IZR; lra). apply lt_IZR in A.
  assert (IZR z < IZR (zfloor x + 1)) as B by (rewrite plus_IZR; lra). apply lt_IZR in B. lia.
Qed.
Lemma zfloor_IZR z : zfloor (IZR z) = z.
Proof. apply zfloor_unique; lra. Qed.
Lemma zfloor_plus_Z x z : zfloor (x + IZR z) = (zfloor x + z)%Z.
Proof. apply zfloor_unique. rewrite plus_IZR. pose proof (zfloor_spec x). lra. Qed.
Lemma zfloor_unit x : 0 <= x < 1 -> zfloor x = 0%Z.
Proof. intros; apply zfloor_unique; lra. Qed.

Lemma zrint_cases x :
  (x - IZR (zfloor x) < 1/2 /\ zrint x = zfloor x) \/
  (1/2 < x - IZR (zfloor x) /\ zrint x = (zfloor x + 1)%Z) \/
  (x - IZR (zfloor x) = 1/2 /\ Z.even (zrint x) = true /\
     (zrint x = zfloor x \/ zrint x = (zfloor x + 1)%Z)).
Proof.
  unfold zrint. destruct (Rlt_dec _ _) as [H|H]; [left; auto|]. destruct (Rlt_dec _ _) as [K|K]; [right; left; auto|].
  right; right. split; [lra|]. destruct (Z.even (zfloor x)) eqn:E; split; auto.
  rewrite Z.even_add, E. reflexivity.
Qed.

Lemma zrint_bound x : Rabs (x - IZR (zrint x)) <= 1/2.
Proof.
  pose proof (zfloor_spec x). apply Rabs_le.
  destruct (zrint_cases x) as [[H1 ->]|[[H1 ->]|(H1 & _ & [->| ->])]]; rewrite ?plus_IZR; lra.
Qed.

(** The two properties that characterise rounding half to even. *)
Lemma zrint_unique x z : Rabs (x - IZR z) <= 1/2 -> (Rabs (x - IZR z) = 1/2 -> Z.even z = true) -> zrint x = z.
Proof.
  intros H T. pose proof (zfloor_spec x) as F.
  assert (z = zfloor x \/ z = zfloor x + 1)%Z as [E|E].
  { apply Rabs_bnd in H.
    assert (IZR z < IZR (zfloor x + 2)) as A by (rewrite plus_IZR; lra). apply lt_IZR in A.
    assert (IZR (zfloor x - 1) < IZR z) as B by (rewrite minus_IZR; lra). apply lt_IZR in B. lia. }
  - subst z. destruct (zrint_cases x) as [[H1 H2]|[[H1 H2]|(H1 & H2 & [H3|H3])]]; auto.
    + rewrite Rabs_right in H; lra.
    + exfalso. rewrite H3, Z.even_add in H2. rewrite T in H2; [discriminate|]. rewrite Rabs_right; lra.
  - subst z. rewrite plus_IZR in *. destruct (zrint_cases x) as [[H1 H2]|[[H1 H2]|(H1 & H2 & [H3|H3])]]; auto.
    + rewrite Rabs_left in H; lra.
    + exfalso. rewrite H3 in H2. specialize (T ltac:(rewrite Rabs_left; lra)).
      rewrite Z.even_add, H2 in T. discriminate.
Qed.

Lemma zrint_near x z : Rabs (x - IZR z) < 1/2 -> zrint x = z.
Proof. intros; apply zrint_unique; lra. Qed.
Lemma zrint_IZR z : zrint (IZR z) = z.
Proof. apply zrint_near. rewrite Rminus_diag_eq, Rabs_R0; lra. Qed.
Lemma zrint_opp x : zrint (- x) = (- zrint x)%Z.
Proof.
  apply zrint_unique.
  - rewrite opp_IZR. replace (- x - - IZR (zrint x)) with (- (x - IZR (zrint x))) by ring.
    rewrite Rabs_Ropp. apply zrint_bound.
  - rewrite opp_IZR. replace (- x - - IZR (zrint x)) with (- (x - IZR (zrint x))) by ring.
    rewrite Rabs_Ropp, Z.even_opp. intros H. pose proof (zfloor_spec x).
    destruct (zrint_cases x) as [[H1 H2]|[[H1 H2]|(H1 & H2 & _)]]; auto; exfalso; rewrite H2 in H; rewrite ?plus_IZR in H.
    + rewrite Rabs_right in H; lra.
    + rewrite Rabs_left in H; lra.
Qed.
(** Shifting by an integer keeps the distance to the nearest integer. *)
Lemma zrint_shift x z : Rabs (x + IZR z - IZR (zrint (x + IZR z))) = Rabs (x - IZR (zrint x)).
Proof.
  destruct (Req_dec (Rabs (x - IZR (zrint x))) (1/2)) as [E|E].
  - pose proof (zrint_bound (x + IZR z)) as B.
    destruct (Req_dec (Rabs (x + IZR z - IZR (zrint (x + IZR z)))) (1/2)) as [E'|E']; [congruence|].
    exfalso. assert (Rabs (x - IZR (zrint (x + IZR z) - z)) < 1/2) as N.
    { rewrite minus_IZR. replace (x - (IZR (zrint (x + IZR z)) - IZR z)) with (x + IZR z - IZR (zrint (x + IZR z))) by ring. lra. }
    pose proof N as N'. apply zrint_near in N. rewrite <- N in N'. lra.
  - pose proof (zrint_bound x) as B. rewrite (zrint_near (x + IZR z) (zrint x + z)).
    + rewrite plus_IZR. f_equal. ring.
    + rewrite plus_IZR. replace (x + IZR z - (IZR (zrint x) + IZR z)) with (x - IZR (zrint x)) by ring. lra.
Qed.
Lemma zrint_shift_noties x z : Rabs (x - IZR (zrint x)) <> 1/2 -> zrint (x + IZR z) = (zrint x + z)%Z.
Proof.
  intros E. pose proof (zrint_bound x). apply zrint_near. rewrite plus_IZR.
  replace (x + IZR z - (IZR (zrint x) + IZR z)) with (x - IZR (zrint x)) by ring. lra.
Qed.
Lemma zrint_le x y : x <= y -> (zrint x <= zrint y)%Z.
Proof.
  intros H. destruct (Z_le_gt_dec (zrint x) (zrint y)) as [|G]; auto. exfalso.
  assert (zrint y + 1 <= zrint x)%Z as G' by lia. apply IZR_le in G'. rewrite plus_IZR in G'.
  pose proof (zrint_bound x) as A. pose proof (zrint_bound y) as B. apply Rabs_bnd in A, B.
  assert (x = y) by lra. subst. lia.
Qed.

(** [np.round(x, k)] *)
Definition round3 (x : R) : R := IZR (zrint (x * 1000)) / 1000.
Lemma roundk_RA x : roundk RA 1000 x = round3 x. Proof. reflexivity. Qed.
Lemma round3_bound x : Rabs (x - round3 x) <= 1/2000.
Proof.
  unfold round3. pose proof (zrint_bound (x * 1000)) as H. apply Rabs_bnd in H. apply Rabs_le. lra.
Qed.
Lemma round3_milli z : round3 (IZR z / 1000) = IZR z / 1000.
Proof. unfold round3. replace (IZR z / 1000 * 1000) with (IZR z) by field. now rewrite zrint_IZR. Qed.
Lemma round3_IZR z : round3 (IZR z) = IZR z.
Proof. replace (IZR z) with (IZR (z * 1000) / 1000) at 1 by (rewrite mult_IZR; field). rewrite round3_milli, mult_IZR. field. Qed.
Lemma round3_idem x : round3 (round3 x) = round3 x.
Proof. unfold round3 at 2 3. apply round3_milli. Qed.
Lemma round3_le x y : x <= y -> round3 x <= round3 y.
Proof. intros. unfold round3. apply Rmult_le_compat_r; [lra|]. apply IZR_le, zrint_le. lra. Qed.
Lemma round3_nonneg x : 0 <= x -> 0 <= round3 x.
Proof. intros H. apply round3_le in H. now rewrite (round3_IZR 0) in H. Qed.

(** The inverse. *)
Lemma real_inv_ok n M J : inverse_of n M J -> real_inv M = Ok J.
Proof.
  intros H. pose proof H as (L & _). unfold real_inv. destruct (excluded_middle_informative _) as [E|E].
  - destruct (constructive_indefinite_description _ E) as [K HK]. simpl. f_equal.
    rewrite L in HK. eapply inverse_unique; eauto.
  - exfalso. apply E. exists J. now rewrite L.
Qed.
Lemma real_inv_basis n M : basis n M -> exists J, real_inv M = Ok J /\ inverse_of n M J.
Proof. intros B. destruct (basis_inverse n M B) as [J H]. exists J. split; auto. eapply real_inv_ok; eauto. Qed.
Lemma real_inv_singular M e : real_inv M = Err e -> e = LinAlgError /\ ~ basis (length M) M.
Proof.
  unfold real_inv. destruct (excluded_middle_informative _) as [E|E]; [discriminate|].
  intros H; injection H as <-. split; auto. intros B. apply E. now apply basis_inverse.
Qed.
Lemma real_inv_Ok_basis M J : real_inv M = Ok J -> inverse_of (length M) M J.
Proof.
  unfold real_inv. destruct (excluded_middle_informative _) as [E|E]; [|discriminate].
  destruct (constructive_indefinite_description _ E) as [K HK]; simpl. congruence.
Qed.

(** The generic operations at this instance. *)
Lemma comb_RA n v M : comb RA n v M = lincomb n v M.
Proof. revert M; induction v; destruct M; simpl; auto. Qed.
Lemma dot_RA u v : dot RA u v = vdot u v.
Proof. revert v; induction u; destruct v; simpl; auto. Qed.
Lemma norm_RA v : norm RA v = vlength v.
Proof. unfold norm, vlength. simpl. now rewrite dot_RA. Qed.
Lemma width_widths n M : widths n M -> length M = n -> width M = n.
Proof. destruct M; simpl; intros W L; auto. apply widths_cons in W. tauto. Qed.
Lemma vecmat_RA n v M : length v = length M -> widths n M -> (M = [] -> n = O) -> vecmat RA v M = Ok (lincomb n v M).
Proof.
  intros L W Z. unfold vecmat. rewrite L, Nat.eqb_refl, comb_RA. f_equal. f_equal. destruct M; simpl.
  - symmetry; auto. - apply widths_cons in W. tauto.
Qed.
Lemma bcast_eq {F} (f : F -> F -> F) u v : length u = length v -> bcast f u v = Ok (zipwith f u v).
Proof. intros L. unfold bcast. now rewrite L, Nat.eqb_refl. Qed.
