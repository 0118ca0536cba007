(** Vectors of a single entry in the functions on fractional coordinates (C106). *)
From Verif Require Import Prelude Arith LatticeModel LatticeFrac.

Lemma bcast_one_l {F} (op : F -> F -> F) x v : bcast op [x] v = bcast op (repeat x (length v)) v.
Proof.
  unfold bcast. rewrite repeat_length, Nat.eqb_refl. assert (E : zipwith op (repeat x (length v)) v = map (op x) v) by (induction v; simpl; congruence).
  rewrite E. destruct v as [|y [|z v]]; reflexivity.
Qed.
Lemma bcast_one_r {F} (op : F -> F -> F) u y : bcast op u [y] = bcast op u (repeat y (length u)).
Proof.
  unfold bcast. rewrite repeat_length, Nat.eqb_refl. assert (E : zipwith op u (repeat y (length u)) = map (fun x => op x y) u) by (induction u; simpl; congruence).
  rewrite E. destruct u as [|x [|z u]]; reflexivity.
Qed.
Lemma repeated_map {A B} (f : A -> B) x n : map f (repeat x n) = repeat (f x) n.
Proof. induction n; simpl; congruence. Qed.
Lemma bcast_ok_length {F} (op : F -> F -> F) u v w : length u = length v -> bcast op u v = Ok w -> length w = length u.
Proof. intros E. unfold bcast. rewrite E, Nat.eqb_refl. intros H. injection H as <-. rewrite <- E. clear - E. revert v E. induction u; destruct v; simpl; intros; auto; discriminate. Qed.

Lemma C106_repeated_lemma : forall F (A : arith F),
  (forall x per, periodize A [x] per = periodize A (repeat x (length per)) per) /\
  (forall f b, periodize A f [b] = periodize A f (repeat b (length f))) /\
  (forall x f per, pbc_diff_frac_vec A [x] f per = pbc_diff_frac_vec A (repeat x (length f)) f per) /\
  (forall f x per, pbc_diff_frac_vec A f [x] per = pbc_diff_frac_vec A f (repeat x (length f)) per) /\
  (forall f1 f2 b, length f1 = length f2 -> pbc_diff_frac_vec A f1 f2 [b] = pbc_diff_frac_vec A f1 f2 (repeat b (length f1))) /\
  (forall f1 f2 per, length f1 <> length f2 -> length f1 <> 1%nat -> length f2 <> 1%nat -> pbc_diff_frac_vec A f1 f2 per = Err ValueError).
Proof.
  intros F A. repeat split.
  - intros x per. unfold periodize. rewrite repeated_map. simpl map at 1. rewrite bcast_one_l, map_length.
    destruct (bcast (a_mul A) (repeat (a_floor A x) (length per)) (map (of_bool A) per)) as [t|e] eqn:E; auto. cbn [bind].
    rewrite bcast_one_l. apply bcast_ok_length in E; [|now rewrite repeat_length, map_length]. rewrite repeat_length in E. now rewrite E.
  - intros f b. unfold periodize. rewrite repeated_map. simpl map at 2. now rewrite bcast_one_r, map_length.
  - intros. unfold pbc_diff_frac_vec. now rewrite bcast_one_l.
  - intros. unfold pbc_diff_frac_vec. now rewrite bcast_one_r.
  - intros f1 f2 b L. unfold pbc_diff_frac_vec. destruct (bcast (a_sub A) f1 f2) as [d|e] eqn:E; auto. cbn [bind].
    apply bcast_ok_length in E; auto. rewrite repeated_map. simpl map at 2. now rewrite bcast_one_r, map_length, E.
  - intros f1 f2 per N1 N2 N3. unfold pbc_diff_frac_vec. now rewrite not_bcast.
Qed.
