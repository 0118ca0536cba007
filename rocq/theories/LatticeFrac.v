(** Proofs about [periodize] and [pbc_diff_frac_vec] on fractional coordinates, over the
    real numbers and in binary64. *)
From Coq Require Import Reals Lra.
From Flocq Require Import Core BinarySingleNaN.
From Verif Require Import Prelude Arith RVec RealArith LatticeModel SpecGeom FloatArith SpecFloat64 FloatFacts.
Local Open Scope R_scope.

Section Shape.
  Context {F : Type} (A : arith F).
  Definition wrap1 (x : F) (b : bool) : F := a_sub A x (a_mul A (a_floor A x) (of_bool A b)).
  Definition diff1 (d : F) (b : bool) : F := a_sub A d (a_mul A (a_rint A d) (of_bool A b)).

  Lemma zipwith_maps (g : F -> F) (f : list F) : forall per,
    zipwith (a_sub A) f (zipwith (a_mul A) (map g f) (map (of_bool A) per)) =
    zipwith (fun x b => a_sub A x (a_mul A (g x) (of_bool A b))) f per.
  Proof. induction f as [|x f IH]; intros [|b per]; simpl; auto. now rewrite IH. Qed.
  Lemma flags_arg f p : periodize_arg A f p = periodize A f (flags (length f) p).
  Proof. destruct p; auto. simpl. f_equal. induction f; simpl; auto. now rewrite IHf. Qed.
  Lemma periodize_shape f per : length per = length f -> periodize A f per = Ok (zipwith wrap1 f per).
  Proof.
    intros L. unfold periodize. rewrite bcast_eq by (rewrite !map_length; auto). simpl.
    rewrite bcast_eq by (rewrite zipwith_length_min, !map_length; lia). now rewrite zipwith_maps.
  Qed.
  Lemma diff_shape f1 f2 per : length f1 = length f2 -> length per = length f1 ->
    pbc_diff_frac_vec A f1 f2 per = Ok (zipwith diff1 (zipwith (a_sub A) f1 f2) per).
  Proof.
    intros L L2. unfold pbc_diff_frac_vec. rewrite bcast_eq by auto. simpl.
    assert (LZ : length (zipwith (a_sub A) f1 f2) = length f1) by (apply zipwith_length; auto).
    rewrite bcast_eq by (rewrite !map_length; congruence). simpl.
    rewrite bcast_eq by (rewrite (zipwith_length_min (a_mul A)), !map_length; lia). now rewrite zipwith_maps.
  Qed.
  Lemma not_bcast (op : F -> F -> F) u v : length u <> length v -> length u <> 1%nat -> length v <> 1%nat -> bcast op u v = Err ValueError.
  Proof.
    intros N1 N2 N3. unfold bcast. destruct (Nat.eqb_spec (length u) (length v)); [contradiction|].
    destruct u as [|x [|y u]], v as [|x' [|y' v]]; simpl in *; auto; congruence.
  Qed.
  Lemma lengths f per : length per <> length f -> length per <> 1%nat -> length f <> 1%nat ->
    periodize A f per = Err ValueError /\ forall f', length f' = length f -> pbc_diff_frac_vec A f f' per = Err ValueError.
  Proof.
    intros N1 N2 N3. split.
    - unfold periodize. rewrite not_bcast; rewrite ?map_length; auto.
    - intros f' L. unfold pbc_diff_frac_vec. rewrite bcast_eq by auto. simpl.
      assert (LZ : length (zipwith (a_sub A) f f') = length f) by (apply zipwith_length; auto).
      rewrite not_bcast; rewrite ?map_length, ?LZ; auto.
  Qed.
End Shape.
Lemma C106_lengths_lemma : forall F (A : arith F) f per, length per <> length f -> length per <> 1%nat -> length f <> 1%nat ->
  periodize A f per = Err ValueError /\ forall f', length f' = length f -> pbc_diff_frac_vec A f f' per = Err ValueError.
Proof. intros. now apply lengths. Qed.

(** ** Real numbers *)
Lemma C106_periodize_lemma : forall f p, length (flags (length f) p) = length f ->
  exists g, periodize_arg RA f p = Ok g /\ length g = length f /\
    forall i b x y, nth_error (flags (length f) p) i = Some b -> nth_error f i = Some x -> nth_error g i = Some y ->
      if b then 0 <= y < 1 /\ (exists z, y = x + IZR z) else y = x.
Proof.
  intros f p L. exists (zipwith (wrap1 RA) f (flags (length f) p)). rewrite flags_arg, periodize_shape by auto.
  split; [auto|]. split; [apply zipwith_length; auto|].
  intros i b x y Hb Hx Hy. rewrite zipwith_nth, Hx, Hb in Hy. injection Hy as <-. unfold wrap1. destruct b; simpl.
  - pose proof (zfloor_spec x). split; [lra|]. exists (- zfloor x)%Z. rewrite opp_IZR. lra.
  - lra.
Qed.

Lemma C106_difference_lemma : forall f1 f2 per, length f1 = length f2 -> length per = length f1 ->
  exists d, pbc_diff_frac_vec RA f1 f2 per = Ok d /\ pbc_diff_frac_vec RA f2 f1 per = Ok (map Ropp d) /\ length d = length f1 /\
    forall i b x1 x2 y, nth_error per i = Some b -> nth_error f1 i = Some x1 -> nth_error f2 i = Some x2 -> nth_error d i = Some y ->
      if b then Rabs y <= 1/2 /\ (exists z, y = x1 - x2 + IZR z) /\ (forall z, Rabs y <= Rabs (x1 - x2 + IZR z)) else y = x1 - x2.
Proof.
  intros f1 f2 per L L2. exists (zipwith (diff1 RA) (zipwith Rminus f1 f2) per).
  assert (LZ : length (zipwith Rminus f1 f2) = length f1) by (apply zipwith_length; auto).
  split; [apply diff_shape; auto|]. split; [|split].
  - rewrite diff_shape by congruence. f_equal. clear L2 LZ. revert f2 per L. induction f1 as [|x f1 IH]; intros [|y f2] [|b per] L; simpl in *; auto; try discriminate.
    f_equal; [|apply IH; auto]. unfold diff1. simpl.
    replace (y - x) with (- (x - y)) by ring. rewrite zrint_opp, opp_IZR. ring.
  - rewrite zipwith_length; congruence.
  - intros i b x1 x2 y Hb H1 H2 Hy. rewrite !zipwith_nth, H1, H2, Hb in Hy. injection Hy as <-. unfold diff1. destruct b; simpl; [|ring].
    rewrite Rmult_1_r. pose proof (zrint_bound (x1 - x2)) as B. split; [exact B|]. split.
    + exists (- zrint (x1 - x2))%Z. rewrite opp_IZR. ring.
    + intros z. destruct (Z.eq_dec z (- zrint (x1 - x2))) as [->|N]; [rewrite opp_IZR; right; f_equal; ring|].
      replace (x1 - x2 + IZR z) with ((x1 - x2 - IZR (zrint (x1 - x2))) + IZR (z + zrint (x1 - x2))) by (rewrite plus_IZR; ring).
      set (u := x1 - x2 - IZR (zrint (x1 - x2))) in *. set (k := (z + zrint (x1 - x2))%Z).
      assert (1 <= Rabs (IZR k)). { rewrite <- abs_IZR. apply IZR_le. unfold k. lia. }
      pose proof (Rabs_triang_inv (IZR k) (- u)) as T. rewrite Rabs_Ropp in T. replace (IZR k - - u) with (u + IZR k) in T by ring. lra.
Qed.

(** ** binary64 *)
Lemma rnd_between x a b : rnd a = a -> rnd b = b -> a <= x <= b -> a <= rnd x <= b.
Proof. intros Ea Eb [H1 H2]. rewrite <- Ea, <- Eb. unfold rnd. split; apply round_le; auto with typeclass_instances. all: apply FLT_exp_valid; reflexivity. Qed.
Lemma rnd_of v x : denotes v x -> rnd x = x.
Proof. intros [_ <-]. unfold rnd. apply round_generic; auto with typeclass_instances. apply (generic_format_B2R 53 1024). Qed.
Lemma bool_den b : denotes (of_bool FA b) (if b then 1 else 0).
Proof. destruct b; apply (denotes_ofZ _); reflexivity. Qed.
Lemma small_big x : Rabs x <= 2 -> Rabs x <= big.
Proof. intros H. apply Rle_trans with 2; auto. apply Rle_trans with (IZR (2 ^ 100)); [apply IZR_le; lia|apply big_large]. Qed.

(** subtracting a whole number or nothing *)
Lemma wrap_den v x z b : denotes v x -> denotes z (IZR (Zfloor x)) \/ denotes z (IZR (ZnearestE x)) -> Rabs x < bpow radix2 999 ->
  denotes (f_sub v (f_mul z (of_bool FA b))) (if b then rnd (x - B2R z) else x).
Proof.
  intros Dv Dz Bx. assert (DZ : exists k, denotes z (IZR k) /\ Rabs (x - IZR k) <= 1).
  { destruct Dz as [D|D]; eexists; (split; [exact D|]).
    - pose proof (Zfloor_lb x). pose proof (Zfloor_ub x). rewrite Rabs_pos_eq; lra.
    - pose proof (Znearest_half (fun z => negb (Z.even z)) x). lra. }
  destruct DZ as (k & Dk & Hk). rewrite (proj2 Dk).
  assert (Bk : Rabs (IZR k) <= big).
  { replace (IZR k) with (x - (x - IZR k)) by ring. pose proof (Rabs_triang x (- (x - IZR k))) as T. rewrite Rabs_Ropp in T. unfold Rminus at 1.
    assert (bpow radix2 999 + 1 <= big).
    { unfold big. replace (bpow radix2 1000) with (2 * bpow radix2 999) by (change 1000%Z with (1 + 999)%Z; rewrite bpow_plus; reflexivity).
      assert (1 <= bpow radix2 999) by (change 1 with (bpow radix2 0); apply bpow_le; lia). lra. }
    lra. }
  destruct b.
  - assert (DM : denotes (f_mul z (of_bool FA true)) (IZR k)).
    { pose proof (denotes_mul _ _ _ _ Dk (bool_den true)) as D. cbn iota in D. rewrite Rmult_1_r in D. rewrite (rnd_of _ _ Dk) in D. auto. }
    apply denotes_sub; auto. apply small_big. lra.
  - assert (DM : denotes (f_mul z (of_bool FA false)) 0).
    { pose proof (denotes_mul _ _ _ _ Dk (bool_den false)) as D. cbn iota in D. rewrite Rmult_0_r in D.
      replace (rnd 0) with 0 in D by (symmetry; apply round_0; auto with typeclass_instances). apply D. apply small_big. rewrite Rabs_R0. lra. }
    pose proof (denotes_sub _ _ _ _ Dv DM) as D. rewrite Rminus_0_r, (rnd_of _ _ Dv) in D. apply D.
    apply Rlt_le, Rlt_le_trans with (bpow radix2 999); auto. apply bpow_le. lia.
Qed.

Lemma rnd_01 : rnd 0 = 0 /\ rnd 1 = 1 /\ rnd (1/2) = 1/2.
Proof.
  split; [apply round_0; auto with typeclass_instances|]. split; [exact (rnd_IZR 1 eq_refl)|].
  unfold rnd. apply round_generic; auto with typeclass_instances. replace (1/2) with (bpow radix2 (-1)) by (simpl; lra).
  apply generic_format_bpow. unfold FLT_exp. simpl. lia.
Qed.

Lemma C106_float_lemma : forall f p, length (flags (length f) p) = length f ->
  (forall v, In v f -> exists x, denotes v x /\ Rabs x < bpow radix2 999) ->
  exists g, periodize_arg FA f p = Ok g /\ length g = length f /\
    forall i b u v, nth_error (flags (length f) p) i = Some b -> nth_error f i = Some u -> nth_error g i = Some v ->
      if b then exists y, denotes v y /\ 0 <= y <= 1 /\ y = rnd (B2R u - IZR (Zfloor (B2R u))) else denotes v (B2R u).
Proof.
  intros f p L Fin. exists (zipwith (wrap1 FA) f (flags (length f) p)). rewrite flags_arg, periodize_shape by auto.
  split; [auto|]. split; [apply zipwith_length; auto|].
  intros i b u v Hb Hu Hv. rewrite zipwith_nth, Hu, Hb in Hv. injection Hv as <-.
  destruct (Fin u (nth_error_In _ _ Hu)) as (x & Du & Bx). pose proof (denotes_floor _ _ Du) as DF.
  pose proof (wrap_den u x (f_floor u) b Du (or_introl DF) Bx) as D. rewrite (proj2 DF) in D. rewrite (proj2 Du).
  destruct b; [|exact D]. exists (rnd (x - IZR (Zfloor x))). split; [exact D|]. split; auto.
  destruct rnd_01 as (R0 & R1 & _). apply rnd_between; auto. pose proof (Zfloor_lb x). pose proof (Zfloor_ub x). lra.
Qed.

Lemma C106_float_difference_lemma : forall f1 f2 per, length f1 = length f2 -> length per = length f1 ->
  (forall v, In v (f1 ++ f2) -> exists x, denotes v x /\ Rabs x <= bpow radix2 997) ->
  exists d, pbc_diff_frac_vec FA f1 f2 per = Ok d /\ length d = length f1 /\
    forall i b u1 u2 v, nth_error per i = Some b -> nth_error f1 i = Some u1 -> nth_error f2 i = Some u2 -> nth_error d i = Some v ->
      exists y, denotes v y /\ if b then Rabs y <= 1/2 /\ exists z, y = rnd (rnd (B2R u1 - B2R u2) + IZR z) else y = rnd (B2R u1 - B2R u2).
Proof.
  intros f1 f2 per L L2 Fin. exists (zipwith (diff1 FA) (zipwith f_sub f1 f2) per).
  assert (LZ : length (zipwith f_sub f1 f2) = length f1) by (apply zipwith_length; auto).
  split; [apply diff_shape; auto|]. split; [rewrite zipwith_length; congruence|].
  intros i b u1 u2 v Hb H1 H2 Hv. rewrite !zipwith_nth, H1, H2, Hb in Hv. injection Hv as <-.
  destruct (Fin u1) as (x1 & D1 & B1); [apply in_or_app; left; eapply nth_error_In; eauto|].
  destruct (Fin u2) as (x2 & D2 & B2); [apply in_or_app; right; eapply nth_error_In; eauto|].
  assert (E : bpow radix2 998 = bpow radix2 997 + bpow radix2 997) by (change 998%Z with (1 + 997)%Z; rewrite bpow_plus; change (bpow radix2 1) with 2; ring).
  assert (BD : Rabs (x1 - x2) <= bpow radix2 998).
  { pose proof (Rabs_triang x1 (- x2)) as T. rewrite Rabs_Ropp in T. unfold Rminus. lra. }
  assert (DD : denotes (f_sub u1 u2) (rnd (x1 - x2))).
  { apply denotes_sub; auto. apply Rle_trans with (1 := BD). apply bpow_le. lia. }
  assert (BR : Rabs (rnd (x1 - x2)) < bpow radix2 999).
  { apply Rle_lt_trans with (bpow radix2 998); [|apply bpow_lt; lia]. unfold rnd. apply abs_round_le_generic; auto with typeclass_instances.
    apply generic_format_bpow. unfold FLT_exp. lia. }
  set (w := rnd (x1 - x2)) in *. pose proof (denotes_rint _ _ DD) as DR.
  pose proof (wrap_den (f_sub u1 u2) w (f_rint (f_sub u1 u2)) b DD (or_intror DR) BR) as D. rewrite (proj2 DR) in D. rewrite (proj2 D1), (proj2 D2). fold w.
  unfold diff1. cbn [a_sub a_mul a_rint FA]. eexists. split; [exact D|]. destruct b; [|reflexivity]. split.
  - destruct rnd_01 as (_ & _ & RH). pose proof (Znearest_half (fun z => negb (Z.even z)) w) as HH. apply Rabs_le. apply rnd_between; [|exact RH|].
    + unfold rnd. rewrite round_NE_opp. f_equal. exact RH.
    + apply Rabs_bnd. change (Znearest (fun z => negb (Z.even z))) with ZnearestE in HH. lra.
  - exists (- ZnearestE w)%Z. rewrite opp_IZR. reflexivity.
Qed.

(** The float next below 0 is wrapped to 1, which is not below 1. *)
Definition tiny_negative : b64 := f_div (f_ofZ (-1)) (f_ofZ (2 ^ 60)).
Lemma C106_float_refuted_lemma : exists f, f_ltb f (f_ofZ 0) = true /\ is_finite f = true /\
  exists v, periodize_arg FA [f] (PBool true) = Ok [v] /\ denotes v 1.
Proof.
  exists tiny_negative. split; [vm_compute; reflexivity|]. split; [vm_compute; reflexivity|].
  exists (wrap1 FA tiny_negative true). split; [rewrite flags_arg, periodize_shape; reflexivity|].
  assert (FI : is_finite (wrap1 FA tiny_negative true) = true) by (vm_compute; reflexivity). split; [exact FI|].
  assert (E : f_eqb (wrap1 FA tiny_negative true) (f_ofZ 1) = true) by (vm_compute; reflexivity).
  destruct (denotes_ofZ 1 eq_refl) as [F1 E1]. unfold f_eqb in E. rewrite Beqb_correct in E by auto. rewrite E1 in E.
  destruct (Req_bool_spec (B2R (wrap1 FA tiny_negative true)) 1); [auto|discriminate].
Qed.
