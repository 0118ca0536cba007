(** Property C106: wrapping and subtracting fractional coordinates. *)
From Coq Require Import Reals Lra.
From Flocq Require Import Core BinarySingleNaN.
From Verif Require Import Prelude Arith RVec RealArith LatticeModel SpecGeom FloatArith SpecFloat64 FloatFacts LatticeFrac FracRep.
Local Open Scope R_scope.

(** C106. periodize moves each periodic coordinate into [0, 1) by a whole number and leaves the others. *)
Theorem C106_periodize : forall f p, length (flags (length f) p) = length f ->
  exists g, periodize_arg RA f p = Ok g /\ length g = length f /\
    forall i b x y, nth_error (flags (length f) p) i = Some b -> nth_error f i = Some x -> nth_error g i = Some y ->
      if b then 0 <= y < 1 /\ (exists z, y = x + IZR z) else y = x.
Proof. exact C106_periodize_lemma. Qed.
Print Assumptions C106_periodize.
Example C106_periodize_example : length (flags 2 (PFlags [true; false])) = 2%nat /\ flags 3 (PBool false) = [false; false; false].
Proof. split; reflexivity. Qed.

(** C106. pbc_diff_frac_vec: the shortest difference between images along each periodic axis, the plain difference along the others. *)
Theorem C106_difference : forall f1 f2 per, length f1 = length f2 -> length per = length f1 ->
  exists d, pbc_diff_frac_vec RA f1 f2 per = Ok d /\ pbc_diff_frac_vec RA f2 f1 per = Ok (map Ropp d) /\ length d = length f1 /\
    forall i b x1 x2 y, nth_error per i = Some b -> nth_error f1 i = Some x1 -> nth_error f2 i = Some x2 -> nth_error d i = Some y ->
      if b then Rabs y <= 1/2 /\ (exists z, y = x1 - x2 + IZR z) /\ (forall z, Rabs y <= Rabs (x1 - x2 + IZR z)) else y = x1 - x2.
Proof. exact C106_difference_lemma. Qed.
Print Assumptions C106_difference.
Example C106_difference_example : exists d, pbc_diff_frac_vec RA [9/10; 1/10] [3/10; 5/10] [true; false] = Ok [d; 1/10 - 5/10] /\ d = - (4/10).
Proof.
  eexists. split; [rewrite diff_shape by reflexivity; unfold diff1; simpl; do 2 f_equal; f_equal; ring|]. simpl.
  rewrite (zrint_near _ 1) by (apply Rabs_def1; lra). lra.
Qed.

(** C106. Flags of another length raise ValueError (a single flag, or a single coordinate, is repeated by numpy). *)
Theorem C106_lengths : forall F (A : arith F) f per, length per <> length f -> length per <> 1%nat -> length f <> 1%nat ->
  periodize A f per = Err ValueError /\ forall f', length f' = length f -> pbc_diff_frac_vec A f f' per = Err ValueError.
Proof. exact C106_lengths_lemma. Qed.
Print Assumptions C106_lengths.
Example C106_lengths_example : periodize RA [1; 2; 3] [true; false] = Err ValueError.
Proof. reflexivity. Qed.

(** C106. A vector with one entry and a single flag stand for as many copies as needed; vectors of different lengths have no difference (ValueError). *)
Theorem C106_repeated : forall F (A : arith F),
  (forall x per, periodize A [x] per = periodize A (repeat x (length per)) per) /\
  (forall f b, periodize A f [b] = periodize A f (repeat b (length f))) /\
  (forall x f per, pbc_diff_frac_vec A [x] f per = pbc_diff_frac_vec A (repeat x (length f)) f per) /\
  (forall f x per, pbc_diff_frac_vec A f [x] per = pbc_diff_frac_vec A f (repeat x (length f)) per) /\
  (forall f1 f2 b, length f1 = length f2 -> pbc_diff_frac_vec A f1 f2 [b] = pbc_diff_frac_vec A f1 f2 (repeat b (length f1))) /\
  (forall f1 f2 per, length f1 <> length f2 -> length f1 <> 1%nat -> length f2 <> 1%nat -> pbc_diff_frac_vec A f1 f2 per = Err ValueError).
Proof. exact C106_repeated_lemma. Qed.
Print Assumptions C106_repeated.
Example C106_repeated_example : periodize RA [5/4] [false; false] = Ok [5/4 - IZR (zfloor (5/4)) * 0; 5/4 - IZR (zfloor (5/4)) * 0] /\ pbc_diff_frac_vec RA [1; 2; 3] [1; 2] [true; true; true] = Err ValueError.
Proof. split; reflexivity. Qed.

(** C106, part: in binary64 the result is the rounded exact one and lies in [0, 1]. Missing: below 1, which is false (below). *)
Theorem C106_float_partial : forall f p, length (flags (length f) p) = length f ->
  (forall v, In v f -> exists x, denotes v x /\ Rabs x < bpow radix2 999) ->
  exists g, periodize_arg FA f p = Ok g /\ length g = length f /\
    forall i b u v, nth_error (flags (length f) p) i = Some b -> nth_error f i = Some u -> nth_error g i = Some v ->
      if b then exists y, denotes v y /\ 0 <= y <= 1 /\ y = rnd (B2R u - IZR (Zfloor (B2R u))) else denotes v (B2R u).
Proof. exact C106_float_lemma. Qed.
Print Assumptions C106_float_partial.
Example C106_float_example : forall v, In v [f_ofZ 5] -> exists x, denotes v x /\ Rabs x < bpow radix2 999.
Proof.
  intros v [<-|[]]. exists 5. split; [apply (denotes_ofZ 5); reflexivity|]. rewrite Rabs_pos_eq by lra. apply Rlt_le_trans with (bpow radix2 3); [simpl; lra|apply bpow_le; lia].
Qed.

(** C106 is false in binary64: a number just below 0 is moved to 1. *)
Theorem C106_float_refuted : exists f, f_ltb f (f_ofZ 0) = true /\ is_finite f = true /\
  exists v, periodize_arg FA [f] (PBool true) = Ok [v] /\ denotes v 1.
Proof. exact C106_float_refuted_lemma. Qed.
Print Assumptions C106_float_refuted.

(** C106. In binary64 each periodic coordinate of the difference is at most 1/2 and is the rounded difference to an image. *)
Theorem C106_float_difference : forall f1 f2 per, length f1 = length f2 -> length per = length f1 ->
  (forall v, In v (f1 ++ f2) -> exists x, denotes v x /\ Rabs x <= bpow radix2 997) ->
  exists d, pbc_diff_frac_vec FA f1 f2 per = Ok d /\ length d = length f1 /\
    forall i b u1 u2 v, nth_error per i = Some b -> nth_error f1 i = Some u1 -> nth_error f2 i = Some u2 -> nth_error d i = Some v ->
      exists y, denotes v y /\ if b then Rabs y <= 1/2 /\ exists z, y = rnd (rnd (B2R u1 - B2R u2) + IZR z) else y = rnd (B2R u1 - B2R u2).
Proof. exact C106_float_difference_lemma. Qed.
Print Assumptions C106_float_difference.
Example C106_float_difference_example : forall v, In v ([f_ofZ 5; f_ofZ (-2)] ++ [f_ofZ 0; f_ofZ 7]) -> exists x, denotes v x /\ Rabs x <= bpow radix2 997.
Proof.
  assert (H : forall z, (Z.abs z <= 8)%Z -> exists x, denotes (f_ofZ z) x /\ Rabs x <= bpow radix2 997).
  { intros z Hz. exists (IZR z). split; [apply denotes_ofZ; change (2 ^ 53)%Z with 9007199254740992%Z; lia|]. rewrite <- abs_IZR. apply Rle_trans with (bpow radix2 3); [apply IZR_le in Hz; simpl; lra|apply bpow_le; lia]. }
  intros v [<-|[<-|[<-|[<-|[]]]]]; apply H; lia.
Qed.
