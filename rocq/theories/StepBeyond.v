(** Steps beyond the last one (C08). *)
From Verif Require Import Prelude Dict Val StateModel ResultModel SpecResult ResultFacts.
Local Open Scope Z_scope.

Lemma C08_exception_lemma : forall (init : sstate) (h : list rop) (i : Z),
  let r := fold_left apply_rop h (new_result init) in
  rlen r <= i -> get_step r i = Err (match replay init (added h) (length (added h)) with Ok _ => IndexError | Err e => e end).
Proof.
  intros init h i r L. destruct (hist_inv h init) as (I & E1 & E2). fold r in I, E1, E2.
  unfold rlen in L. rewrite <- E1, <- E2. clear E1 E2.
  unfold get_step. destruct (dget i (r_stored r)) as [s|] eqn:E.
  - destruct (I _ _ E) as (m & -> & Lm & _). lia.
  - assert (Hi : exists m, i = Z.of_nat (S (length (r_diffs r) + m))) by (exists (Z.to_nat i - S (length (r_diffs r)))%nat; lia).
    destruct Hi as [m ->]. clear E L. induction m as [|m IH].
    + rewrite Nat.add_0_r, zrange_S, foldM_app, replay_range by lia.
      destruct (replay (r_init r) (r_diffs r) (length (r_diffs r))); cbn [bind foldM]; [|reflexivity].
      now rewrite list_getE_out by lia.
    + rewrite zrange_S, foldM_app.
      replace (length (r_diffs r) + S m)%nat with (S (length (r_diffs r) + m)) by lia.
      now rewrite IH.
Qed.
