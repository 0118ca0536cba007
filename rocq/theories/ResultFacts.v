(** Lemmas about SimulationResult. *)
From Verif Require Import Prelude Dict Val ValFacts StateModel ResultModel SpecState SpecResult StateFacts.

Lemma replay_snoc init ds d n : (n <= length ds)%nat -> replay init (ds ++ [d]) n = replay init ds n.
Proof. intros L. unfold replay. rewrite firstn_app. replace (n - length ds)%nat with 0%nat by lia. cbn. now rewrite app_nil_r. Qed.
Lemma replay_S init ds n d : nth_error ds n = Some d ->
  replay init ds (S n) = do s <- replay init ds n; batch_update s d.
Proof.
  intros E. unfold replay.
  assert (F : firstn (S n) ds = firstn n ds ++ [d]).
  { clear init. revert ds E. induction n as [|n IH]; intros [|x t] E; cbn in *; try discriminate.
    - congruence.
    - f_equal. now apply IH. }
  rewrite F, foldM_app. destruct (foldM batch_update (firstn n ds) init); cbn; [|reflexivity].
  now destruct (batch_update _ _).
Qed.
Lemma replay_0 init ds : replay init ds 0 = Ok init.
Proof. reflexivity. Qed.

Lemma zrange_S n : zrange 0 (Z.of_nat (S n)) = zrange 0 (Z.of_nat n) ++ [Z.of_nat n].
Proof.
  unfold zrange. rewrite !Z.sub_0_r, !Nat2Z.id. rewrite seq_S, map_app. cbn. reflexivity.
Qed.

Lemma replay_range init ds n : (n <= length ds)%nat ->
  foldM (fun state ud_idx => do d <- list_getE ds ud_idx; batch_update state d)
        (zrange 0 (Z.of_nat n)) init = replay init ds n.
Proof.
  induction n as [|n IH]; intros L; [reflexivity|].
  rewrite zrange_S, foldM_app, IH by lia.
  destruct (nth_error ds n) as [d|] eqn:E; [|apply nth_error_None in E; lia].
  rewrite (replay_S init ds n d E).
  destruct (replay init ds n) as [s|e]; cbn [bind foldM]; [|reflexivity].
  rewrite list_getE_nat, E. cbn. now destruct (batch_update s d).
Qed.

(** The cache only holds replayed states. *)
Definition rinv (r : sresult) : Prop :=
  forall i s, dget i (r_stored r) = Some s ->
    exists n, i = Z.of_nat n /\ (n <= length (r_diffs r))%nat /\ replay (r_init r) (r_diffs r) n = Ok s.

Lemma load_loop_inv init ds k : forall rest live stored n,
  (n <= length ds)%nat -> rest = skipn n ds -> replay init ds n = Ok live ->
  (forall i s, dget i stored = Some s ->
     exists m, i = Z.of_nat m /\ (m <= length ds)%nat /\ replay init ds m = Ok s) ->
  forall i s, dget i (fst (load_loop k live stored (Z.of_nat n) rest)) = Some s ->
     exists m, i = Z.of_nat m /\ (m <= length ds)%nat /\ replay init ds m = Ok s.
Proof.
  induction rest as [|d rest IH]; intros live stored n L R E I; cbn [load_loop fst]; [exact I|].
  assert (Hn : nth_error ds n = Some d).
  { rewrite <- (firstn_skipn n ds). rewrite nth_error_app2 by (rewrite firstn_length; lia).
    rewrite firstn_length. replace (n - Nat.min n (length ds))%nat with 0%nat by lia. now rewrite <- R. }
  assert (L' : (S n <= length ds)%nat) by (apply nth_error_Some; congruence).
  assert (R' : rest = skipn (S n) ds).
  { clear -R. revert n R. induction ds as [|x t IHt]; intros [|n] R; cbn in R; try discriminate.
    - injection R as -> ->. reflexivity.
    - cbn. now apply IHt. }
  destruct (batch_update live d) as [live'|e] eqn:B; cbn [fst]; [|exact I].
  destruct (k =? 0); cbn [fst]; [exact I|].
  assert (E' : replay init ds (S n) = Ok live') by (rewrite (replay_S _ _ _ _ Hn), E; exact B).
  replace (Z.of_nat n + 1) with (Z.of_nat (S n)) by lia.
  apply IH; try assumption.
  intros i s. destruct (_ && _)%bool; [|apply I].
  rewrite dget_dset. destruct (eqb_spec i (Z.of_nat (S n))) as [->|N]; [|apply I].
  intros Es. injection Es as <-. eauto.
Qed.

Lemma rinv_new s : rinv (new_result s).
Proof. intros i s' E. discriminate. Qed.
Lemma rinv_add r d : rinv r -> rinv (add_step r d).
Proof.
  intros I i s E. destruct (I i s E) as (n & -> & L & R). exists n. cbn.
  rewrite app_length. cbn. split; [reflexivity|]. split; [lia|]. rewrite replay_snoc; assumption.
Qed.
Lemma rinv_load r k : rinv r -> rinv (fst (load_steps r k)).
Proof.
  intros I. unfold load_steps.
  destruct (load_loop _ _ _ _ _) as [stored out] eqn:E. cbn [fst]. intros i s G. cbn in *.
  change 0 with (Z.of_nat 0) in E at 2.
  apply (load_loop_inv (r_init r) (r_diffs r) k (r_diffs r) (r_init r)
           (dset 0 (r_init r) (r_stored r)) 0%nat); auto.
  - lia.
  - intros j s'. rewrite dget_dset. destruct (eqb_spec j 0) as [->|N]; [|apply I].
    intros Es. injection Es as <-. exists 0%nat. repeat split. lia.
  - now rewrite E.
Qed.
Lemma load_keeps r k : r_init (fst (load_steps r k)) = r_init r /\ r_diffs (fst (load_steps r k)) = r_diffs r.
Proof. unfold load_steps. destruct (load_loop _ _ _ _ _). split; reflexivity. Qed.

Lemma hist_inv h init :
  let r := fold_left apply_rop h (new_result init) in
  rinv r /\ r_init r = init /\ r_diffs r = added h.
Proof.
  enough (Q : forall r, rinv r -> rinv (fold_left apply_rop h r) /\
              r_init (fold_left apply_rop h r) = r_init r /\
              r_diffs (fold_left apply_rop h r) = r_diffs r ++ added h)
    by (cbn; destruct (Q (new_result init) (rinv_new init)) as (A & B & D); auto).
  unfold added. induction h as [|o t IH]; intros r I; cbn [fold_left flat_map].
  - rewrite app_nil_r. auto.
  - destruct o as [d|k|i]; cbn [apply_rop].
    + destruct (IH (add_step r d) (rinv_add r d I)) as (A & B & D). split; [assumption|].
      split; [rewrite B; reflexivity|]. rewrite D. cbn. now rewrite <- app_assoc.
    + destruct (IH _ (rinv_load r k I)) as (A & B & D). destruct (load_keeps r k) as [E1 E2].
      split; [assumption|]. split; [congruence|]. rewrite D, E2. reflexivity.
    + apply IH. exact I.
Qed.

Lemma get_step_replay r n : rinv r -> (n <= length (r_diffs r))%nat ->
  get_step r (Z.of_nat n) = replay (r_init r) (r_diffs r) n.
Proof.
  intros I L. unfold get_step. destruct (dget (Z.of_nat n) (r_stored r)) as [s|] eqn:E.
  - destruct (I _ _ E) as (m & Em & _ & R). apply Nat2Z.inj in Em. now subst m.
  - now apply replay_range.
Qed.

Lemma C07_lemma : forall (init : sstate) (h : list rop) (i : Z),
  let r := fold_left apply_rop h (new_result init) in
  rlen r = 1 + Z.of_nat (length (added h)) /\
  (0 <= i < rlen r -> get_step r i = replay init (added h) (Z.to_nat i)) /\
  last_step r = replay init (added h) (length (added h)) /\
  first_step r = Ok init.
Proof.
  intros init h i r. destruct (hist_inv h init) as (I & E1 & E2). fold r in I, E1, E2.
  assert (L : rlen r = 1 + Z.of_nat (length (added h))) by (unfold rlen; rewrite E2; lia).
  split; [exact L|]. split; [|split].
  - intros R. rewrite <- E1, <- E2. rewrite <- get_step_replay; [f_equal; lia|assumption|].
    rewrite E2. lia.
  - unfold last_step. rewrite L. replace (1 + Z.of_nat (length (added h)) - 1) with (Z.of_nat (length (added h))) by lia.
    rewrite get_step_replay by (rewrite ?E2; auto). now rewrite E1, E2.
  - unfold first_step. change 0 with (Z.of_nat 0). rewrite get_step_replay by (auto; lia). now rewrite E1.
Qed.

Lemma list_getE_out {A} (l : list A) n : (length l <= n)%nat -> list_getE l (Z.of_nat n) = Err IndexError.
Proof. intros L. rewrite list_getE_nat. apply nth_error_None in L. now rewrite L. Qed.

Lemma C08_lemma : forall (init : sstate) (h : list rop) (i : Z),
  let r := fold_left apply_rop h (new_result init) in
  rlen r <= i -> exists e, get_step r i = Err e.
Proof.
  intros init h i r L. destruct (hist_inv h init) as (I & E1 & E2). fold r in I, E1, E2.
  unfold rlen in L.
  unfold get_step. destruct (dget i (r_stored r)) as [s|] eqn:E.
  - destruct (I _ _ E) as (m & -> & Lm & _). lia.
  - assert (Hi : exists m, i = Z.of_nat (S (length (r_diffs r) + m))) by (exists (Z.to_nat i - S (length (r_diffs r)))%nat; lia).
    destruct Hi as [m ->]. clear E L. induction m as [|m IH].
    + rewrite Nat.add_0_r, zrange_S, foldM_app, replay_range by lia.
      destruct (replay (r_init r) (r_diffs r) (length (r_diffs r))); cbn [bind foldM]; [|eauto].
      rewrite list_getE_out by lia. cbn. eauto.
    + rewrite zrange_S, foldM_app.
      replace (length (r_diffs r) + S m)%nat with (S (length (r_diffs r) + m)) by lia.
      destruct IH as [e ->]. cbn. eauto.
Qed.

Lemma C08_neg_lemma : forall (init : sstate) (h : list rop) (i : Z),
  let r := fold_left apply_rop h (new_result init) in
  i < 0 -> get_step r i = Ok init.
Proof.
  intros init h i r L. destruct (hist_inv h init) as (I & E1 & E2). fold r in I, E1, E2.
  unfold get_step. destruct (dget i (r_stored r)) as [s|] eqn:E.
  - destruct (I _ _ E) as (m & -> & _). lia.
  - unfold zrange. replace (Z.to_nat (i - 0)) with 0%nat by lia. cbn. now rewrite E1.
Qed.

(** ** steps() *)
Lemma steps_loop_spec init ds : forall rest live n,
  (n <= length ds)%nat -> rest = skipn n ds -> replay init ds n = Ok live ->
  forall l out, steps_loop live rest = (l, out) ->
  (length l <= length rest)%nat /\
  (forall i s, nth_error l i = Some s -> replay init ds (n + i) = Ok s) /\
  (out = Ok tt -> length l = length rest) /\
  (forall e, out = Err e -> exists i, (S i = length l)%nat /\ replay init ds (n + S i) = Err e).
Proof.
  induction rest as [|d rest IH]; intros live n L R E l out S; cbn in S.
  - injection S as <- <-. cbn. split; [lia|]. split; [intros [|i]; discriminate|]. split; [reflexivity|discriminate].
  - assert (Hn : nth_error ds n = Some d).
    { rewrite <- (firstn_skipn n ds). rewrite nth_error_app2 by (rewrite firstn_length; lia).
      rewrite firstn_length. replace (n - Nat.min n (length ds))%nat with 0%nat by lia. now rewrite <- R. }
    assert (L' : (Datatypes.S n <= length ds)%nat) by (apply nth_error_Some; congruence).
    assert (R' : rest = skipn (Datatypes.S n) ds).
    { clear -R. revert n R. induction ds as [|x t IHt]; intros [|n] R; cbn in R; try discriminate.
      - injection R as -> ->. reflexivity.
      - cbn. now apply IHt. }
    destruct (batch_update live d) as [live'|e] eqn:B.
    + destruct (steps_loop live' rest) as [l' out'] eqn:S'. injection S as <- <-.
      assert (E' : replay init ds (Datatypes.S n) = Ok live') by (rewrite (replay_S _ _ _ _ Hn), E; exact B).
      destruct (IH live' (Datatypes.S n) L' R' E' l' out' S') as (A1 & A2 & A3 & A4).
      cbn. split; [lia|]. split; [|split].
      * intros [|i] s G; cbn in G.
        -- injection G as <-. now rewrite Nat.add_0_r.
        -- rewrite Nat.add_succ_r. now apply A2.
      * intros O. f_equal. auto.
      * intros e O. destruct (A4 e O) as (i & Ei & Er). exists (Datatypes.S i). split; [lia|].
        rewrite Nat.add_succ_r. exact Er.
    + injection S as <- <-. cbn. split; [lia|]. split; [|split].
      * intros [|[|i]] s G; cbn in G; try discriminate. injection G as <-. now rewrite Nat.add_0_r.
      * discriminate.
      * intros e' O. injection O as <-. exists 0%nat. split; [reflexivity|].
        rewrite Nat.add_1_r, (replay_S _ _ _ _ Hn), E. exact B.
Qed.

Lemma C09_lemma : forall (init : sstate) (h : list rop) (l : list sstate) (out : res unit),
  let r := fold_left apply_rop h (new_result init) in
  steps_lazy r = (l, out) ->
  (forall i s, nth_error l i = Some s -> get_step r (Z.of_nat i) = Ok s) /\
  (out = Ok tt -> Z.of_nat (length l) = rlen r - 1) /\
  (forall e, out = Err e -> get_step r (Z.of_nat (length l)) = Err e).
Proof.
  intros init h l out r S. destruct (hist_inv h init) as (I & E1 & E2). fold r in I, E1, E2.
  unfold steps_lazy in S.
  destruct (steps_loop_spec (r_init r) (r_diffs r) (r_diffs r) (r_init r) 0%nat (Nat.le_0_l _) eq_refl eq_refl l out S)
    as (A1 & A2 & A3 & A4).
  split; [|split].
  - intros i s G. assert (i < length l)%nat by (apply nth_error_Some; congruence).
    rewrite get_step_replay by (auto; lia). now apply A2.
  - intros O. unfold rlen. rewrite (A3 O). lia.
  - intros e O. destruct (A4 e O) as (i & Ei & Er). rewrite <- Ei. rewrite get_step_replay by (auto; lia). exact Er.
Qed.

Lemma C09_refuted_lemma : forall (init : sstate) (h : list rop),
  let r := fold_left apply_rop h (new_result init) in
  Z.of_nat (length (fst (steps_lazy r))) < rlen r.
Proof.
  intros init h r. destruct (steps_lazy r) as [l out] eqn:S. cbn [fst].
  unfold steps_lazy in S.
  destruct (steps_loop_spec (r_init r) (r_diffs r) (r_diffs r) (r_init r) 0%nat (Nat.le_0_l _) eq_refl eq_refl l out S)
    as (A1 & _). unfold rlen. lia.
Qed.
