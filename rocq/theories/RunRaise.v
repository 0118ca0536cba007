(** What runs raise when controllers fail or answer with something malformed, and what
    asking for neighbourhoods raises (C133). *)
From Verif Require Import Prelude Dict Val ValFacts Arith LatticeModel StructModel StateModel ResultModel RunnerModel NbModel JsonModel SpecState SpecResult SpecRunner SpecMalformed StateFacts ResultFacts JsonFacts RunnerFacts SyncFacts ParFacts ParRun RunnerMore.
Local Open Scope Z_scope.

Lemma foldM_app_err {X Y} (f : X -> Y -> res X) e pre y post : (forall a x, In x pre -> exists b, f a x = Ok b) -> (forall a, f a y = Err e) -> forall a, foldM f (pre ++ y :: post) a = Err e.
Proof.
  induction pre as [|x pre IH]; intros HP HE a; cbn [app foldM]; [now rewrite HE|]. destruct (HP a x (or_introl eq_refl)) as [b ->]. cbn [bind]. apply IH; auto. intros; apply HP; now right.
Qed.
Lemma no_entries_merge v curr id : no_entries v -> v <> VNone -> merge_updates v curr id = Err TypeError.
Proof. intros [->|[[b ->]|[[z ->]|(m & e & ->)]]] N; [congruence| | |]; reflexivity. Qed.

Lemma C133_async_lemma : forall C (ctl : controller C) c0 init n,
  (forall e, c_pre_run ctl c0 init = Err e -> run_async ctl c0 init n = Err e) /\
  (forall c1 e, c_pre_run ctl c0 init = Ok c1 -> c_random_site ctl c1 init = Err e -> run_async ctl c0 init n = Err e) /\
  (forall c1 v c2 k r, c_pre_run ctl c0 init = Ok c1 -> c_random_site ctl c1 init = Ok (v, c2) -> offers v (k :: r) -> 1 <= n ->
     (forall e, c_update ctl c2 k init = Err e -> run_async ctl c0 init n = Err e) /\
     (forall l c3, c_update ctl c2 k init = Ok (VTuple l, c3) -> length l <> 2%nat -> run_async ctl c0 init n = Err ValueError) /\
     (forall resp c3 ups nx, c_update ctl c2 k init = Ok (resp, c3) -> answer_of resp ups nx ->
        (no_entries ups -> run_async ctl c0 init n = Err TypeError) /\
        (forall S G, means k ups S G -> upd_wf S G -> no_entries nx -> run_async ctl c0 init n = Err TypeError))).
Proof.
  intros C ctl c0 init n. unfold run_async. split; [intros e ->; reflexivity|]. split; [intros c1 e -> E; cbn [bind]; unfold add_sites; rewrite E; reflexivity|].
  intros c1 v c2 k r -> ER OF HN. cbn [bind]. assert (EA : add_sites ctl init [] c1 = Ok (k :: r, c2)) by (apply add_sites_offers; eauto). rewrite EA. cbn [bind].
  destruct (Z.to_nat n) as [|m] eqn:EN; [lia|]. cbn [async_loop]. unfold async_step. cbn [a_queue a_ctl a_live]. split; [intros e ->; reflexivity|]. split.
  - intros l c3 -> HL. cbn [bind]. destruct l as [|x [|y [|z l]]]; cbn in HL; try lia; reflexivity.
  - intros resp c3 ups nx -> AN. cbn [bind]. apply split_answer in AN. rewrite AN. cbn [bind]. split.
    + intros NE. assert (ups = VNone \/ ups <> VNone) as [->|NN] by (destruct ups; [now left|right; discriminate ..]); [reflexivity|]. rewrite no_entries_merge by auto. reflexivity.
    + intros S G M (US & UG & UV) NE. destruct ups as [| | | | | | |u]; [reflexivity|exfalso; inversion M; fail ..|].
      pose proof (merge_means_dict u S G None k M) as Em. cbn [canon] in Em. rewrite Em. cbn [bind csites cgen].
      destruct (means_dmerge_nil _ _ _ _ US UG M) as [-> ->].
      destruct (vdicts_vsites S) as [sites ->]; [intros i w I; destruct (UV i w I) as (u' & -> & _); eauto|].
      rewrite batch_full_update, set_sites_vsites. cbn [bind].
      assert (extend_arg nx = Err TypeError) as -> by (destruct NE as [->|[[b ->]|[[z ->]|(m' & e & ->)]]]; reflexivity). reflexivity.
Qed.

Lemma C133_sync_lemma : forall C (ctl : controller C) c0 init n,
  (forall e, c_pre_run ctl c0 init = Err e -> run_sync ctl c0 init n = Err e) /\
  (forall c1, c_pre_run ctl c0 init = Ok c1 -> 1 <= n ->
     ((forall c k, In k (site_ids init) -> exists c', c_update ctl c k init = Ok (VNone, c')) -> run_sync ctl c0 init n = Err TypeError) /\
     (forall pre k post, site_ids init = pre ++ k :: post ->
        (forall c k', In k' pre -> exists v c' S G, c_update ctl c k' init = Ok (v, c') /\ means k' v S G) ->
        (forall e, (forall c, c_update ctl c k init = Err e) -> run_sync ctl c0 init n = Err e) /\
        ((forall c, exists v c', c_update ctl c k init = Ok (v, c') /\ no_entries v /\ v <> VNone) -> run_sync ctl c0 init n = Err TypeError))).
Proof.
  intros C ctl c0 init n. unfold run_sync. split; [intros e ->; reflexivity|]. intros c1 -> HN. cbn [bind]. destruct (Z.to_nat n) as [|m] eqn:EN; [lia|]. cbn [sync_loop].
  unfold take_step, step_batch. split.
  - intros HA. assert (K : forall l c, (forall k, In k l -> In k (site_ids init)) -> exists c', foldM (fun '(b, c) k => do (u, c') <- c_update ctl c k init; do b' <- merge_updates u b (Some k); Ok (b', c')) l (VNone, c) = Ok (VNone, c')).
    { induction l as [|k l IH]; intros c HL; [eexists; reflexivity|]. cbn [foldM]. destruct (HA c k (HL k (or_introl eq_refl))) as [c' ->]. cbn [bind merge_updates]. apply IH. intros; apply HL; now right. }
    destruct (K (site_ids init) c1) as [c' ->]; auto.
  - intros pre k post ES HP. rewrite ES.
    assert (G : forall e, (forall b c, (do (u, c') <- c_update ctl c k init; do b' <- merge_updates u b (Some k); Ok (b', c')) = Err e) ->
              forall o c, foldM (fun '(b, c) k => do (u, c') <- c_update ctl c k init; do b' <- merge_updates u b (Some k); Ok (b', c')) (pre ++ k :: post) (canon o, c) = Err e).
    { intros e HE. clear ES. induction pre as [|x pre IH]; intros o c; cbn [app foldM]; [rewrite HE; reflexivity|].
      destruct (HP c x (or_introl eq_refl)) as (v & c' & S & G & -> & M). cbn [bind].
      destruct v as [| | | | | | |u]; [|exfalso; inversion M; fail ..|].
      - cbn [merge_updates bind]. apply IH. intros; apply HP; now right.
      - rewrite (merge_means_dict u S G o x M). cbn [bind]. apply (IH ltac:(intros; apply HP; now right) (Some (dmerge (csites o) S, dmerge (cgen o) G))). }
    split.
    + intros e HE. pose proof (G e ltac:(intros b c; rewrite HE; reflexivity) None c1) as E. cbn [canon] in E. rewrite E. reflexivity.
    + intros HE. pose proof (G TypeError ltac:(intros b c; destruct (HE c) as (v & c' & -> & N1 & N2); cbn [bind]; rewrite no_entries_merge by auto; reflexivity) None c1) as E. cbn [canon] in E. rewrite E. reflexivity.
Qed.

Lemma C133_nbhood_lemma : forall F (A : arith F) (s : structure F) c o i,
  (forall bs, nb_get A (BStochastic bs) s (Some c) = Err TypeError) /\
  (forall bs, nb_get A (BSiteClass bs) s (Some c) = Err TypeError) /\
  (forall pre c' bs bs' post, (forall d b, In (d, b) pre -> exists n, nb_get A b s (Some d) = Ok n) ->
     nb_get A (BSiteClass (pre ++ (c', BStochastic bs) :: post)) s None = Err TypeError /\ nb_get A (BSiteClass (pre ++ (c', BSiteClass bs') :: post)) s None = Err TypeError) /\
  (nb_get A (BStochastic []) s None = Ok (NStochastic []) /\ neighbors_of (F := F) o (NStochastic []) i = Err IndexError /\ weighted_neighbors_of (F := F) o (NStochastic []) i = Err IndexError).
Proof.
  intros F A s c o i. split; [reflexivity|]. split; [reflexivity|]. split; [|repeat split].
  intros pre c' bs bs' post. induction pre as [|[d b] pre IH]; intros HP; [split; reflexivity|]. destruct (HP d b (or_introl eq_refl)) as [n E].
  destruct IH as [I1 I2]; [intros; apply (HP d0); now right|]. split; [revert I1|revert I2]; cbn [nb_get app]; rewrite E; cbn [bind];
    match goal with |- (do l <- ?X; _) = _ -> _ => destruct X as [l|e]; cbn [bind]; [discriminate|intros H; injection H as ->; reflexivity] end.
Qed.
