(** Longer runs extend shorter ones, and runs can be split (C136). *)
From Verif Require Import Prelude Dict Val StateModel ResultModel RunnerModel SpecState SpecResult SpecRunner StateFacts ResultFacts RunnerFacts SyncFacts.
Local Open Scope Z_scope.

Section Loops.
  Context {C : Type} (ctl : controller C).

  Lemma sync_loop_split n m : forall live ds c, sync_loop ctl (n + m) live ds c = do (l, d, c') <- sync_loop ctl n live ds c; sync_loop ctl m l d c'.
  Proof.
    induction n as [|n IH]; intros live ds c; [reflexivity|]. cbn [Nat.add sync_loop]. destruct (take_step ctl live c) as [[u c']|e]; [|reflexivity]. cbn [bind].
    destruct (batch_update live u) as [l'|e]; [|reflexivity]. cbn [bind]. apply IH.
  Qed.
  Lemma sync_loop_grows n : forall live ds c l d c', sync_loop ctl n live ds c = Ok (l, d, c') -> exists more, d = ds ++ more /\ length more = n.
  Proof.
    induction n as [|n IH]; intros live ds c l d c' E; cbn [sync_loop] in E; [injection E as _ <- _; exists []; now rewrite app_nil_r|].
    apply bind_Ok in E as ([u c1] & _ & E). apply bind_Ok in E as (l1 & _ & E). apply IH in E as (more & -> & L). exists (u :: more). rewrite <- app_assoc. cbn [length]. now rewrite L.
  Qed.
  (** What has been recorded before does not matter. *)
  Lemma sync_loop_base n : forall live ds c, sync_loop ctl n live ds c = do (l, d, c') <- sync_loop ctl n live [] c; Ok (l, ds ++ d, c').
  Proof.
    induction n as [|n IH]; intros live ds c; cbn [sync_loop]; [cbn [bind]; now rewrite app_nil_r|]. destruct (take_step ctl live c) as [[u c']|e]; [|reflexivity]. cbn [bind].
    destruct (batch_update live u) as [l'|e]; [|reflexivity]. cbn [bind app]. rewrite (IH l' (ds ++ [u]) c'), (IH l' [u] c').
    destruct (sync_loop ctl n l' [] c') as [[[l d] c2]|e]; [|reflexivity]. cbn [bind]. now rewrite <- app_assoc.
  Qed.

  Lemma async_step_grows a a' : async_step ctl a = Ok a' -> exists u, a_diffs a' = a_diffs a ++ [u].
  Proof.
    unfold async_step. destruct (a_queue a) as [|k q]; [discriminate|]. intros E. apply bind_Ok in E as ([resp c1] & _ & E). apply bind_Ok in E as ([ups nx] & _ & E). apply bind_Ok in E as (u & _ & E).
    apply bind_Ok in E as (live & _ & E). apply bind_Ok in E as (ks & _ & E). exists u. destruct (q ++ ks); [|injection E as <-; reflexivity]. apply bind_Ok in E as ([q3 c2] & _ & E). injection E as <-. reflexivity.
  Qed.
  Lemma async_loop_split n m : forall a, a_queue a <> [] -> async_loop ctl (n + m) a = do a' <- async_loop ctl n a; match a_queue a' with [] => Ok a' | _ => async_loop ctl m a' end.
  Proof.
    induction n as [|n IH]; intros a Q; cbn [Nat.add async_loop]; [cbn [bind]; destruct (a_queue a); [congruence|reflexivity]|].
    destruct (async_step ctl a) as [a'|e]; [|reflexivity]. cbn [bind]. destruct (a_queue a') eqn:E; [cbn [bind]; now rewrite E|]. apply IH. congruence.
  Qed.
  Lemma async_loop_grows n : forall a a', async_loop ctl n a = Ok a' -> exists more, a_diffs a' = a_diffs a ++ more /\ (length more <= n)%nat /\ (a_queue a <> [] -> (length more < n)%nat -> a_queue a' = []).
  Proof.
    induction n as [|n IH]; intros a a' E; cbn [async_loop] in E; [injection E as <-; exists []; rewrite app_nil_r; repeat split; cbn; lia|].
    apply bind_Ok in E as (a1 & E1 & E). apply async_step_grows in E1 as [u E1]. destruct (a_queue a1) eqn:EQ.
    - injection E as <-. exists [u]. split; [exact E1|]. split; [cbn; lia|]. intros _ _. exact EQ.
    - apply IH in E as (more & E2 & L & H). exists (u :: more). split; [rewrite E2, E1, <- app_assoc; reflexivity|]. split; [cbn; lia|]. intros _ HL. apply H; [congruence|cbn in HL; lia].
  Qed.

  Lemma par_loop_extend sched n m ids ch : forall t u ds ws,
    (forall e, par_loop ctl sched t n ids ch u ds ws = Err e -> par_loop ctl sched t (n + m) ids ch u ds ws = Err e) /\
    (forall d d', par_loop ctl sched t n ids ch u ds ws = Ok d -> par_loop ctl sched t (n + m) ids ch u ds ws = Ok d' -> exists more, d' = d ++ more).
  Proof.
    assert (GR : forall m t u ds ws d, par_loop ctl sched t m ids ch u ds ws = Ok d -> exists more, d = ds ++ more).
    { clear. induction m as [|m IH]; intros t u ds ws d E; cbn [par_loop] in E; [injection E as <-; exists []; now rewrite app_nil_r|].
      apply bind_Ok in E as ([u' ws'] & _ & E). apply IH in E as [more ->]. exists (u' :: more). now rewrite <- app_assoc. }
    induction n as [|n IH]; intros t u ds ws; cbn [Nat.add par_loop].
    - split; [discriminate|]. intros d d' E1 E2. injection E1 as <-. eapply GR, E2.
    - destruct (take_step_parallel ctl (sched t) ids u ch ws) as [[u' ws']|e]; cbn [bind]; [apply IH|]. split; [intros e' E; exact E|intros d d' E; discriminate].
  Qed.
End Loops.

Lemma fresh_prefix init ds more t : 0 <= t <= Z.of_nat (length ds) -> get_step (mkR init (ds ++ more) []) t = get_step (mkR init ds []) t.
Proof.
  intros Ht. rewrite <- (Z2Nat.id t) by lia. rewrite !get_step_fresh by (rewrite ?app_length; lia). unfold replay. f_equal. rewrite firstn_app. replace (Z.to_nat t - length ds)%nat with 0%nat by lia. now rewrite app_nil_r.
Qed.

Lemma C136_prefix_lemma : forall C (ctl : controller C) c0 init n m p sched, 0 <= n <= m ->
  let extends := fun run : Z -> res run_out =>
    (forall e, run n = Err e -> run m = Err e) /\
    (forall o o', run n = Ok o -> run m = Ok o' -> rlen (o_result o) <= rlen (o_result o') /\
       forall t, 0 <= t < rlen (o_result o) -> get_step (o_result o') t = get_step (o_result o) t) in
  extends (run_sync ctl c0 init) /\ extends (run_parallel ctl p sched c0 init) /\ extends (run_async ctl c0 init) /\
  (forall o, run_async ctl c0 init n = Ok o -> rlen (o_result o) <= n -> run_async ctl c0 init m = Ok o).
Proof.
  intros C ctl c0 init n m p sched H extends. assert (EM : Z.to_nat m = (Z.to_nat n + Z.to_nat (m - n))%nat) by lia.
  assert (PRE : forall ds more, rlen (mkR init ds []) <= rlen (mkR init (ds ++ more) []) /\ forall t, 0 <= t < rlen (mkR init ds []) -> get_step (mkR init (ds ++ more) []) t = get_step (mkR init ds []) t).
  { intros ds more. unfold rlen. cbn [r_diffs]. split; [rewrite app_length; lia|]. intros t Ht. apply fresh_prefix. lia. }
  unfold extends. split; [|split; [|]].
  - unfold run_sync. destruct (c_pre_run ctl c0 init) as [c1|e]; cbn [bind]; [|split; [auto|discriminate]]. rewrite EM, sync_loop_split.
    destruct (sync_loop ctl (Z.to_nat n) init [] c1) as [[[l d] c2]|e]; cbn [bind]; [|split; [auto|discriminate]]. split; [discriminate|]. intros o o' E1 E2. injection E1 as <-.
    apply bind_Ok in E2 as ([[l' d'] c3] & E & E2). injection E2 as <-. apply sync_loop_grows in E as (more & -> & _). cbn [o_result]. apply PRE.
  - unfold run_parallel. destruct (c_pre_run ctl c0 init) as [c1|e]; cbn [bind]; [|split; [auto|discriminate]]. destruct (chunk_size_of (size init) p) as [ch|e]; cbn [bind]; [|split; [auto|discriminate]].
    destruct (p <? 1); [split; [auto|discriminate]|]. rewrite EM. destruct (par_loop_extend ctl sched (Z.to_nat n) (Z.to_nat (m - n)) (site_ids init) ch 0%nat (VDict []) [] (fun _ => (init, c1))) as [P1 P2]. split.
    + intros e E. destruct (par_loop ctl sched 0 (Z.to_nat n) (site_ids init) ch (VDict []) [] (fun _ => (init, c1))) as [d|e'] eqn:ED; [discriminate|]. cbn [bind] in E. injection E as ->. now rewrite (P1 e eq_refl).
    + intros o o' E1 E2. apply bind_Ok in E1 as (d & E1 & X). injection X as <-. apply bind_Ok in E2 as (d' & E2 & X). injection X as <-. destruct (P2 d d' E1 E2) as [more ->]. cbn [o_result]. apply PRE.
  - unfold run_async. destruct (c_pre_run ctl c0 init) as [c1|e]; cbn [bind]; [|split; [split; [auto|discriminate]|discriminate]]. destruct (add_sites ctl init [] c1) as [[q c2]|e]; cbn [bind]; [|split; [split; [auto|discriminate]|discriminate]].
    destruct q as [|k q]; [split; [split; [auto|discriminate]|discriminate]|]. rewrite EM, async_loop_split by discriminate.
    destruct (async_loop ctl (Z.to_nat n) (mkA init [] (k :: q) c2)) as [a|e] eqn:EA; cbn [bind]; [|split; [split; [auto|discriminate]|discriminate]].
    apply async_loop_grows in EA as (ds & ED & LD & QD). cbn [a_diffs app] in ED. split; [split; [discriminate|]|].
    + intros o o' E1 E2. injection E1 as <-. rewrite ED. destruct (a_queue a) as [|k' q'] eqn:EQ.
      * cbn [bind] in E2. injection E2 as <-. rewrite ED. cbn [o_result]. split; [lia|reflexivity].
      * apply bind_Ok in E2 as (a' & EL & E2). injection E2 as <-. apply async_loop_grows in EL as (more & EM' & _). rewrite EM', ED. cbn [o_result]. apply PRE.
    + intros o E1 HL. injection E1 as <-. unfold rlen in HL. cbn [o_result r_diffs] in HL. rewrite ED in HL. rewrite QD; [reflexivity|discriminate|lia].
Qed.

Lemma C136_split_lemma : forall f init n m, 0 <= n -> 0 <= m ->
  let run := fun st k => run_sync (pure_controller f) tt st k in
  (forall o1, run init n = Ok o1 ->
     (forall e, run (o_output o1) m = Err e -> run init (n + m) = Err e) /\
     (forall o2, run (o_output o1) m = Ok o2 -> exists o, run init (n + m) = Ok o /\ o_output o = o_output o2 /\ rlen (o_result o) = n + m + 1 /\
        (forall t, 0 <= t <= n -> get_step (o_result o) t = get_step (o_result o1) t) /\
        (forall t, 0 <= t <= m -> get_step (o_result o) (n + t) = get_step (o_result o2) t))).
Proof.
  intros f init n m Hn Hm run o1 E1. pose proof (run_sync_Ok _ _ _ _ _ E1) as (ds1 & ER1 & LD1 & OUT & _). unfold run, run_sync in *. cbn [c_pre_run pure_controller bind] in *.
  apply bind_Ok in E1 as ([[l1 d1] c1] & EL & E1). injection E1 as <-. cbn [o_output o_result] in *. injection ER1 as ->. destruct c1.
  rewrite Z2Nat.inj_add by lia. rewrite sync_loop_split, EL. cbn [bind]. rewrite (sync_loop_base _ (Z.to_nat m) l1 ds1). split.
  - intros e E. destruct (sync_loop (pure_controller f) (Z.to_nat m) l1 [] tt) as [[[l d] c]|e'] eqn:E2; [discriminate|]. cbn [bind] in E. injection E as ->. reflexivity.
  - intros o2 E. destruct (sync_loop (pure_controller f) (Z.to_nat m) l1 [] tt) as [[[l d] c]|e'] eqn:E2; [|discriminate]. cbn [bind] in *. injection E as <-.
    apply sync_loop_grows in E2 as (more & E2 & LM). cbn [app] in E2. subst more. eexists. split; [reflexivity|]. cbn [o_output o_result]. split; [reflexivity|]. split; [unfold rlen; cbn [r_diffs]; rewrite app_length; lia|]. split.
    + intros t Ht. apply fresh_prefix. lia.
    + intros t Ht. replace (n + t) with (Z.of_nat (length ds1 + Z.to_nat t)) by lia. rewrite <- (Z2Nat.id t) at 2 by lia. rewrite !get_step_fresh by (rewrite ?app_length; lia). unfold replay.
      rewrite firstn_app_2. rewrite foldM_app, OUT. reflexivity.
Qed.
