(** Resuming parallel and asynchronous runs (C136). *)
From Verif Require Import Prelude Dict Val StateModel ResultModel RunnerModel SpecState SpecResult SpecRunner StateFacts ResultFacts RunnerFacts SyncFacts RunnerMore ParFacts ParRun RunSplit.
Local Open Scope Z_scope.

Lemma C136_resume_lemma : forall f p sched sched' init n m o,
  stable_fun f -> swf init -> site_ids init <> [] -> 1 <= p -> 0 <= n -> 0 <= m ->
  run_sync (pure_controller f) tt init (n + m) = Ok o ->
  exists o1 last o2,
    run_parallel (pure_controller f) p sched tt init n = Ok o1 /\ last_step (o_result o1) = Ok last /\ o_output o1 = init /\
    run_parallel (pure_controller f) p sched' tt last m = Ok o2 /\
    forall t, 0 <= t <= m -> get_step (o_result o2) t = get_step (o_result o) (n + t).
Proof.
  intros f p sched sched' init n m o ST W NE P Hn Hm E.
  destruct (C136_prefix_lemma _ (pure_controller f) tt init n (n + m) p sched ltac:(lia)) as [[PE _] _].
  destruct (run_sync (pure_controller f) tt init n) as [os|e] eqn:E1; [|rewrite (PE e eq_refl) in E; discriminate].
  destruct (C136_split_lemma f init n m Hn Hm os E1) as [SE SO].
  destruct (run_sync (pure_controller f) tt (o_output os) m) as [os2|e] eqn:E2; [|rewrite (SE e eq_refl) in E; discriminate].
  destruct (SO os2 eq_refl) as (o' & E' & _ & _ & _ & G). rewrite E in E'. injection E' as <-.
  destruct (C17_stable_lemma f p sched init n os ST W NE P E1) as (o1 & P1 & L1 & G1).
  pose proof (run_sync_states _ _ _ _ E1) as (ds & st & ER & LD & S0 & OUT & SER & RP).
  assert (RL : rlen (o_result os) = n + 1) by (rewrite ER; unfold rlen; cbn [r_diffs]; lia).
  destruct (st_wf f (stable_own f ST) init ds st W S0 SER (length ds) (le_n _)) as [WL IL]. rewrite <- OUT in WL, IL.
  assert (LS : last_step (o_result o1) = Ok (o_output os)).
  { unfold last_step. rewrite L1, RL. replace (n + 1 - 1) with (Z.of_nat (length ds)) by lia. destruct (G1 (Z.of_nat (length ds))) as [-> _]; [lia|]. rewrite ER, get_step_fresh by lia. rewrite RP by lia. now rewrite OUT. }
  destruct (C17_stable_lemma f p sched' (o_output os) m os2 ST WL ltac:(congruence) P E2) as (o2 & P2 & L2 & G2).
  exists o1, (o_output os), o2. split; [exact P1|]. split; [exact LS|]. split.
  - unfold run_parallel in P1. apply bind_Ok in P1 as (c1 & _ & P1). apply bind_Ok in P1 as (ch & _ & P1). destruct (p <? 1); [discriminate|]. apply bind_Ok in P1 as (d & _ & P1). injection P1 as <-. reflexivity.
  - split; [exact P2|]. intros t Ht. rewrite G by lia. apply run_sync_Ok in E2 as (ds2 & ER2 & LD2 & _). apply G2. rewrite ER2. unfold rlen. cbn [r_diffs]. lia.
Qed.

Section Async.
  Context (r : sstate -> res Z) (f : key -> sstate -> res val).
  Hypothesis NT : forall k s v, f k s = Ok v -> forall l, v <> VTuple l.
  Let ctl : controller unit := mkController (fun c _ => Ok c) (fun c s => do z <- r s; Ok (VInt z, c)) (fun c k s => do v <- f k s; Ok (v, c)).
  Definition asked (a : astate (C := unit)) : Prop := exists z, r (a_live a) = Ok z /\ a_queue a = [KInt z].

  Lemma one_step a a' : asked a -> async_step ctl a = Ok a' -> asked a'.
  Proof.
    intros (z & Z1 & Q) E. unfold async_step in E. rewrite Q in E. apply bind_Ok in E as ([resp c1] & E1 & E). unfold ctl in E1. cbn [c_update] in E1. apply bind_Ok in E1 as (v & E1 & X). injection X as <- _.
    apply bind_Ok in E as ([ups nx] & E2 & E). assert (nx = VList []) as ->. { specialize (NT _ _ _ E1). destruct v; cbn in E2; try (injection E2 as _ <-; reflexivity). now destruct (NT l). }
   
    apply bind_Ok in E as (u & _ & E). apply bind_Ok in E as (live & _ & E). unfold ctl, add_sites in E. cbn in E. destruct (r live) as [z'|e] eqn:ER; [|discriminate]. cbn in E. injection E as <-. exists z'. split; [exact ER|reflexivity].
  Qed.
  Lemma loop_asked n : forall a a', asked a -> async_loop ctl n a = Ok a' -> asked a'.
  Proof.
    induction n as [|n IH]; intros a a' A E; cbn [async_loop] in E; [injection E as <-; exact A|]. apply bind_Ok in E as (a1 & E1 & E). pose proof (one_step _ _ A E1) as A1.
    destruct (a_queue a1) eqn:EQ; [injection E as <-; exact A1|]. eapply IH; eassumption.
  Qed.
  Definition before (ds : list val) (a : astate (C := unit)) := mkA (a_live a) (ds ++ a_diffs a) (a_queue a) (a_ctl a).
  Lemma step_before ds a : async_step ctl (before ds a) = do a' <- async_step ctl a; Ok (before ds a').
  Proof.
    unfold async_step. cbn [before a_queue a_live a_ctl a_diffs]. destruct (a_queue a) as [|k q]; [reflexivity|]. destruct (c_update ctl (a_ctl a) k (a_live a)) as [[resp c1]|e]; [|reflexivity]. cbn [bind].
    destruct (split_response resp) as [[ups nx]|e]; [|reflexivity]. cbn [bind]. destruct (merge_updates ups VNone (Some k)) as [u|e]; [|reflexivity]. cbn [bind]. destruct (batch_update (a_live a) u) as [l|e]; [|reflexivity]. cbn [bind].
    destruct (extend_arg nx) as [ks|e]; [|reflexivity]. cbn [bind]. destruct (q ++ ks).
    - destruct (add_sites ctl l [] c1) as [[q3 c2]|e]; [|reflexivity]. cbn [bind]. unfold before. cbn [a_live a_diffs a_queue a_ctl]. now rewrite app_assoc.
    - cbn [bind]. unfold before. cbn [a_live a_diffs a_queue a_ctl]. now rewrite app_assoc.
  Qed.
  Lemma loop_before n ds : forall a, async_loop ctl n (before ds a) = do a' <- async_loop ctl n a; Ok (before ds a').
  Proof.
    induction n as [|n IH]; intros a; [reflexivity|]. cbn [async_loop]. rewrite step_before. destruct (async_step ctl a) as [a'|e]; [|reflexivity]. cbn [bind]. cbn [before a_queue]. destruct (a_queue a') eqn:E; [reflexivity|]. apply IH.
  Qed.
End Async.

Lemma C136_async_lemma : forall (r : sstate -> res Z) (f : key -> sstate -> res val) init n m, 0 <= n -> 0 <= m ->
  (forall k s v, f k s = Ok v -> forall l, v <> VTuple l) ->
  let ctl := mkController (fun (c : unit) _ => Ok c) (fun c s => do z <- r s; Ok (VInt z, c)) (fun c k s => do v <- f k s; Ok (v, c)) in
  forall o1, run_async ctl tt init n = Ok o1 ->
     (forall e, run_async ctl tt (o_output o1) m = Err e -> run_async ctl tt init (n + m) = Err e) /\
     (forall o2, run_async ctl tt (o_output o1) m = Ok o2 -> exists o, run_async ctl tt init (n + m) = Ok o /\ o_output o = o_output o2 /\ rlen (o_result o) = n + m + 1 /\
        (forall t, 0 <= t <= n -> get_step (o_result o) t = get_step (o_result o1) t) /\
        (forall t, 0 <= t <= m -> get_step (o_result o) (n + t) = get_step (o_result o2) t)).
Proof.
  intros r f init n m Hn Hm NT ctl o1 E1. 
  assert (START : forall st k, run_async ctl tt st k = do z <- r st; do a <- async_loop ctl (Z.to_nat k) (mkA st [] [KInt z] tt); Ok (mkRun (mkR st (a_diffs a) []) (a_live a))) by (intros st k; unfold run_async, add_sites; cbn; destruct (r st); reflexivity).
  pose proof E1 as E0. rewrite START in E1. rewrite !START. destruct (r init) as [z|e] eqn:ER; [|discriminate]. cbn [bind] in *.
  apply bind_Ok in E1 as (a & EA & X). injection X as <-. cbn [o_output o_result] in *.
  rewrite Z2Nat.inj_add by lia. rewrite async_loop_split by discriminate. rewrite EA. cbn [bind].
  assert (A0 : asked r (mkA init [] [KInt z] tt)) by (exists z; split; [exact ER|reflexivity]).
  destruct (loop_asked r f NT _ _ _ A0 EA) as (z' & ER' & Q). rewrite Q, ER'. cbn [bind].
  assert (AB : a = before (a_diffs a) (mkA (a_live a) [] [KInt z'] tt)) by (destruct a as [l d q []]; cbn in *; unfold before; cbn; now rewrite app_nil_r, Q).
  assert (LEN : forall k b b', asked r b -> async_loop ctl k b = Ok b' -> exists more, a_diffs b' = a_diffs b ++ more /\ length more = k).
  { intros k b b' AS E. pose proof (loop_asked r f NT _ _ _ AS E) as (z1 & _ & Q1). apply async_loop_grows in E as (more & D & L & H). exists more. split; [exact D|]. destruct (Nat.eq_dec (length more) k) as [|NE]; [assumption|].
    destruct AS as (z0 & _ & Q0). rewrite H in Q1; [discriminate|congruence|lia]. }
  destruct (LEN _ _ _ A0 EA) as (d1 & D1 & L1). cbn [a_diffs app] in D1.
  assert (LB : async_loop ctl (Z.to_nat m) a = do a' <- async_loop ctl (Z.to_nat m) (mkA (a_live a) [] [KInt z'] tt); Ok (before (a_diffs a) a')) by (rewrite AB at 1; apply (loop_before r f)).
  rewrite LB.
  destruct (async_loop ctl (Z.to_nat m) (mkA (a_live a) [] [KInt z'] tt)) as [a2|e] eqn:EB; cbn [bind]; [|split; [intros e' E; exact E|discriminate]].
  split; [discriminate|]. intros o2 E. injection E as <-. cbn [o_output o_result].
  destruct (LEN _ _ _ (ex_intro _ z' (conj ER' eq_refl) : asked r (mkA (a_live a) [] [KInt z'] tt)) EB) as (d2 & D2 & L2). cbn [a_diffs app] in D2.
  eexists. split; [reflexivity|]. cbn [o_output o_result before a_live a_diffs]. rewrite D1, D2. split; [reflexivity|]. split; [unfold rlen; cbn [r_diffs]; rewrite app_length; lia|]. split.
  - intros t Ht. apply fresh_prefix. lia.
  - intros t Ht. assert (RP : foldM batch_update d1 init = Ok (a_live a)).
    { pose proof E0 as E.
      apply C16_async_lemma in E. unfold last_step, rlen in E. cbn [o_result o_output r_diffs] in E. rewrite D1 in E. replace (Z.of_nat (length d1) + 1 - 1) with (Z.of_nat (length d1)) in E by lia. rewrite get_step_fresh in E by lia. now rewrite replay_all in E. }
    replace (n + t) with (Z.of_nat (length d1 + Z.to_nat t)) by lia. rewrite <- (Z2Nat.id t) at 2 by lia. rewrite !get_step_fresh by (rewrite ?app_length; lia). unfold replay.
    rewrite firstn_app_2. rewrite foldM_app, RP. reflexivity.
Qed.

(** Sites that were asked for but not visited are forgotten at the end of a run. *)
Lemma C136_async_refuted_lemma : exists (ctl : controller unit) init o1 o2 o,
  run_async ctl tt init 1 = Ok o1 /\ run_async ctl tt (o_output o1) 1 = Ok o2 /\ run_async ctl tt init 2 = Ok o /\
  site_entry (o_output o) (KInt 0) (KStr "n") = Some (VInt 1) /\ site_entry (o_output o) (KInt 1) (KStr "n") = Some (VInt 1) /\
  site_entry (o_output o2) (KInt 0) (KStr "n") = Some (VInt 2) /\ site_entry (o_output o2) (KInt 1) (KStr "n") = Some (VInt 0).
Proof.
  exists (mkController (fun c _ => Ok c) (fun c _ => Ok (VList [VInt 0; VInt 1], c)) (fun c k s => match site_entry s k (KStr "n") with Some (VInt z) => Ok (VDict [(KStr "n", VInt (z + 1))], c) | _ => Err TypeError end)).
  exists (mkS [(KInt 0, [(KStr "n", VInt 0)]); (KInt 1, [(KStr "n", VInt 0)])] []). do 3 eexists.
  split; [vm_compute; reflexivity|]. split; [vm_compute; reflexivity|]. split; [vm_compute; reflexivity|]. repeat split; vm_compute; reflexivity.
Qed.
