(** Runs depend on controllers only through the answers of their methods. *)
From Verif Require Import Prelude Dict Val ValFacts StateModel ResultModel RunnerModel SpecSame.

Section Same.
  Context {C C' : Type} (R : C -> C' -> Prop) (ctl : controller C) (ctl' : controller C').
  Hypothesis AL : alike R ctl ctl'.

  Lemma batch_same ids st : forall b c c', R c c' ->
    same_answer R (foldM (fun '(batch_updates, c) site_id => do (site_updates, c') <- c_update ctl c site_id st; do b <- merge_updates site_updates batch_updates (Some site_id); Ok (b, c')) ids (b, c))
      (foldM (fun '(batch_updates, c) site_id => do (site_updates, c') <- c_update ctl' c site_id st; do b <- merge_updates site_updates batch_updates (Some site_id); Ok (b, c')) ids (b, c')).
  Proof.
    induction ids as [|k ids IH]; intros b c c' HR; [split; auto|]. cbn [foldM]. pose proof (alike_update R ctl ctl' AL c c' k st HR) as H.
    destruct (c_update ctl c k st) as [[u d]|e], (c_update ctl' c' k st) as [[u' d']|e']; cbn in H; try contradiction; [|subst; reflexivity].
    destruct H as [<- HD]. cbn [bind]. destruct (merge_updates u b (Some k)) as [b'|e]; cbn [bind]; [|reflexivity]. now apply IH.
  Qed.
  Lemma step_same ids st c c' : R c c' -> same_answer R (step_batch ctl ids st c) (step_batch ctl' ids st c').
  Proof. intros HR. exact (batch_same ids st VNone c c' HR). Qed.

  Lemma sync_same n : forall live diffs c c', R c c' -> same_answer R (sync_loop ctl n live diffs c) (sync_loop ctl' n live diffs c').
  Proof.
    induction n as [|n IH]; intros live diffs c c' HR; [split; auto|]. cbn [sync_loop]. unfold take_step. pose proof (step_same (site_ids live) live c c' HR) as H.
    destruct (step_batch ctl (site_ids live) live c) as [[u d]|e], (step_batch ctl' (site_ids live) live c') as [[u' d']|e']; cbn in H; try contradiction; [|subst; reflexivity].
    destruct H as [<- HD]. cbn [bind]. destruct (batch_update live u) as [live'|e]; cbn [bind]; [|reflexivity]. now apply IH.
  Qed.

  Lemma add_same live q c c' : R c c' -> same_answer R (add_sites ctl live q c) (add_sites ctl' live q c').
  Proof.
    intros HR. unfold add_sites. pose proof (alike_site R ctl ctl' AL c c' live HR) as H.
    destruct (c_random_site ctl c live) as [[v d]|e], (c_random_site ctl' c' live) as [[v' d']|e']; cbn in H; try contradiction; [|subst; reflexivity].
    destruct H as [<- HD]. cbn [bind]. destruct v; cbn [val_key bind]; try (split; auto; fail). destruct (mapM val_key l); cbn [bind]; [split; auto|reflexivity].
  Qed.

  Definition same_loop (x : res (@astate C)) (y : res (@astate C')) : Prop :=
    match x, y with
    | Ok a, Ok a' => a_live a = a_live a' /\ a_diffs a = a_diffs a' /\ a_queue a = a_queue a' /\ R (a_ctl a) (a_ctl a')
    | Err e, Err e' => e = e'
    | _, _ => False
    end.
  Lemma turn_same a a' : same_loop (Ok a) (Ok a') -> same_loop (async_step ctl a) (async_step ctl' a').
  Proof.
    destruct a as [L D Q c], a' as [L' D' Q' c']. cbn. intros (<- & <- & <- & HR). unfold async_step. cbn [a_queue a_ctl a_live a_diffs].
    destruct Q as [|k Q]; [reflexivity|]. pose proof (alike_update R ctl ctl' AL c c' k L HR) as H.
    destruct (c_update ctl c k L) as [[u d]|e], (c_update ctl' c' k L) as [[u' d']|e']; cbn in H; try contradiction; [|subst; reflexivity].
    destruct H as [<- HD]. cbn [bind]. destruct (split_response u) as [[ups nx]|e]; cbn [bind]; [|reflexivity].
    destruct (merge_updates ups VNone (Some k)) as [su|e]; cbn [bind]; [|reflexivity]. destruct (batch_update L su) as [L2|e]; cbn [bind]; [|reflexivity].
    destruct (extend_arg nx) as [ks|e]; cbn [bind]; [|reflexivity]. destruct (Q ++ ks) as [|k2 q2]; [|cbn; auto].
    pose proof (add_same L2 [] d d' HD) as H. destruct (add_sites ctl L2 [] d) as [[q3 c2]|e], (add_sites ctl' L2 [] d') as [[q3' c2']|e']; cbn in H; try contradiction; [|subst; reflexivity].
    destruct H as [<- HE]. cbn. auto.
  Qed.
  Lemma async_same n : forall a a', same_loop (Ok a) (Ok a') -> same_loop (async_loop ctl n a) (async_loop ctl' n a').
  Proof.
    induction n as [|n IH]; intros a a' H; [exact H|]. cbn [async_loop]. pose proof (turn_same a a' H) as T.
    destruct (async_step ctl a) as [b|e], (async_step ctl' a') as [b'|e']; cbn in T; try contradiction; [|subst; reflexivity]. cbn [bind].
    destruct T as (T1 & T2 & T3 & T4). rewrite <- T3. destruct (a_queue b) eqn:Q; [cbn; rewrite Q; auto|]. apply IH. cbn. rewrite Q. auto.
  Qed.

  Definition same_workers (ws : @workers C) (ws' : @workers C') : Prop := forall w, fst (ws w) = fst (ws' w) /\ R (snd (ws w)) (snd (ws' w)).
  Lemma starmap_same sched last batches : forall b ws ws', same_workers ws ws' ->
    match starmap ctl sched last b batches ws, starmap ctl' sched last b batches ws' with
    | Ok (us, w), Ok (us', w') => us = us' /\ same_workers w w'
    | Err e, Err e' => e = e'
    | _, _ => False
    end.
  Proof.
    induction batches as [|ids batches IH]; intros b ws ws' HW; [split; auto|]. cbn [starmap]. unfold worker_task. destruct (HW (sched b)) as [E HR]. rewrite <- E.
    destruct (batch_update (fst (ws (sched b))) last) as [s1|e]; cbn [bind]; [|reflexivity]. pose proof (step_same ids s1 _ _ HR) as H.
    destruct (step_batch ctl ids s1 (snd (ws (sched b)))) as [[u d]|e], (step_batch ctl' ids s1 (snd (ws' (sched b)))) as [[u' d']|e']; cbn in H; try contradiction; [|subst; reflexivity].
    destruct H as [<- HD]. cbn [bind].
    assert (HW2 : same_workers (set_worker ws (sched b) (s1, d)) (set_worker ws' (sched b) (s1, d'))) by (intros w; unfold set_worker; destruct (Nat.eqb w (sched b)); [split; auto|apply HW]).
    specialize (IH (S b) _ _ HW2). destruct (starmap ctl sched last (S b) batches _) as [[us w]|e], (starmap ctl' sched last (S b) batches _) as [[us' w']|e']; cbn [bind]; try contradiction; [|subst; reflexivity].
    destruct IH as [<- W]. split; auto.
  Qed.
  Lemma par_same sched n ids cs : forall t ups diffs ws ws', same_workers ws ws' -> par_loop ctl sched t n ids cs ups diffs ws = par_loop ctl' sched t n ids cs ups diffs ws'.
  Proof.
    induction n as [|n IH]; intros t ups diffs ws ws' HW; [reflexivity|]. cbn [par_loop]. unfold take_step_parallel. destruct (site_batches cs ids) as [bs|e]; cbn [bind]; [|reflexivity].
    pose proof (starmap_same (sched t) ups bs 0 ws ws' HW) as H. destruct (starmap ctl (sched t) ups 0 bs ws) as [[us w]|e], (starmap ctl' (sched t) ups 0 bs ws') as [[us' w']|e']; try contradiction; [|subst; reflexivity].
    destruct H as [<- W]. cbn [bind]. destruct (merge_results us) as [all|e]; cbn [bind]; [|reflexivity]. now apply IH.
  Qed.
End Same.

Lemma C130_same_lemma : forall C C' (R : C -> C' -> Prop) (ctl : controller C) (ctl' : controller C') c0 c0' init n, alike R ctl ctl' -> R c0 c0' ->
  run_sync ctl c0 init n = run_sync ctl' c0' init n /\ run_async ctl c0 init n = run_async ctl' c0' init n /\
  forall p sched, run_parallel ctl p sched c0 init n = run_parallel ctl' p sched c0' init n.
Proof.
  intros C C' R ctl ctl' c0 c0' init n AL HR. unfold run_sync, run_async, run_parallel. pose proof (alike_pre R ctl ctl' AL c0 c0' init HR) as P.
  destruct (c_pre_run ctl c0 init) as [c1|e], (c_pre_run ctl' c0' init) as [c1'|e']; try contradiction; [|subst; auto]. cbn [bind]. split; [|split].
  - pose proof (sync_same R ctl ctl' AL (Z.to_nat n) init [] c1 c1' P) as H.
    destruct (sync_loop ctl (Z.to_nat n) init [] c1) as [[[l d] c]|e], (sync_loop ctl' (Z.to_nat n) init [] c1') as [[[l' d'] c']|e']; cbn in H; try contradiction; [|subst; reflexivity].
    destruct H as [H _]. injection H as <- <-. reflexivity.
  - pose proof (add_same R ctl ctl' AL init [] c1 c1' P) as H.
    destruct (add_sites ctl init [] c1) as [[q c2]|e], (add_sites ctl' init [] c1') as [[q' c2']|e']; cbn in H; try contradiction; [|subst; reflexivity].
    destruct H as [<- H2]. cbn [bind]. destruct q as [|k q]; [reflexivity|].
    pose proof (async_same R ctl ctl' AL (Z.to_nat n) (mkA init [] (k :: q) c2) (mkA init [] (k :: q) c2') ltac:(cbn; auto)) as H.
    destruct (async_loop ctl (Z.to_nat n) _) as [a|e], (async_loop ctl' (Z.to_nat n) _) as [a'|e']; cbn in H; try contradiction; [|subst; reflexivity].
    destruct H as (E1 & E2 & _). cbn [bind]. now rewrite E1, E2.
  - intros p sched. destruct (chunk_size_of (size init) p) as [cs|e]; cbn [bind]; [|reflexivity]. destruct (p <? 1)%Z; [reflexivity|].
    rewrite (par_same R ctl ctl' AL sched (Z.to_nat n) (site_ids init) cs 0 (VDict []) [] (fun _ => (init, c1)) (fun _ => (init, c1'))); [reflexivity|]. intros w. auto.
Qed.
