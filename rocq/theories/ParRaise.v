(** What parallel runs raise when controllers fail or answer with something malformed (C133). *)
From Verif Require Import Prelude Dict Val ValFacts Arith LatticeModel StructModel StateModel ResultModel RunnerModel NbModel JsonModel SpecState SpecResult SpecRunner SpecMalformed StateFacts ResultFacts JsonFacts RunnerFacts SyncFacts ParFacts ParRun RunnerMore RunRaise.
Local Open Scope Z_scope.

Section Raise.
  Context {C : Type} (ctl : controller C) (init : sstate).
  Let site_step := fun '(b, c) k => do (u, c') <- c_update ctl c k init; do b' <- merge_updates u b (Some k); Ok (b', c').
  Let fine (k : key) := forall c, exists v c' S G, c_update ctl c k init = Ok (v, c') /\ means k v S G.
  Let fails (k : key) (e : exn) := (forall c, c_update ctl c k init = Err e) \/ e = TypeError /\ forall c, exists v c', c_update ctl c k init = Ok (v, c') /\ no_entries v /\ v <> VNone.

  Lemma fails_step k e b c : fails k e -> site_step (b, c) k = Err e.
  Proof.
    unfold site_step. intros [H|[-> H]]; [now rewrite H|]. destruct (H c) as (v & c' & -> & N1 & N2). cbn [bind]. now rewrite no_entries_merge.
  Qed.
  Lemma fine_step k o c : fine k -> exists o' c', site_step (canon o, c) k = Ok (canon o', c').
  Proof.
    unfold site_step. intros H. destruct (H c) as (v & c' & S & G & -> & M). cbn [bind]. destruct v as [| | | | | | |u]; [|exfalso; inversion M; fail ..|].
    - cbn [merge_updates bind]. eauto.
    - rewrite (merge_means_dict u S G o k M). cbn [bind]. exists (Some (dmerge (csites o) S, dmerge (cgen o) G)), c'. reflexivity.
  Qed.

  Lemma batch_fails e l : (forall k, In k l -> fine k \/ fails k e) -> forall o c,
    (exists o' c', foldM site_step l (canon o, c) = Ok (canon o', c') /\ forall k, In k l -> ~ fails k e) \/ foldM site_step l (canon o, c) = Err e.
  Proof.
    induction l as [|k l IH]; intros H o c; [left; exists o, c; split; [reflexivity|intros k []]|]. cbn [foldM].
    destruct (H k (or_introl eq_refl)) as [F|F]; [|right; rewrite fails_step with (e := e) by exact F; reflexivity].
    destruct (fine_step k o c F) as (o1 & c1 & E1). rewrite E1. cbn [bind].
    destruct (IH ltac:(intros; apply H; now right) o1 c1) as [(o2 & c2 & E2 & N)|E2]; [left|right; exact E2].
    exists o2, c2. split; [exact E2|]. intros k' [->|Hk]; [|now apply N]. intros FF. rewrite (fails_step k' e _ c FF) in E1. discriminate.
  Qed.

  Lemma starmap_fails e (sched : nat -> nat) bs : batch_update init (VDict []) = Ok init -> (forall k, In k (concat bs) -> fine k \/ fails k e) -> (exists k, In k (concat bs) /\ fails k e) ->
    forall b (ws : workers), (forall w, fst (ws w) = init) -> starmap ctl sched (VDict []) b bs ws = Err e.
  Proof.
    intros EB. induction bs as [|l bs IH]; intros HA (bad & Hb & Fb) b ws HW; [destruct Hb|]. cbn [starmap]. unfold worker_task. rewrite (HW (sched b)), EB. cbn [bind]. unfold step_batch.
    destruct (batch_fails e l ltac:(intros; apply HA; cbn [concat]; apply in_or_app; auto) None (snd (ws (sched b)))) as [(o & c & E & N)|E]; cbn [canon] in E;
      change (foldM _ l (VNone, snd (ws (sched b)))) with (foldM site_step l (VNone, snd (ws (sched b)))); rewrite E; [|reflexivity].
    cbn [bind]. rewrite IH; [reflexivity| | |].
    - intros; apply HA; cbn [concat]; apply in_or_app; auto.
    - exists bad. split; [|exact Fb]. cbn [concat] in Hb. apply in_app_or in Hb as [Hb|Hb]; [destruct (N bad Hb Fb)|exact Hb].
    - intros w. unfold set_worker. destruct (Nat.eqb w (sched b)); [reflexivity|apply HW].
  Qed.

  Lemma starmap_none (sched : nat -> nat) bs : batch_update init (VDict []) = Ok init -> (forall c k, In k (concat bs) -> exists c', c_update ctl c k init = Ok (VNone, c')) ->
    forall b (ws : workers), (forall w, fst (ws w) = init) -> exists ws', starmap ctl sched (VDict []) b bs ws = Ok (map (fun _ => VNone) bs, ws').
  Proof.
    intros EB. induction bs as [|l bs IH]; intros HA b ws HW; [eexists; reflexivity|]. cbn [starmap]. unfold worker_task. rewrite (HW (sched b)), EB. cbn [bind]. unfold step_batch.
    assert (K : forall l' c, (forall k, In k l' -> In k l) -> exists c', foldM site_step l' (VNone, c) = Ok (VNone, c')).
    { induction l' as [|k l' IH']; intros c HL; [eexists; reflexivity|]. cbn [foldM]. unfold site_step at 1. destruct (HA c k) as [c' ->]; [cbn [concat]; apply in_or_app; left; apply HL; now left|].
      cbn [bind merge_updates]. apply IH'. intros; apply HL; now right. }
    destruct (K l (snd (ws (sched b)))) as [c' E]; auto. change (foldM _ l (VNone, snd (ws (sched b)))) with (foldM site_step l (VNone, snd (ws (sched b)))). rewrite E. cbn [bind].
    destruct (IH ltac:(intros; apply HA; cbn [concat]; apply in_or_app; auto) (S b) (set_worker ws (sched b) (init, c'))) as [ws' ->]; [|eexists; reflexivity].
    intros w. unfold set_worker. destruct (Nat.eqb w (sched b)); [reflexivity|apply HW].
  Qed.
End Raise.

Lemma C133_parallel_lemma : forall C (ctl : controller C) p sched c0 init n,
  (forall e, c_pre_run ctl c0 init = Err e -> run_parallel ctl p sched c0 init n = Err e) /\
  (forall c1, c_pre_run ctl c0 init = Ok c1 ->
     (p = 0 -> run_parallel ctl p sched c0 init n = Err ZeroDivisionError) /\ (p < 0 -> run_parallel ctl p sched c0 init n = Err ValueError) /\
     (1 <= p -> 1 <= n ->
        (site_ids init = [] -> run_parallel ctl p sched c0 init n = Err ValueError) /\
        (site_ids init <> [] -> (forall c k, In k (site_ids init) -> exists c', c_update ctl c k init = Ok (VNone, c')) ->
           (n = 1 -> exists o, run_parallel ctl p sched c0 init n = Ok o /\ rlen (o_result o) = 2 /\ get_step (o_result o) 1 = Err TypeError) /\
           (2 <= n -> run_parallel ctl p sched c0 init n = Err TypeError)) /\
        (forall e bad,
           (forall k, In k (site_ids init) -> ~ In k bad -> forall c, exists v c' S G, c_update ctl c k init = Ok (v, c') /\ means k v S G) ->
           (forall k, In k bad -> (forall c, c_update ctl c k init = Err e) \/
              e = TypeError /\ forall c, exists v c', c_update ctl c k init = Ok (v, c') /\ no_entries v /\ v <> VNone) ->
           (exists k, In k bad /\ In k (site_ids init)) ->
           run_parallel ctl p sched c0 init n = Err e))).
Proof.
  intros C ctl p sched c0 init n. unfold run_parallel. split; [intros e ->; reflexivity|]. intros c1 ->. cbn [bind]. unfold chunk_size_of at 1 2.
  split; [intros ->; reflexivity|]. split; [intros HP; replace (p =? 0) with false by lia; cbn [bind]; now replace (p <? 1) with true by lia|].
  intros HP HN. destruct (chunk_size_pos (size init) p HP ltac:(unfold size; lia)) as (ch & Ech & C0 & CP & _). rewrite Ech. cbn [bind]. replace (p <? 1) with false by lia.
  destruct (Z.to_nat n) as [|m] eqn:EN; [lia|]. cbn [par_loop]. unfold take_step_parallel.
  split; [|split].
  - intros E. assert (size init = 0) as Z0 by (unfold size; rewrite E; reflexivity). rewrite (C0 Z0). reflexivity.
  - intros NE HA. assert (SZ : 0 < size init) by (unfold size; destruct (site_ids init); [congruence|cbn [length]; lia]). specialize (CP SZ).
    destruct (site_batches ch (site_ids init)) as [bs|] eqn:EB; [|unfold site_batches in EB; replace (ch =? 0) with false in EB by lia; discriminate]. cbn [bind].
    pose proof (C18_batch_cover ch _ bs EB CP) as CC.
    destruct (starmap_none ctl init (sched 0%nat) bs eq_refl ltac:(rewrite CC; exact HA) 0%nat (fun _ => (init, c1)) ltac:(reflexivity)) as [ws' ->]. cbn [bind].
    assert (MR : merge_results (map (fun _ : list key => VNone) bs) = Ok VNone) by (unfold merge_results; clear; induction bs; [reflexivity|exact IHbs]). rewrite MR. cbn [bind app].
    split; intros N1.
    + assert (m = 0%nat) as -> by lia. cbn [par_loop bind]. eexists. split; [reflexivity|]. split; reflexivity.
    + destruct m as [|m]; [lia|]. cbn [par_loop]. unfold take_step_parallel. rewrite EB. cbn [bind]. destruct bs as [|l bs]; [cbn in CC; congruence|]. reflexivity.
  - intros e bad HG HB (k & K1 & K2). assert (SZ : 0 < size init) by (unfold size; destruct (site_ids init); [destruct K2|cbn [length]; lia]). specialize (CP SZ).
    destruct (site_batches ch (site_ids init)) as [bs|] eqn:EB; [|unfold site_batches in EB; replace (ch =? 0) with false in EB by lia; discriminate]. cbn [bind].
    pose proof (C18_batch_cover ch _ bs EB CP) as CC.
    rewrite (starmap_fails ctl init e (sched 0%nat) bs eq_refl); [reflexivity| | |reflexivity]; rewrite CC; [|eauto].
    intros k' Hk. destruct (in_dec (fun a b => match eqb_spec a b with ReflectT _ E => left E | ReflectF _ E => right E end) k' bad) as [I|I]; [right; auto|left; intros c; now apply HG].
Qed.
