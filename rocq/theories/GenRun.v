(** Runs of controllers that answer every site with an update of that site:
    serial runs, and parallel runs under every schedule. *)
From Coq Require Import Permutation.
From Verif Require Import Prelude Dict Val ValFacts StateModel ResultModel RunnerModel SpecState SpecResult SpecRunner
  StateFacts ResultFacts RunnerFacts SyncFacts ParFacts ParRun.

Definition wrap (U : dict key pdict) : val := match U with [] => VNone | _ => full_update (vsites U) [] end.
Lemma wrap_full U : U <> [] -> wrap U = full_update (vsites U) [].
Proof. destruct U; [congruence|reflexivity]. Qed.
Lemma wrap_canon U : exists o, wrap U = canon o /\ csites o = vsites U /\ cgen o = [].
Proof. destruct U as [|x U]; [exists None; auto|]. exists (Some (vsites (x :: U), [])). auto. Qed.
Lemma vsites_app a b : vsites (a ++ b) = vsites a ++ vsites b.
Proof. unfold vsites. apply map_app. Qed.
Lemma dset_new {V} (k : key) (v : V) d : ~ In k (dkeys d) -> dset k v d = d ++ [(k, v)].
Proof.
  induction d as [|[k' v'] d IH]; cbn [dset app]; auto. intros N. destruct (eqb_spec k k') as [->|D]; [exfalso; apply N; simpl; auto|].
  rewrite IH; auto. intros H. apply N. simpl; auto.
Qed.
Lemma dmerge_disjoint {V} (d e : dict key V) : NoDup (dkeys e) -> (forall k, In k (dkeys e) -> ~ In k (dkeys d)) -> dmerge d e = d ++ e.
Proof.
  revert d. induction e as [|[k v] e IH]; intros d N H; [rewrite app_nil_r; reflexivity|]. rewrite dmerge_cons. inversion N as [|? ? N1 N2].
  rewrite dset_new by (apply H; simpl; auto). rewrite IH; auto.
  - now rewrite <- app_assoc.
  - intros j Hj Hd. unfold dkeys in Hd. rewrite map_app in Hd. apply in_app_or in Hd as [Hd|[Hd|[]]].
    + apply (H j); simpl; auto.
    + simpl in Hd. subst. contradiction.
Qed.
Lemma dkeys_app {V} (a b : dict key V) : dkeys (a ++ b) = dkeys a ++ dkeys b.
Proof. unfold dkeys. apply map_app. Qed.

(** What workers may see: [view U init t v]: [v] is the state some worker computes
    answers on in step [t], when the updates of the steps are [U 0, U 1, ...]. *)
Inductive view (U : nat -> dict key pdict) (init : sstate) : nat -> sstate -> Prop :=
| view_start : view U init 0 init
| view_fresh t : view U init (S t) (set_sites_t init (U t))
| view_later t t' w : view U init t' w -> (t' <= S t)%nat -> view U init (S t) (set_sites_t w (U t)).

Lemma view_ext U U' init t v : (forall i, (i < t)%nat -> U i = U' i) -> view U init t v -> view U' init t v.
Proof.
  intros E V. revert E. induction V as [|t|t t' w V IH L]; intros E.
  - constructor.
  - rewrite E by lia. constructor.
  - rewrite E by lia. apply view_later with t'; auto. apply IH. intros i Hi. apply E. lia.
Qed.

(** The recorded states. *)
Definition after (U : nat -> dict key pdict) (init : sstate) (t : nat) : sstate := fold_left set_sites_t (map U (seq 0 t)) init.
Lemma after_S U init t : after U init (S t) = set_sites_t (after U init t) (U t).
Proof. unfold after. rewrite seq_S, map_app, fold_left_app. reflexivity. Qed.
Lemma after_ext U U' init t : (forall i, (i < t)%nat -> U i = U' i) -> after U init t = after U' init t.
Proof. intros E. unfold after. f_equal. apply map_ext_in. intros i Hi. apply in_seq in Hi. apply E. lia. Qed.

Section Own.
  Context {C : Type} (ctl : controller C) (ids : list key) (Good : sstate -> Prop) (Au : key -> pdict -> Prop) (Cok : C -> Prop).
  Hypothesis ND : NoDup ids.
  Hypothesis NE : ids <> [].
  Hypothesis GI : forall s, Good s -> site_ids s = ids.
  Hypothesis ANS : forall c id s, Cok c -> Good s -> In id ids -> exists u c', c_update ctl c id s = Ok (VDict u, c') /\ Au id u /\ Cok c'.
  Hypothesis OWN : forall id u, Au id u -> means id (VDict u) [(id, VDict u)] [].
  Hypothesis STEP : forall s U, Good s -> NoDup (dkeys U) -> Permutation (dkeys U) ids -> (forall id u, In (id, u) U -> Au id u) -> Good (set_sites_t s U).

  (** The answer [u] of site [id] on state [s]. *)
  Definition ans_on (s : sstate) (id : key) (u : pdict) : Prop :=
    Au id u /\ exists c c', Cok c /\ c_update ctl c id s = Ok (VDict u, c').

  Lemma merge_own U id u : Au id u -> ~ In id (dkeys U) -> merge_updates (VDict u) (wrap U) (Some id) = Ok (wrap (U ++ [(id, u)])).
  Proof.
    intros A N. destruct (wrap_canon U) as (o & -> & E1 & E2). rewrite (merge_means_dict _ _ _ o id (OWN _ _ A)), E1, E2.
    rewrite (wrap_full (U ++ _)) by (destruct U; discriminate). rewrite vsites_app. rewrite (dmerge_disjoint (vsites U)); [reflexivity| |].
    - repeat constructor. simpl; tauto.
    - intros k [<-|[]]. now rewrite dkeys_vsites.
  Qed.

  Lemma batch_from b : forall s c U, Cok c -> Good s -> incl b ids -> NoDup (dkeys U ++ b) ->
    exists V c', foldM (fun '(batch_updates, c) site_id =>
             do (site_updates, c') <- c_update ctl c site_id s;
             do b <- merge_updates site_updates batch_updates (Some site_id);
             Ok (b, c')) b (wrap U, c) = Ok (wrap (U ++ V), c') /\ dkeys V = b /\ Cok c' /\ forall id u, In (id, u) V -> ans_on s id u.
  Proof.
    induction b as [|id b IH]; intros s c U K G I N.
    - exists [], c. rewrite app_nil_r. split; [reflexivity|]. split; [reflexivity|]. split; [exact K|intros id u []].
    - cbn [foldM]. destruct (ANS c id s K G) as (u & c' & Eu & Au' & K'); [apply I; simpl; auto|]. rewrite Eu. cbn [bind].
      rewrite merge_own; auto.
      2:{ intros H. apply (nodup_disj (dkeys U) (id :: b) id N H). simpl; auto. }
      cbn [bind]. destruct (IH s c' (U ++ [(id, u)]) K' G) as (V & c2 & EV & KV & K2 & AV).
      + intros j Hj. apply I. simpl; auto.
      + rewrite dkeys_app. cbn [dkeys map fst]. rewrite <- app_assoc. exact N.
      + exists ((id, u) :: V), c2. rewrite EV, <- app_assoc. split; [reflexivity|]. split; [cbn [dkeys map fst]; f_equal; exact KV|]. split; [exact K2|].
        intros j w [E|H]; [|auto]. injection E as <- <-. split; eauto.
  Qed.
  Lemma batch_run b s c : Cok c -> Good s -> incl b ids -> NoDup b ->
    exists V c', step_batch ctl b s c = Ok (wrap V, c') /\ dkeys V = b /\ Cok c' /\ forall id u, In (id, u) V -> ans_on s id u.
  Proof. intros K0 G I N. destruct (batch_from b s c [] K0 G I) as (V & c' & E & K); auto. exists V, c'. auto. Qed.

  Lemma apply_wrap s U : U <> [] -> batch_update s (wrap U) = Ok (set_sites_t s U).
  Proof.
    intros N. rewrite wrap_full by auto. rewrite batch_full_update, set_sites_vsites. cbn [bind]. f_equal.
    destruct (set_sites_t s U); reflexivity.
  Qed.
  Lemma keys_nonempty (U : dict key pdict) : Permutation (dkeys U) ids -> U <> [].
  Proof. intros P ->. apply Permutation_nil in P. auto. Qed.

  Lemma replay_after init U n : (forall i, (i < n)%nat -> U i <> []) ->
    forall t, (t <= n)%nat -> replay init (map (fun i => wrap (U i)) (seq 0 n)) t = Ok (after U init t).
  Proof.
    intros H t L. unfold replay. rewrite firstn_map.
    assert (firstn t (seq 0 n) = seq 0 t) as ->.
    { replace n with (t + (n - t))%nat by lia. rewrite seq_app, firstn_app, seq_length. replace (t - t)%nat with 0%nat by lia.
      rewrite firstn_O, app_nil_r. rewrite <- (seq_length t 0) at 1. apply firstn_all. }
    assert (G : forall t, (t <= n)%nat -> foldM batch_update (map (fun i => wrap (U i)) (seq 0 t)) init = Ok (after U init t)); [|auto].
    clear t L. induction t as [|t IH]; intros L; [reflexivity|]. rewrite seq_S, map_app, foldM_app, IH by lia. cbn [bind map foldM].
    rewrite apply_wrap by (apply H; lia). cbn [bind]. now rewrite after_S.
  Qed.

  (** ** Serial runs *)
  Lemma sync_from n : forall live diffs c, Cok c -> Good live -> exists U live' c',
    sync_loop ctl n live diffs c = Ok (live', diffs ++ map (fun i => wrap (U i)) (seq 0 n), c') /\ live' = after U live n /\
    forall i, (i < n)%nat -> dkeys (U i) = ids /\ Good (after U live i) /\ forall id u, In (id, u) (U i) -> ans_on (after U live i) id u.
  Proof.
    induction n as [|n IH]; intros live diffs c K G.
    - exists (fun _ => []), live, c. cbn [sync_loop seq map]. rewrite app_nil_r. split; [reflexivity|]. split; [reflexivity|lia].
    - cbn [sync_loop]. unfold take_step. rewrite (GI _ G).
      destruct (batch_run ids live c K G (incl_refl _) ND) as (V & c1 & EV & KV & K1 & AV). rewrite EV. cbn [bind].
      assert (NV : V <> []) by (apply keys_nonempty; rewrite KV; apply Permutation_refl).
      rewrite apply_wrap by auto. cbn [bind].
      assert (G' : Good (set_sites_t live V)).
      { apply STEP; auto; [rewrite KV; auto|rewrite KV; apply Permutation_refl|]. intros id u H. apply (AV id u H). }
      destruct (IH (set_sites_t live V) (diffs ++ [wrap V]) c1 K1 G') as (U & live' & c' & E & EL & HU).
      exists (fun i => match i with O => V | S i => U i end), live', c'.
      assert (SH : forall i, after (fun i => match i with O => V | S i => U i end) live (S i) = after U (set_sites_t live V) i).
      { intros i. unfold after. cbn [seq map fold_left]. f_equal. rewrite <- seq_shift, map_map. reflexivity. }
      rewrite SH. split; [|split; auto].
      + rewrite E, <- app_assoc. cbn [app]. replace (map (fun i => wrap (match i with O => V | S i => U i end)) (seq 0 (S n))) with (wrap V :: map (fun i => wrap (U i)) (seq 0 n)); auto.
        cbn [seq map]. f_equal. rewrite <- seq_shift, map_map. reflexivity.
      + intros [|i] Hi; [split; [exact KV|split; [exact G|exact AV]]|]. rewrite SH. apply HU. lia.
  Qed.
  Lemma own_sync c0 c1 init n : Good init -> c_pre_run ctl c0 init = Ok c1 -> Cok c1 -> exists U o,
    run_sync ctl c0 init n = Ok o /\ rlen (o_result o) = Z.max 0 n + 1 /\ o_output o = after U init (Z.to_nat n) /\
    (forall t, (t <= Z.to_nat n)%nat -> get_step (o_result o) (Z.of_nat t) = Ok (after U init t)) /\
    forall t, (t < Z.to_nat n)%nat -> dkeys (U t) = ids /\ Good (after U init t) /\ forall id u, In (id, u) (U t) -> ans_on (after U init t) id u.
  Proof.
    intros G E K1. unfold run_sync. rewrite E. cbn [bind]. destruct (sync_from (Z.to_nat n) init [] c1 K1 G) as (U & live' & c' & ES & EL & HU).
    rewrite ES. cbn [bind]. exists U. eexists. split; [reflexivity|]. cbn [o_result o_output app]. split; [|split; [auto|split]].
    - unfold rlen. cbn [r_diffs]. rewrite map_length, seq_length. lia.
    - intros t L. rewrite get_step_fresh by (rewrite map_length, seq_length; auto). apply replay_after; auto.
      intros i Hi. apply keys_nonempty. rewrite (proj1 (HU i Hi)). apply Permutation_refl.
    - auto.
  Qed.

  (** ** Parallel runs *)
  Lemma merge_two A B : A <> [] -> B <> [] -> NoDup (dkeys (B ++ A)) -> merge_updates (wrap A) (wrap B) None = Ok (wrap (B ++ A)).
  Proof.
    intros NA NB N. rewrite !wrap_full by (auto; destruct B; congruence || discriminate). unfold full_update.
    unfold merge_updates. cbn [bind]. change (dmem SITES [(SITES, VDict (vsites A)); (GENERAL, VDict [])]) with true. cbn [orb bind].
    change (upd_arg (dget SITES [(SITES, VDict (vsites A)); (GENERAL, VDict [])])) with (Ok (vsites A)). cbn [bind].
    rewrite update_in_sites. cbn [bind]. change (upd_arg (dget GENERAL [(SITES, VDict (vsites A)); (GENERAL, VDict [])])) with (Ok (@nil (key * val))).
    cbn [bind]. rewrite update_in_general. cbn [bind]. rewrite vsites_app. rewrite (dmerge_disjoint (vsites B)); [reflexivity| |].
    - rewrite dkeys_vsites. rewrite dkeys_app in N. now apply nodup_r in N.
    - intros k H H2. rewrite dkeys_vsites in *. rewrite dkeys_app in N. eapply nodup_disj; eauto.
  Qed.
  Lemma merge_all Vs : forall A, Forall (fun V => V <> []) Vs -> NoDup (dkeys (concat (rev Vs) ++ A)) ->
    foldM (fun all_updates batch_update_res => merge_updates all_updates batch_update_res None) (map wrap Vs) (wrap A) = Ok (wrap (concat (rev Vs) ++ A)).
  Proof.
    induction Vs as [|V Vs IH]; intros A F N; [reflexivity|]. inversion F as [|? ? F1 F2]; subst. cbn [map foldM rev] in *.
    rewrite concat_app in *. cbn [concat] in *. rewrite app_nil_r in *. rewrite <- app_assoc in *.
    destruct A as [|a A].
    - cbn [wrap]. unfold merge_updates at 1. cbn [bind]. rewrite app_nil_r in *. rewrite IH; auto.
    - rewrite merge_two; auto; [|discriminate|rewrite dkeys_app in N; now apply nodup_r in N]. cbn [bind]. apply IH; auto.
  Qed.

  Section Par.
    Variables (init : sstate) (U : nat -> dict key pdict).
    Hypothesis GInit : Good init.

    Definition held (t : nat) (w : sstate) : Prop := w = init \/ exists t', (t' <= t)%nat /\ view U init t' w.
    Definition goodU (t : nat) : Prop := forall i, (i < t)%nat -> NoDup (dkeys (U i)) /\ Permutation (dkeys (U i)) ids /\ forall id u, In (id, u) (U i) -> Au id u.

    Lemma view_good t w : goodU t -> view U init t w -> Good w.
    Proof.
      intros GU V. revert GU. induction V as [|t|t t' w V IH L]; intros GU; auto; destruct (GU t ltac:(lia)) as (A & B & D); apply STEP; auto.
      apply IH. intros i Hi. apply GU. lia.
    Qed.
    Lemma held_good t w : goodU t -> held t w -> Good w.
    Proof. intros GU [->|(t' & L & V)]; auto. apply (view_good t'); auto. intros i Hi. apply GU. lia. Qed.

    (** One step: [last] is what the workers are sent. *)
    Lemma starmap_run t last sched : goodU t ->
      (forall w, held t w -> exists v, batch_update w last = Ok v /\ view U init t v) ->
      forall batches b ws, incl (concat batches) ids -> NoDup (concat batches) -> Forall (fun x => x <> []) batches -> (forall w, held t (fst (ws w)) /\ Cok (snd (ws w))) ->
      exists Vs ws', starmap ctl sched last b batches ws = Ok (map wrap Vs, ws') /\ (forall w, held t (fst (ws' w)) /\ Cok (snd (ws' w))) /\
        map dkeys Vs = batches /\ Forall (fun V => V <> []) Vs /\
        forall V id u, In V Vs -> In (id, u) V -> exists v, view U init t v /\ ans_on v id u.
    Proof.
      intros GU HL. induction batches as [|x batches IH]; intros b ws I N F HW.
      - exists [], ws. split; [reflexivity|]. split; auto. split; auto. split; auto. intros V id u [].
      - cbn [concat] in I, N. inversion F as [|? ? F1 F2]; subst.
        cbn [starmap]. unfold worker_task. destruct (HL (fst (ws (sched b))) (proj1 (HW _))) as (v & Ev & Vv). rewrite Ev. cbn [bind].
        destruct (batch_run x v (snd (ws (sched b)))) as (V & c' & EV & KV & K' & AV).
        { apply HW. }
        { apply (view_good t v GU Vv). } { intros j Hj. apply I, in_or_app; auto. } { now apply nodup_l in N. }
        rewrite EV. cbn [bind].
        destruct (IH (S b) (set_worker ws (sched b) (v, c'))) as (Vs & ws' & ES & HW' & KS & FS & AS); auto.
        { intros j Hj. apply I, in_or_app; auto. } { now apply nodup_r in N. }
        { intros w. unfold set_worker. destruct (Nat.eqb w (sched b)); auto. split; auto. right. exists t. auto. }
        rewrite ES. cbn [bind]. exists (V :: Vs), ws'. split; [reflexivity|]. split; auto. split; [cbn [map]; congruence|]. split.
        + constructor; auto. intros ->. cbn in KV. congruence.
        + intros V0 id u [<-|H] HI; [exists v; auto|eauto].
    Qed.
  End Par.

  Lemma concat_dkeys (Vs : list (dict key pdict)) : dkeys (concat Vs) = concat (map dkeys Vs).
  Proof. induction Vs as [|V Vs IH]; [reflexivity|]. cbn [concat map]. now rewrite dkeys_app, IH. Qed.

  Definition sent (U : nat -> dict key pdict) (t : nat) : val := match t with O => VDict [] | S t => wrap (U t) end.

  Lemma par_from init sched chunk batches : Good init -> site_batches chunk ids = Ok batches -> concat batches = ids -> Forall (fun x => x <> []) batches ->
    forall n t U ws diffs, goodU U t -> (forall w, held init U (pred t) (fst (ws w)) /\ Cok (snd (ws w))) ->
    exists U', (forall i, (i < t)%nat -> U' i = U i) /\
      par_loop ctl sched t n ids chunk (sent U t) diffs ws = Ok (diffs ++ map (fun i => wrap (U' i)) (seq t n)) /\
      goodU U' (t + n) /\
      forall i, (t <= i < t + n)%nat -> forall id u, In (id, u) (U' i) -> exists v, view U' init i v /\ ans_on v id u.
  Proof.
    intros G EB CB FB. induction n as [|n IH]; intros t U ws diffs GU HW.
    - exists U. split; auto. cbn [par_loop seq map]. rewrite app_nil_r. split; auto. rewrite Nat.add_0_r. split; auto. intros i Hi. lia.
    - cbn [par_loop]. unfold take_step_parallel. rewrite EB. cbn [bind].
      assert (HW' : forall w, held init U t (fst (ws w)) /\ Cok (snd (ws w))).
      { intros w. destruct (HW w) as [[E|(t' & L & V)] KW]; (split; [|exact KW]); [left; auto|right; exists t'; split; [lia|auto]]. }
      destruct (starmap_run init U G t (sent U t) (sched t) GU) with (batches := batches) (b := 0%nat) (ws := ws) as (Vs & ws' & ES & HW2 & KS & FS & AS).
      { intros w HWw. destruct t as [|t].
        - exists w. split; [reflexivity|]. destruct HWw as [->|(t' & L & V)]; [constructor|]. replace t' with 0%nat in V by lia. exact V.
        - cbn [sent]. exists (set_sites_t w (U t)). split.
          + apply apply_wrap, keys_nonempty. apply (GU t). lia.
          + destruct HWw as [->|(t' & L & V)]; [apply view_fresh|apply view_later with t'; auto]. }
      { rewrite CB. apply incl_refl. } { rewrite CB. auto. } { auto. } { auto. }
      rewrite ES. cbn [bind]. unfold merge_results. change VNone with (wrap []).
      set (V := concat (rev Vs)).
      assert (KP : Permutation (dkeys V) ids).
      { unfold V. rewrite concat_dkeys, map_rev, KS, <- CB. clear. induction batches as [|x l IH]; [constructor|]. cbn [rev concat]. rewrite concat_app. cbn [concat].
        rewrite app_nil_r. etransitivity; [apply Permutation_app_comm|]. now apply Permutation_app_head. }
      assert (NV : NoDup (dkeys V)) by (eapply Permutation_NoDup; [apply Permutation_sym, KP|exact ND]).
      rewrite merge_all; auto. 2:{ rewrite app_nil_r. exact NV. } rewrite app_nil_r. fold V. cbn [bind].
      set (U1 := fun i => if Nat.eqb i t then V else U i).
      assert (U1t : U1 t = V) by (unfold U1; now rewrite Nat.eqb_refl).
      assert (U1o : forall i, (i < t)%nat -> U1 i = U i) by (intros i Hi; unfold U1; destruct (Nat.eqb_spec i t); [lia|auto]).
      assert (AV : forall id u, In (id, u) V -> exists v, view U init t v /\ ans_on v id u).
      { intros id u H. apply in_concat in H as (W & HWi & HI). apply in_rev in HWi. eauto. }
      assert (VE : forall v, view U init t v -> view U1 init t v) by (intros v; apply view_ext; intros i Hi; symmetry; apply U1o; lia).
      destruct (IH (S t) U1 ws' (diffs ++ [wrap V])) as (U' & E1 & E2 & E3 & E4).
      { intros i Hi. destruct (Nat.eq_dec i t) as [->|D].
        - rewrite U1t. split; auto. split; auto. intros id u H. destruct (AV id u H) as (v & _ & A & _). exact A.
        - rewrite U1o by lia. apply GU. lia. }
      { cbn [pred]. intros w. destruct (HW2 w) as [[E|(t' & L & Vw)] KW]; (split; [|exact KW]); [left; auto|right]. exists t'. split; [lia|].
        revert Vw. apply view_ext. intros i Hi. symmetry. apply U1o. lia. }
      exists U'. split; [|split; [|split]].
      + intros i Hi. rewrite E1 by lia. apply U1o. lia.
      + cbn [sent] in E2. rewrite U1t in E2. rewrite E2, <- app_assoc. cbn [app]. do 2 f_equal. cbn [seq map]. f_equal. rewrite E1 by lia. now rewrite U1t.
      + replace (t + S n)%nat with (S t + n)%nat by lia. exact E3.
      + intros i Hi id u H. destruct (Nat.eq_dec i t) as [->|D].
        * rewrite E1 in H by lia. rewrite U1t in H. destruct (AV id u H) as (v & Vv & A). exists v. split; auto.
          eapply view_ext; [|apply VE, Vv]. intros j Hj. symmetry. apply E1. lia.
        * apply (E4 i); auto. lia.
  Qed.

  Lemma own_par p sched c0 c1 init n : Good init -> 1 <= p -> c_pre_run ctl c0 init = Ok c1 -> Cok c1 -> exists U o,
    run_parallel ctl p sched c0 init n = Ok o /\ rlen (o_result o) = Z.max 0 n + 1 /\
    (forall t, (t <= Z.to_nat n)%nat -> get_step (o_result o) (Z.of_nat t) = Ok (after U init t)) /\
    forall t, (t < Z.to_nat n)%nat -> NoDup (dkeys (U t)) /\ Permutation (dkeys (U t)) ids /\
      forall id u, In (id, u) (U t) -> exists v, view U init t v /\ Good v /\ ans_on v id u.
  Proof.
    intros G P E K1. unfold run_parallel. rewrite E. cbn [bind].
    destruct (C18_lemma p ids P NE) as (c & batches & Ec & Eb & Cov & FB & _).
    unfold size. rewrite (GI _ G), Ec. cbn [bind]. destruct (p <? 1) eqn:Ep; [lia|].
    destruct (par_from init sched c batches G Eb Cov) with (n := Z.to_nat n) (t := 0%nat) (U := fun _ : nat => @nil (key * pdict)) (ws := fun _ : nat => (init, c1)) (diffs := @nil val)
      as (U & _ & EU & GU & AU).
    { eapply Forall_impl; [|exact FB]. cbn. tauto. } { intros i Hi; lia. } { intros w. split; [left; reflexivity|exact K1]. }
    cbn [sent] in EU. rewrite EU. cbn [bind]. exists U. eexists. split; [reflexivity|]. cbn [o_result app Nat.add] in *. split; [|split].
    - unfold rlen. cbn [r_diffs]. rewrite map_length, seq_length. lia.
    - intros t L. rewrite get_step_fresh by (rewrite map_length, seq_length; auto). apply replay_after; auto.
      intros i Hi. apply keys_nonempty. apply (GU i Hi).
    - intros t L. destruct (GU t L) as (A & B & D). split; auto. split; auto. intros id u H. destruct (AU t ltac:(lia) id u H) as (v & Vv & A').
      exists v. split; auto. split; auto. apply (view_good init U G t); auto. intros i Hi. apply GU. lia.
  Qed.
End Own.
