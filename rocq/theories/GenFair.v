(** Parallel runs in which every worker used in a step was used in all earlier steps:
    every answer is computed on the recorded state, as in a serial run. *)
From Coq Require Import Permutation.
From Verif Require Import Prelude Dict Val ValFacts StateModel ResultModel RunnerModel NbModel SimModel RulesModel SpecState SpecResult SpecRunner SpecNb SpecRules
  StateFacts ResultFacts RunnerFacts SyncFacts ParFacts ParRun GenRun RulesFacts RulesMore.
Local Open Scope Z_scope.

Section Fair.
  Context {C : Type} (ctl : controller C) (ids : list key) (Good : sstate -> Prop) (Au : key -> pdict -> Prop) (Cok : C -> Prop).
  Hypothesis ND : NoDup ids.
  Hypothesis NE : ids <> [].
  Hypothesis GI : forall s, Good s -> site_ids s = ids.
  Hypothesis ANS : forall c id s, Cok c -> Good s -> In id ids -> exists u c', c_update ctl c id s = Ok (VDict u, c') /\ Au id u /\ Cok c'.
  Hypothesis OWN : forall id u, Au id u -> means id (VDict u) [(id, VDict u)] [].
  Hypothesis STEP : forall s U, Good s -> NoDup (dkeys U) -> Permutation (dkeys U) ids -> (forall id u, In (id, u) U -> Au id u) -> Good (set_sites_t s U).
  Hypothesis AUQ : forall id u, Au id u -> uniq u.

  Lemma twice s U : Good s -> NoDup (dkeys U) -> Permutation (dkeys U) ids -> (forall id u, In (id, u) U -> Au id u) ->
    set_sites_t (set_sites_t s U) U = set_sites_t s U.
  Proof.
    intros G N P A. apply set_sites_t_over; auto.
    - change (NoDup (site_ids s)). rewrite (GI _ G). exact ND.
    - intros i Hi. rewrite (GI _ G). eapply Permutation_in; eauto.
    - intros i a b Ha Hb. assert (a = b) as <-; [|eauto]. apply In_dget in Ha; auto. apply In_dget in Hb; auto. congruence.
  Qed.

  Section Step.
    Variables (before now : sstate) (last : val) (sched : nat -> nat).
    Hypothesis GN : Good now.
    Hypothesis B1 : batch_update before last = Ok now.
    Hypothesis B2 : batch_update now last = Ok now.

    Lemma starmap_fair : forall batches b ws, incl (concat batches) ids -> NoDup (concat batches) -> Forall (fun x => x <> []) batches ->
      (forall w, Cok (snd (ws w))) -> (forall b', (b <= b' < b + length batches)%nat -> fst (ws (sched b')) = before \/ fst (ws (sched b')) = now) ->
      exists Vs ws', starmap ctl sched last b batches ws = Ok (map wrap Vs, ws') /\ (forall w, Cok (snd (ws' w))) /\
        (forall w, fst (ws w) = now -> fst (ws' w) = now) /\ (forall b', (b <= b' < b + length batches)%nat -> fst (ws' (sched b')) = now) /\
        map dkeys Vs = batches /\ Forall (fun V => V <> []) Vs /\
        forall V id u, In V Vs -> In (id, u) V -> ans_on ctl Au Cok now id u.
    Proof.
      induction batches as [|x batches IH]; intros b ws I N F HC HW.
      - exists [], ws. split; [reflexivity|]. split; auto. split; auto. split; [simpl; intros; lia|]. split; auto. split; auto. intros V id u [].
      - cbn [concat] in I, N. inversion F as [|? ? F1 F2]; subst. cbn [length] in *.
        cbn [starmap]. unfold worker_task.
        assert (Ev : batch_update (fst (ws (sched b))) last = Ok now) by (destruct (HW b) as [-> | ->]; auto; lia).
        rewrite Ev. cbn [bind].
        destruct (batch_run ctl ids Good Au Cok ANS OWN x now (snd (ws (sched b))) (HC _) GN) as (V & c' & EV & KV & K' & AV).
        { intros j Hj. apply I, in_or_app; auto. } { now apply nodup_l in N. }
        rewrite EV. cbn [bind]. set (ws1 := set_worker ws (sched b) (now, c')).
        destruct (IH (S b) ws1) as (Vs & ws' & ES & HC' & HK & HN & KS & FS & AS); auto.
        { intros j Hj. apply I, in_or_app; auto. } { now apply nodup_r in N. }
        { intros w. unfold ws1, set_worker. destruct (Nat.eqb w (sched b)); auto. }
        { intros b' Hb'. unfold ws1, set_worker. destruct (Nat.eqb (sched b') (sched b)); [right; reflexivity|]. apply HW. lia. }
        rewrite ES. cbn [bind]. exists (V :: Vs), ws'. split; [reflexivity|]. split; auto. split; [|split; [|split; [cbn [map]; congruence|split]]].
        + intros w Hw. apply HK. unfold ws1, set_worker. destruct (Nat.eqb w (sched b)); auto.
        + intros b' Hb'. destruct (Nat.eq_dec b' b) as [->|D]; [|apply HN; lia]. apply HK. unfold ws1, set_worker. now rewrite Nat.eqb_refl.
        + constructor; auto. intros ->. cbn in KV. congruence.
        + intros V0 id u [<-|H] HI; [auto|eauto].
    Qed.
  End Step.

  Lemma fair_from init sched chunk batches : Good init -> site_batches chunk ids = Ok batches -> concat batches = ids -> Forall (fun x => x <> []) batches ->
    keeps_up (length batches) sched ->
    forall n t U ws diffs, goodU ids Au U t -> Good (after U init t) -> Good (after U init (pred t)) -> (forall w, Cok (snd (ws w))) ->
    (forall b, (b < length batches)%nat -> fst (ws (sched (pred t) b)) = after U init (pred t)) ->
    exists U', (forall i, (i < t)%nat -> U' i = U i) /\
      par_loop ctl sched t n ids chunk (sent U t) diffs ws = Ok (diffs ++ map (fun i => wrap (U' i)) (seq t n)) /\
      goodU ids Au U' (t + n) /\
      forall i, (t <= i < t + n)%nat -> Good (after U' init i) /\ forall id u, In (id, u) (U' i) -> ans_on ctl Au Cok (after U' init i) id u.
  Proof.
    intros G EB CB FB KU. induction n as [|n IH]; intros t U ws diffs GU GT GP HC HW.
    - exists U. split; auto. cbn [par_loop seq map]. rewrite app_nil_r. split; auto. rewrite Nat.add_0_r. split; auto. intros i Hi. lia.
    - cbn [par_loop]. unfold take_step_parallel. rewrite EB. cbn [bind].
      assert (BB : batch_update (after U init (pred t)) (sent U t) = Ok (after U init t) /\ batch_update (after U init t) (sent U t) = Ok (after U init t)).
      { destruct t as [|t]; [split; reflexivity|]. cbn [sent pred]. destruct (GU t ltac:(lia)) as (A1 & A2 & A3). pose proof (keys_nonempty ids NE _ A2) as NU. rewrite !apply_wrap by auto.
        rewrite after_S. cbn [pred] in GP. rewrite twice; auto. }
      destruct BB as [B1 B2].
      destruct (starmap_fair (after U init (pred t)) (after U init t) (sent U t) (sched t) GT B1 B2 batches 0%nat ws) as (Vs & ws' & ES & HC' & _ & HN & KS & FS & AS); auto.
      { rewrite CB. apply incl_refl. } { rewrite CB. auto. }
      { intros b Hb. left. destruct t as [|t]; [apply HW; lia|]. destruct (KU (S t) b ltac:(lia) t ltac:(lia)) as (b' & Lb & E). rewrite <- E. apply HW. exact Lb. }
      rewrite ES. cbn [bind]. unfold merge_results. change VNone with (wrap []).
      set (V := concat (rev Vs)).
      assert (KP : Permutation (dkeys V) ids).
      { unfold V. rewrite concat_dkeys, map_rev, KS, <- CB. clear. induction batches as [|x l IH]; [constructor|]. cbn [rev concat]. rewrite concat_app. cbn [concat].
        rewrite app_nil_r. etransitivity; [apply Permutation_app_comm|]. now apply Permutation_app_head. }
      assert (NV : NoDup (dkeys V)) by (eapply Permutation_NoDup; [apply Permutation_sym, KP|exact ND]).
      rewrite merge_all; auto. 2:{ rewrite app_nil_r. exact NV. } rewrite app_nil_r. fold V. cbn [bind].
      set (U1 := fun i => if Nat.eqb i t then V else U i).
      assert (U1t : U1 t = V) by (unfold U1; now rewrite Nat.eqb_refl).
      assert (U1o : forall i, (i < t)%nat -> U1 i = U i) by (intros i Hi; unfold U1; destruct (Nat.eqb_spec i t); [lia|auto]).
      assert (AV : forall id u, In (id, u) V -> ans_on ctl Au Cok (after U init t) id u).
      { intros id u H. apply in_concat in H as (W & HWi & HI). apply in_rev in HWi. eauto. }
      assert (AT : after U1 init t = after U init t) by (apply after_ext; auto).
      destruct (IH (S t) U1 ws' (diffs ++ [wrap V])) as (U' & E1 & E2 & E3 & E4).
      { intros i Hi. destruct (Nat.eq_dec i t) as [->|D].
        - rewrite U1t. split; auto. split; auto. intros id u H. apply (AV id u H).
        - rewrite U1o by lia. apply GU. lia. }
      { rewrite after_S, AT, U1t. apply STEP; auto. intros id u H. apply (AV id u H). }
      { cbn [pred]. now rewrite AT. } { exact HC'. }
      { cbn [pred]. intros b Hb. rewrite AT. apply HN. lia. }
      exists U'. assert (AT' : after U' init t = after U init t) by (rewrite <- AT; apply after_ext; intros i Hi; apply E1; lia).
      split; [|split; [|split]].
      + intros i Hi. rewrite E1 by lia. apply U1o. lia.
      + cbn [sent] in E2. rewrite U1t in E2. rewrite E2, <- app_assoc. cbn [app]. do 2 f_equal. cbn [seq map]. f_equal. rewrite E1 by lia. now rewrite U1t.
      + replace (t + S n)%nat with (S t + n)%nat by lia. exact E3.
      + intros i Hi. destruct (Nat.eq_dec i t) as [->|D].
        * rewrite AT'. split; auto. intros id u H. rewrite E1 in H by lia. rewrite U1t in H. auto.
        * apply (E4 i); lia.
  Qed.

  Lemma fair_par p sched c0 c1 init n : Good init -> 1 <= p -> c_pre_run ctl c0 init = Ok c1 -> Cok c1 ->
    (forall c batches, chunk_size_of (size init) p = Ok c -> site_batches c (site_ids init) = Ok batches -> keeps_up (length batches) sched) ->
    exists U o, run_parallel ctl p sched c0 init n = Ok o /\ rlen (o_result o) = Z.max 0 n + 1 /\
    (forall t, (t <= Z.to_nat n)%nat -> get_step (o_result o) (Z.of_nat t) = Ok (after U init t)) /\
    forall t, (t < Z.to_nat n)%nat -> NoDup (dkeys (U t)) /\ Permutation (dkeys (U t)) ids /\ Good (after U init t) /\
      forall id u, In (id, u) (U t) -> ans_on ctl Au Cok (after U init t) id u.
  Proof.
    intros G P E K1 KU. unfold run_parallel. rewrite E. cbn [bind].
    destruct (C18_lemma p ids P NE) as (c & batches & Ec & Eb & Cov & FB & _).
    specialize (KU c batches). unfold size in *. rewrite (GI _ G) in *. specialize (KU Ec Eb). rewrite Ec. cbn [bind]. destruct (p <? 1) eqn:Ep; [lia|].
    destruct (fair_from init sched c batches G Eb Cov) with (n := Z.to_nat n) (t := 0%nat) (U := fun _ : nat => @nil (key * pdict)) (ws := fun _ : nat => (init, c1)) (diffs := @nil val)
      as (U & _ & EU & GU & AU); auto.
    { eapply Forall_impl; [|exact FB]. cbn. tauto. } { intros i Hi; lia. }
    cbn [sent] in EU. rewrite EU. cbn [bind]. exists U. eexists. split; [reflexivity|]. cbn [o_result app Nat.add] in *. split; [|split].
    - unfold rlen. cbn [r_diffs]. rewrite map_length, seq_length. lia.
    - intros t L. rewrite get_step_fresh by (rewrite map_length, seq_length; auto). apply (replay_after ids Good Au GI STEP); auto.
      intros i Hi. apply (keys_nonempty ids NE). apply (GU i Hi).
    - intros t L. destruct (GU t L) as (A & B & D). split; auto. split; auto. apply AU. lia.
  Qed.
End Fair.

Lemma grow_upd_uniq id u : grow_upd id u -> uniq u.
Proof. unfold uniq. intros [->|(q & ->)]; repeat constructor. simpl; tauto. Qed.

Lemma C56_fair_lemma : forall F (N : nbhood F) bg ords rnd ids p sched c0 init n,
  (forall t, legal (ords t)) -> NoDup ids -> ids <> [] -> has_neighbours ids N -> phased ids init -> 1 <= p ->
  (forall c batches, chunk_size_of (size init) p = Ok c -> site_batches c (site_ids init) = Ok batches -> keeps_up (length batches) sched) ->
  exists o, run_parallel (growth_controller N bg ords rnd) p sched c0 init n = Ok o /\ rlen (o_result o) = Z.max 0 n + 1 /\
   forall t, 0 <= t <= Z.max 0 n -> exists st, get_step (o_result o) t = Ok st /\ phased ids st /\
     (forall i p, In i ids -> holds st i p -> p = bg \/ exists j, In j ids /\ holds init j p) /\
     (forall t' st' i p, t <= t' <= Z.max 0 n -> get_step (o_result o) t' = Ok st' -> In i ids -> holds st i p -> p <> bg -> holds st' i p) /\
     (forall nbr, (forall o i l j, legal o -> In i ids -> neighbors_of o N i = Ok l -> (In j l <-> nbr i j)) ->
        forall i, In i ids -> (occupied bg st i <-> exists j, within nbr (Z.to_nat t) i j /\ occupied bg init j)).
Proof.
  intros F N bg ords rnd ids p sched c0 init n LO NI NE HN PI P1 KU.
  destruct (fair_par (growth_controller N bg ords rnd) (map KInt ids) (phased ids) grow_upd (fun _ => True) (nodup_keys _ NI)) with (p := p) (sched := sched) (c0 := c0) (c1 := c0) (init := init) (n := n)
      as (U & o & E & L & GS & HU).
  { destruct ids; [congruence|discriminate]. }
  { intros s H. apply H. }
  { intros c id s _ Hs Hid. destruct (grow_ans N bg ords rnd ids LO HN c id s Hs Hid) as (u & c' & E & G). exists u, c'. auto. }
  { apply grow_own. }
  { intros s U H1 H2 H3 H4. apply step_phased; auto. }
  { apply grow_upd_uniq. }
  { exact PI. } { exact P1. } { reflexivity. } { exact I. } { exact KU. }
  exists o. split; auto. split; auto. intros t Ht.
  assert (HU' : forall t, (t < Z.to_nat n)%nat -> NoDup (dkeys (U t)) /\ Permutation (dkeys (U t)) (map KInt ids) /\
      forall id u, In (id, u) (U t) -> exists v, view U init t v /\ phased ids v /\ ans_on (growth_controller N bg ords rnd) grow_upd (fun _ => True) v id u).
  { intros s Hs. destruct (HU s Hs) as (A & B & D & G). split; auto. split; auto. intros id u H. exists (after U init s). split; [apply after_view|auto]. }
  exists (after U init (Z.to_nat t)). split; [|split; [|split; [|split]]].
  - rewrite <- (GS (Z.to_nat t)) by lia. f_equal. lia.
  - apply (spread_phased N bg ords rnd ids LO NI init U (Z.to_nat n) PI HU'). lia.
  - intros i q Hi Hq. apply (spread_from N bg ords rnd ids LO NI HN init U (Z.to_nat n) PI HU' (Z.to_nat t) i q); auto. lia.
  - intros t' st' i q Ht' E' Hi Hq Dq. assert (st' = after U init (Z.to_nat t')) as ->.
    { pose proof (GS (Z.to_nat t') ltac:(lia)) as X. replace (Z.of_nat (Z.to_nat t')) with t' in X by lia. congruence. }
    apply (nodup_ids_after N bg ords rnd ids init U (Z.to_nat n) (Z.to_nat t)); auto. lia.
  - intros nbr HR i Hi. apply (spread_iff N bg ords rnd ids LO NI HN init U (Z.to_nat n) PI HU' nbr HR); auto; try lia. intros a b Ha Hb. destruct (HN (ords 0%nat) a (LO _) Ha) as (l & El & Il). apply Il. apply (HR (ords 0%nat) a l b (LO _) Ha El). exact Hb.
Qed.

Lemma C56_stale_lemma : exists (N : nbhood Z) bg ords rnd ids p sched init n o t t' st st' i a,
  (forall t, legal (ords t)) /\ NoDup ids /\ ids <> [] /\ has_neighbours ids N /\ phased ids init /\ 1 <= p /\ (forall t b, Z.of_nat (sched t b) < p) /\
  run_parallel (growth_controller N bg ords rnd) p sched 0%nat init n = Ok o /\
  get_step (o_result o) t = Ok st /\ get_step (o_result o) t' = Ok st' /\ 0 <= t <= t' /\
  In i ids /\ holds st i a /\ a <> bg /\ ~ holds st' i a.
Proof.
  exists (NGraph row_graph), "bg"%string, (fun _ => list_oracle), (fun _ => 0%nat), [0; 1; 2; 3; 4], 2, late, (row_state ["a"; "bg"; "bg"; "bg"; "b"]%string), 3.
  eexists. exists 1, 3. do 2 eexists. exists 1, "a"%string.
  split; [intros _; exact list_legal|]. split; [repeat constructor; simpl; intuition lia|]. split; [discriminate|]. split; [exact row_neighbours|].
  split; [now apply row_phased|]. split; [lia|]. split; [intros t b; unfold late; destruct (Nat.eqb t 2); lia|].
  split; [vm_compute; reflexivity|]. split; [vm_compute; reflexivity|]. split; [vm_compute; reflexivity|]. split; [lia|].
  split; [simpl; auto|]. split; [reflexivity|]. split; [discriminate|]. vm_compute. discriminate.
Qed.
