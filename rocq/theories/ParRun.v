(** Whole parallel runs, and the remaining facts about the synchronous runners. *)
From Verif Require Import Prelude Dict Val ValFacts StateModel ResultModel RunnerModel SpecState SpecResult SpecRunner StateFacts ResultFacts RunnerFacts SyncFacts ParFacts.
From Coq Require Import Permutation.

Lemma dset_dmerge_comm {V} (k : key) (v : V) d t : ~ In k (dkeys t) -> In k (dkeys d) ->
  dset k v (dmerge d t) = dmerge (dset k v d) t.
Proof.
  revert d. induction t as [|[k1 v1] t IH]; intros d N I; [reflexivity|]. rewrite !dmerge_cons.
  cbn in N. rewrite IH; [|tauto|apply In_dkeys_dset; now right].
  f_equal. apply dset_comm; [intros ->; tauto|assumption].
Qed.
Lemma dmerge_over {V} (u1 u2 d : dict key V) : dkeys u1 = dkeys u2 -> uniq u1 ->
  dmerge (dmerge d u1) u2 = dmerge d u2.
Proof.
  unfold uniq. revert u2 d. induction u1 as [|[k v1] t1 IH]; intros [|[k2 v2] t2] d E N; try discriminate; [reflexivity|].
  cbn in E. injection E as <- E. inversion N as [|? ? N1 N2]; subst. rewrite !dmerge_cons.
  rewrite dset_dmerge_comm; [|assumption|apply In_dkeys_dset; now left]. rewrite dset_dset. now apply IH.
Qed.

Lemma sstate_ext x y : uniq (s_sites x) -> site_ids x = site_ids y ->
  (forall i, get_site_state x i = get_site_state y i) -> get_general_state x = get_general_state y -> x = y.
Proof.
  intros U I G Ge. assert (E : s_sites x = s_sites y) by (apply dict_ext; auto).
  destruct x, y; cbn in *. unfold get_general_state in Ge; cbn in Ge. congruence.
Qed.

Lemma set_sites_t_over x A B : uniq (s_sites x) -> uniq A -> dkeys A = dkeys B ->
  (forall i, In i (dkeys A) -> In i (site_ids x)) ->
  (forall i a b, In (i, a) A -> In (i, b) B -> dkeys a = dkeys b /\ uniq a) ->
  set_sites_t (set_sites_t x A) B = set_sites_t x B.
Proof.
  intros U UA K Sub Sh. assert (UB : uniq B) by (unfold uniq; now rewrite <- K).
  assert (I1 : site_ids (set_sites_t x A) = site_ids x) by now rewrite site_ids_set_sites_sub.
  apply sstate_ext.
  - change (NoDup (site_ids (set_sites_t (set_sites_t x A) B))). rewrite site_ids_set_sites_sub; rewrite I1; [exact U|].
    intros i I. rewrite <- K in I. auto.
  - rewrite !site_ids_set_sites_sub; auto; rewrite ?I1; intros i I; rewrite <- K in I; auto.
  - intros i. rewrite !get_set_sites_t by assumption. destruct (dget i B) as [b|] eqn:Eb.
    + assert (Ia : exists a, dget i A = Some a).
      { apply dget_key_Some. rewrite K. eapply dget_Some_key, Eb. }
      destruct Ia as [a Ea]. rewrite Ea.
      destruct (Sh i a b) as [Ek Ua]; [now apply dget_In|now apply dget_In|]. f_equal. now apply dmerge_over.
    + assert (Ea : dget i A = None) by (apply dget_None; rewrite K; now apply dget_None). now rewrite Ea.
  - now rewrite !set_sites_t_general.
Qed.

(** The states of a successful serial run. *)
Lemma run_sync_states f init n o : run_sync (pure_controller f) tt init n = Ok o ->
  exists ds st, o_result o = mkR init ds [] /\ length ds = Z.to_nat n /\ st 0%nat = init /\ o_output o = st (length ds) /\
    (forall t, (t < length ds)%nat -> exists u, nth_error ds t = Some u /\
       (exists c, take_step (pure_controller f) (st t) tt = Ok (u, c)) /\ batch_update (st t) u = Ok (st (S t))) /\
    (forall t, (t <= length ds)%nat -> replay init ds t = Ok (st t)).
Proof.
  intros R. apply run_sync_Ok in R as (ds & Er & L & RP & St).
  exists ds, (fun t => match replay init ds t with Ok s => s | Err _ => init end).
  assert (A : forall t, (t <= length ds)%nat -> replay init ds t = Ok (match replay init ds t with Ok s => s | Err _ => init end)).
  { intros t Lt. destruct t as [|t]; [reflexivity|].
    destruct (nth_error ds t) as [d|] eqn:Ed; [|apply nth_error_None in Ed; lia].
    destruct (St t d Ed) as (s & c1 & c2 & s' & _ & _ & _ & E). now rewrite E. }
  split; [exact Er|]. split; [exact L|]. split; [reflexivity|]. split; [|split].
  - rewrite replay_all, RP. reflexivity.
  - intros t Lt. destruct (nth_error ds t) as [d|] eqn:Ed; [|apply nth_error_None in Ed; lia].
    destruct (St t d Ed) as (s & c1 & c2 & s' & E1 & E2 & E3 & E4). destruct c1. exists d. rewrite E1, E4. eauto.
  - exact A.
Qed.

Section Runs.
  Variables (f : key -> sstate -> res val).
  Hypothesis Own : own_fun f.

  Lemma run_parallel_ok p sched init n ds st :
    swf init -> site_ids init <> [] -> 1 <= p -> length ds = Z.to_nat n -> st 0%nat = init ->
    (forall t, (t < length ds)%nat -> exists u, nth_error ds t = Some u /\
       (exists c, take_step (pure_controller f) (st t) tt = Ok (u, c)) /\ batch_update (st t) u = Ok (st (S t))) ->
    (forall c batches, chunk_size_of (size init) p = Ok c -> site_batches c (site_ids init) = Ok batches ->
       catches_up f init ds st batches sched) ->
    exists o', run_parallel (pure_controller f) p sched tt init n = Ok o' /\
      rlen (o_result o') = Z.of_nat (length ds) + 1 /\
      (forall t, (t <= length ds)%nat -> get_step (o_result o') (Z.of_nat t) = Ok (st t)).
  Proof.
    intros W NE P L S0 Ser CU.
    destruct (C18_lemma p (site_ids init) P NE) as (c & batches & Ec & Eb & Cov & _ & _).
    change (Z.of_nat (length (site_ids init))) with (size init) in Ec.
    unfold run_parallel. cbn [c_pre_run pure_controller bind]. rewrite Ec. cbn [bind].
    destruct (p <? 1) eqn:Ep; [lia|]. rewrite <- L.
    destruct (par_loop_ok f Own init ds st W S0 Ser c batches sched Eb Cov (CU c batches Ec Eb) (length ds) 0%nat (VDict []) []
                (fun _ => (init, tt))) as (ds' & E & L' & N').
    { lia. } { reflexivity. } { intros w. cbn. now rewrite S0. }
    change (Z.to_nat n) with (Z.to_nat n) in *. rewrite E. cbn [bind app]. eexists. split; [reflexivity|].
    cbn [o_result]. unfold rlen. cbn [r_diffs]. split; [lia|].
    intros t Lt. rewrite get_step_fresh by lia.
    apply (par_replay f Own init ds st W S0 Ser sched ds'); auto.
  Qed.

  Lemma fair_catches init ds st batches sched : swf init -> st 0%nat = init ->
    (forall t, (t < length ds)%nat -> exists u, nth_error ds t = Some u /\
       (exists c, take_step (pure_controller f) (st t) tt = Ok (u, c)) /\ batch_update (st t) u = Ok (st (S t))) ->
    keeps_up (length batches) sched -> catches_up f init ds st batches sched.
  Proof.
    intros W S0 Ser KU t b last Lt Lb SO. destruct t as [|t].
    - cbn in SO. subst last. cbn. reflexivity.
    - cbn [idx]. destruct (KU (S t) b Lb t ltac:(lia)) as (b' & Lb' & Eb').
      assert (Us : used batches sched t (sched (S t) b) = true).
      { apply existsb_exists. exists b'. split; [apply in_seq; lia|]. now apply Nat.eqb_eq. }
      rewrite Us. destruct (st_wf f Own init ds st W S0 Ser t) as [Wt It]; [lia|].
      rewrite (sent_same f Own init ds st W t); [|lia|apply Wt|exact It|exact SO].
      apply (st_step f Own init ds st W S0 Ser). lia.
  Qed.
End Runs.

Lemma stable_own f : stable_fun f -> own_fun f.
Proof.
  intros St id s v E. destruct (St id) as (ks & H). destruct (H s v E) as (u & N & M & U & _).
  exists u. split; [right; auto|assumption].
Qed.

Section Stable.
  Variables (f : key -> sstate -> res val).
  Hypothesis Stb : stable_fun f.
  Let Own := stable_own f Stb.

  Lemma stable_sites s ids : (forall id, In id ids -> exists v, f id s = Ok v) ->
    exists sites, flat_map (fs f s) ids = vsites sites /\ dkeys sites = ids /\
      forall i u, In (i, u) sites -> uniq u /\ forall s' v', f i s' = Ok v' -> forall u', means i v' [(i, VDict u')] [] -> dkeys u' = dkeys u.
  Proof.
    induction ids as [|id ids IH]; intros A; [exists []; repeat split; contradiction|].
    destruct IH as (sites & E & K & U); [intros; apply A; now right|].
    destruct (A id) as [v Ev]; [now left|]. destruct (Stb id) as (ks & H). destruct (H s v Ev) as (u & N & M & Uu & Ku).
    exists ((id, u) :: sites). cbn. rewrite E. unfold fs at 1. rewrite Ev, (means_ans_sites _ _ _ _ M). cbn.
    split; [reflexivity|]. split; [f_equal; exact K|].
    intros i w [J|J]; [|eauto]. injection J as <- <-. split; [assumption|].
    intros s' v' E' u' M'. destruct (H s' v' E') as (u2 & _ & M2 & _ & K2).
    apply means_ans_sites in M2. apply means_ans_sites in M'. rewrite M2 in M'. injection M' as <-. congruence.
  Qed.

  Lemma stable_keys s ids i u : (forall id, In id ids -> exists v, f id s = Ok v) ->
    In (i, VDict u) (flat_map (fs f s) ids) -> exists v, f i s = Ok v /\ means i v [(i, VDict u)] [].
  Proof.
    intros A I. apply in_flat_map in I as (id & I & J). destruct (A id I) as [v Ev].
    destruct (fs_own f Own s id v Ev) as [[_ E]|[_ (u' & E & _ & M)]]; rewrite E in J; [destruct J|].
    destruct J as [J|[]]. injection J as <- <-. eauto.
  Qed.

  Lemma stable_catches init ds st batches sched : swf init -> st 0%nat = init ->
    (forall t, (t < length ds)%nat -> exists u, nth_error ds t = Some u /\
       (exists c, take_step (pure_controller f) (st t) tt = Ok (u, c)) /\ batch_update (st t) u = Ok (st (S t))) ->
    catches_up f init ds st batches sched.
  Proof.
    intros W S0 Ser t b last Lt Lb SO. destruct t as [|t].
    - cbn in SO. subst last. cbn. reflexivity.
    - assert (Ix : forall w t, (idx batches sched w (S t) <= t)%nat).
      { intros w. induction t0 as [|t0 IH]; cbn [idx] in *; [destruct (used _ _ _ _); lia|].
        destruct (used batches sched (S t0) w); [lia|]. cbn [idx] in IH. lia. }
      specialize (Ix (sched (S t) b) t). set (j := idx batches sched (sched (S t) b) (S t)) in *.
      destruct (st_wf f Own init ds st W S0 Ser j) as [Wj Ij]; [lia|].
      rewrite (sent_same f Own init ds st W t); [|lia|apply Wj|exact Ij|exact SO].
      destruct (st_step f Own init ds st W S0 Ser t) as (_ & Et & _); [lia|].
      rewrite <- Et. pose proof (st_answers f Own init ds st W S0 Ser t ltac:(lia)) as At.
      destruct (stable_sites (st t) (site_ids init) At) as (B & EB & KB & UB). rewrite EB, !batch_sites_full. f_equal.
      clear SO last Et. revert Ix. generalize j. clear j Wj Ij.
      intros j Ix.
      assert (Q : forall d k, (k + d = t)%nat -> set_sites_t (st k) B = set_sites_t (st t) B); [|apply (Q (t - j)%nat); lia].
      induction d as [|d IH]; intros k Ek; [replace k with t by lia; reflexivity|].
      rewrite <- (IH (S k)) by lia.
      destruct (st_step f Own init ds st W S0 Ser k) as (_ & Ek' & _); [lia|].
      pose proof (st_answers f Own init ds st W S0 Ser k ltac:(lia)) as Ak.
      destruct (stable_sites (st k) (site_ids init) Ak) as (A & EA & KA & UA). rewrite EA, batch_sites_full in Ek'.
      injection Ek' as <-. destruct (st_wf f Own init ds st W S0 Ser k) as [Wk Ik]; [lia|].
      symmetry. apply set_sites_t_over.
      + apply Wk.
      + unfold uniq. rewrite KA. now apply swf_ids.
      + congruence.
      + intros i I. rewrite Ik, <- KA. exact I.
      + intros i a b0 Ia Ib. destruct (UA i a Ia) as [Ua Ha]. split; [|assumption].
        destruct (stable_keys (st t) (site_ids init) i b0 At) as (v & Ev & M).
        { rewrite EB. apply In_vsites. eauto. }
        symmetry. eapply Ha; eassumption.
  Qed.
End Stable.

(** ** C17 *)
Lemma C17_fair_lemma : forall (f : key -> sstate -> res val) p sched init n o,
  own_fun f -> swf init -> site_ids init <> [] -> 1 <= p ->
  (forall c batches, chunk_size_of (size init) p = Ok c -> site_batches c (site_ids init) = Ok batches -> keeps_up (length batches) sched) ->
  run_sync (pure_controller f) tt init n = Ok o ->
  exists o', run_parallel (pure_controller f) p sched tt init n = Ok o' /\
    rlen (o_result o') = rlen (o_result o) /\
    forall t, 0 <= t < rlen (o_result o) -> get_step (o_result o') t = get_step (o_result o) t /\ is_ok (get_step (o_result o) t).
Proof.
  intros f p sched init n o Own W NE P KU R. apply run_sync_states in R as (ds & st & Er & L & S0 & _ & Ser & Rp).
  destruct (run_parallel_ok f Own p sched init n ds st W NE P L S0 Ser) as (o' & E & Le & G).
  { intros c batches Ec Eb. apply (fair_catches f Own); eauto. }
  exists o'. rewrite Er. unfold rlen at 2 3. cbn [r_diffs]. split; [exact E|]. split; [exact Le|].
  intros t Rt. assert (Et : t = Z.of_nat (Z.to_nat t)) by lia. rewrite Et, G by lia.
  rewrite get_step_fresh, Rp by lia. split; [reflexivity|now eexists].
Qed.

Lemma C17_stable_lemma : forall (f : key -> sstate -> res val) p sched init n o,
  stable_fun f -> swf init -> site_ids init <> [] -> 1 <= p ->
  run_sync (pure_controller f) tt init n = Ok o ->
  exists o', run_parallel (pure_controller f) p sched tt init n = Ok o' /\
    rlen (o_result o') = rlen (o_result o) /\
    forall t, 0 <= t < rlen (o_result o) -> get_step (o_result o') t = get_step (o_result o) t /\ is_ok (get_step (o_result o) t).
Proof.
  intros f p sched init n o Stb W NE P R. apply run_sync_states in R as (ds & st & Er & L & S0 & _ & Ser & Rp).
  destruct (run_parallel_ok f (stable_own f Stb) p sched init n ds st W NE P L S0 Ser) as (o' & E & Le & G).
  { intros c batches Ec Eb. apply (stable_catches f Stb); eauto. }
  exists o'. rewrite Er. unfold rlen at 2 3. cbn [r_diffs]. split; [exact E|]. split; [exact Le|].
  intros t Rt. assert (Et : t = Z.of_nat (Z.to_nat t)) by lia. rewrite Et, G by lia.
  rewrite get_step_fresh, Rp by lia. split; [reflexivity|now eexists].
Qed.
