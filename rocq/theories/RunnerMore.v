(** Further facts about the runners. *)
From Verif Require Import Prelude Dict Val ValFacts StateModel ResultModel RunnerModel JsonModel SpecState SpecResult SpecRunner StateFacts ResultFacts JsonFacts RunnerFacts SyncFacts ParFacts ParRun.
From Coq Require Import Permutation.

(** ** The vocabulary of answers against the model *)
Lemma val_key_names v k : val_key v = Ok k <-> names v k.
Proof.
  unfold names. split.
  - destruct v; cbn; intros E; try discriminate; injection E as <-; eauto.
  - intros [->|(b & -> & ->)]; [now destruct k|reflexivity].
Qed.
Lemma mapM_names l ks : mapM val_key l = Ok ks <-> Forall2 names l ks.
Proof.
  rewrite mapM_Forall2. split; intros F; induction F; constructor; auto; now apply val_key_names.
Qed.
Lemma extend_requests nx ks : extend_arg nx = Ok ks <-> requests nx ks.
Proof.
  unfold requests. split.
  - destruct nx; cbn; intros E; try discriminate.
    + left. eexists. split; [eauto|]. now apply mapM_names.
    + left. eexists. split; [eauto|]. now apply mapM_names.
    + right. injection E as <-. eauto.
  - intros [(l & [->| ->] & F)|(d & -> & ->)]; cbn; [now apply mapM_names|now apply mapM_names|reflexivity].
Qed.
Lemma add_sites_offers {C} (ctl : controller C) s c ks c' :
  add_sites ctl s [] c = Ok (ks, c') <-> exists v, c_random_site ctl c s = Ok (v, c') /\ offers v ks.
Proof.
  unfold add_sites. split.
  - intros E. apply bind_Ok in E as ([v c1] & E1 & E). destruct v; cbn in E;
    try (injection E as <- <-; eexists; split; [exact E1|constructor; discriminate]);
    try (injection E as <- <-; eexists; split; [exact E1|constructor]).
    apply bind_Ok in E as (l' & E2 & E). injection E as <- <-. eexists. split; [exact E1|].
    constructor. now apply mapM_names.
  - intros (v & E & O). rewrite E. cbn [bind]. inversion O as [| |l ks' F|v' N1 N2 N3]; subst; try reflexivity.
    + apply mapM_names in F. rewrite F. reflexivity.
    + destruct v; try reflexivity; exfalso; [now apply (N2 b)|now apply (N1 z)|now apply (N3 l)].
Qed.

(** ** C13: order of visits, number of steps *)
Lemma C13_lemma' : forall (C : Type) (ctl : controller C) (c0 : C) (init : sstate) (n : Z) o,
  run_async ctl c0 init n = Ok o ->
  exists c1 v q c2 (evs : list (key * list key * list key)) rest,
    c_pre_run ctl c0 init = Ok c1 /\ c_random_site ctl c1 init = Ok (v, c2) /\ offers v q /\ q <> [] /\
    Z.of_nat (length evs) = rlen (o_result o) - 1 /\
    map (fun e => fst (fst e)) evs ++ rest = q ++ flat_map (fun e => snd (fst e) ++ snd e) evs /\
    (forall t site next rand, nth_error evs t = Some (site, next, rand) ->
       exists s s' c c' resp ups nx p,
         get_step (o_result o) (Z.of_nat t) = Ok s /\ get_step (o_result o) (Z.of_nat t + 1) = Ok s' /\
         c_update ctl c site s = Ok (resp, c') /\ answer_of resp ups nx /\ requests nx next /\
         map (fun e => fst (fst e)) (firstn (S t) evs) ++ p =
           q ++ flat_map (fun e => snd (fst e) ++ snd e) (firstn t evs) ++ next /\
         ((p <> [] /\ rand = []) \/
          (p = [] /\ exists v' c'', c_random_site ctl c' s' = Ok (v', c'') /\ offers v' rand))) /\
    rlen (o_result o) - 1 <= Z.max 0 n /\
    (rlen (o_result o) - 1 < n -> rest = []).
Proof.
  intros C ctl c0 init n o R. apply run_async_Ok in R as (c1 & q & c2 & es & ds & a & E1 & E2 & NQ & Ch & L1 & L2 & Er & Eo).
  destruct (chain_diffs _ _ _ _ _ Ch) as [_ Len]. apply add_sites_offers in E2 as (v & E2 & Of).
  exists c1, v, q, c2, (map (fun e => (e_site e, e_next e, e_rand e)) es), (a_queue a).
  rewrite Er. unfold rlen. cbn [r_diffs].
  assert (FM : forall es', flat_map (fun e => snd (fst e) ++ snd e) (map (fun e => (e_site e, e_next e, e_rand e)) es') = flat_map ev_requests es').
  { intros es'. rewrite !flat_map_concat_map, map_map. reflexivity. }
  split; [exact E1|]. split; [exact E2|]. split; [exact Of|]. split; [exact NQ|]. split; [rewrite map_length; lia|].
  split; [|split; [|split]].
  - pose proof (chain_fifo _ _ _ _ _ Ch) as F. cbn in F. rewrite map_map, FM. exact F.
  - intros t site next rand Ht. rewrite nth_error_map in Ht. destruct (nth_error es t) as [e0|] eqn:Ee; [|discriminate].
    cbn in Ht. injection Ht as <- <- <-.
    assert (t < length es)%nat by (apply nth_error_Some; congruence).
    destruct (nth_error ds t) as [d|] eqn:Ed; [|apply nth_error_None in Ed; lia].
    destruct (chain_split _ _ _ _ _ _ _ _ Ch Ee Ed) as (a1 & a2 & Ch1 & St).
    pose proof (chain_replay _ _ _ _ _ Ch1) as RP1. cbn in RP1.
    pose proof (chain_fifo _ _ _ _ _ Ch1) as Ff. cbn in Ff.
    destruct St as (q1 & resp & c1' & ups & nx & S & G & Q & U & Sp & NN & M & D & B & X & _ & RR).
    exists (a_live a1), (a_live a2), (a_ctl a1), c1', resp, ups, nx, (q1 ++ e_next e0).
    split; [rewrite get_step_fresh by lia; exact RP1|].
    split.
    { replace (Z.of_nat t + 1) with (Z.of_nat (Datatypes.S t)) by lia. rewrite get_step_fresh by lia.
      rewrite (replay_S _ _ _ _ Ed). unfold replay. rewrite RP1. exact B. }
    split; [exact U|]. split; [now apply split_answer|]. split; [now apply extend_requests|]. split.
    + rewrite !firstn_map, map_map, FM. cbn [fst].
      assert (Fs : firstn (Datatypes.S t) es = firstn t es ++ [e0]).
      { clear -Ee. revert t Ee. induction es as [|x l IH]; intros [|t] Ee; cbn in *; try discriminate.
        - now injection Ee as ->.
        - now rewrite IH. }
      rewrite Fs, map_app. cbn [map]. rewrite Q in Ff.
      rewrite (app_assoc q), <- Ff. rewrite <- !app_assoc. reflexivity.
    + destruct RR as [(Np & R & _)|(Np & Q' & AS)]; [left; auto|right].
      split; [exact Np|]. apply add_sites_offers in AS as (v' & AS & O'). exists v', (a_ctl a2). auto.
  - lia.
  - intros L. apply L2. lia.
Qed.

Lemma C13_no_site_lemma' : forall (C : Type) (ctl : controller C) (c0 c1 c2 : C) (init : sstate) (n : Z) v,
  c_pre_run ctl c0 init = Ok c1 -> c_random_site ctl c1 init = Ok (v, c2) -> offers v [] ->
  run_async ctl c0 init n = Err RuntimeError.
Proof.
  intros C ctl c0 c1 c2 init n v E1 E2 O. apply (C13_no_site_lemma C ctl c0 c1 c2); [assumption|].
  apply add_sites_offers. eauto.
Qed.

(** A controller whose answers are always well-shaped. *)
Lemma C13_total_lemma : forall (C : Type) (ctl : controller C) (c0 : C) (init : sstate) (n : Z),
  0 <= n ->
  (forall c s, exists c', c_pre_run ctl c s = Ok c') ->
  (forall c s, exists v c' ks, c_random_site ctl c s = Ok (v, c') /\ offers v ks /\ ks <> []) ->
  (forall c id s, exists resp c' ups nx ks S G, c_update ctl c id s = Ok (resp, c') /\ answer_of resp ups nx /\
     requests nx ks /\ ups <> VNone /\ means id ups S G /\ upd_wf S G) ->
  exists o, run_async ctl c0 init n = Ok o /\ rlen (o_result o) = n + 1.
Proof.
  intros C ctl c0 init n N HP HR HU. unfold run_async. destruct (HP c0 init) as [c1 E1]. rewrite E1. cbn [bind].
  destruct (HR c1 init) as (v & c2 & ks & E2 & O & NE).
  assert (E2' : add_sites ctl init [] c1 = Ok (ks, c2)) by (apply add_sites_offers; eauto).
  rewrite E2'. cbn [bind]. destruct ks as [|k0 ks]; [congruence|].
  assert (K : forall m a, a_queue a <> [] -> exists a', async_loop ctl m a = Ok a' /\ length (a_diffs a') = (length (a_diffs a) + m)%nat).
  { induction m as [|m IH]; intros a Q; cbn [async_loop]; [exists a; split; [reflexivity|lia]|].
    unfold async_step. destruct (a_queue a) as [|site q1]; [congruence|].
    destruct (HU (a_ctl a) site (a_live a)) as (resp & c' & ups & nx & ks' & S & G & Eu & An & Rq & NN & M & WF).
    rewrite Eu. cbn [bind]. apply split_answer in An. rewrite An. cbn [bind].
    destruct ups as [| | | | | | |u]; try congruence; try (inversion M; fail).
    pose proof (merge_means_dict u S G None site M) as Em. cbn [canon] in Em. rewrite Em. cbn [bind csites cgen].
    destruct WF as (US & UG & UV).
    destruct (means_dmerge_nil _ _ _ _ US UG M) as [-> ->].
    destruct (vdicts_vsites S) as [sites ->]; [intros i w I; destruct (UV i w I) as (u' & -> & _); eauto|].
    rewrite batch_full_update, set_sites_vsites. cbn [bind].
    apply extend_requests in Rq. rewrite Rq. cbn [bind].
    set (live := set_general_state _ _).
    destruct (q1 ++ ks') as [|k1 q2] eqn:Q2.
    - destruct (HR c' live) as (v' & c3 & ks3 & E3 & O3 & NE3).
      assert (E3' : add_sites ctl live [] c' = Ok (ks3, c3)) by (apply add_sites_offers; eauto).
      rewrite E3'. cbn [bind a_queue]. destruct ks3 as [|k3 ks3]; [congruence|].
      destruct (IH (mkA live (a_diffs a ++ [full_update (vsites sites) G]) (k3 :: ks3) c3)) as (a' & Ea & La); [discriminate|].
      exists a'. split; [exact Ea|]. rewrite La. cbn [a_diffs]. rewrite app_length. cbn. lia.
    - cbn [bind a_queue].
      destruct (IH (mkA live (a_diffs a ++ [full_update (vsites sites) G]) (k1 :: q2) c')) as (a' & Ea & La); [discriminate|].
      exists a'. split; [exact Ea|]. rewrite La. cbn [a_diffs]. rewrite app_length. cbn. lia. }
  destruct (K (Z.to_nat n) (mkA init [] (k0 :: ks) c2)) as (a' & Ea & La); [discriminate|].
  rewrite Ea. cbn [bind]. eexists. split; [reflexivity|]. unfold rlen. cbn [o_result r_diffs].
  rewrite La. cbn. lia.
Qed.

(** ** C14 *)
Lemma C14_lemma' : forall (C : Type) (ctl : controller C) (c0 : C) (init : sstate) (n : Z) o (A : Type) (Q : sstate -> A),
  proper ctl -> run_async ctl c0 init n = Ok o ->
  (forall c site s resp c' ups nx S G s',
     c_update ctl c site s = Ok (resp, c') -> answer_of resp ups nx -> means site ups S G ->
     updated s S G s' -> Q s' = Q s) ->
  forall t s, 0 <= t < rlen (o_result o) -> get_step (o_result o) t = Ok s -> Q s = Q init.
Proof.
  intros C ctl c0 init n o A Q P R Cons. apply (C14_lemma C ctl c0 init n o A Q R).
  intros c site s resp c' ups nx u s' Eu Sp Em B.
  pose proof Sp as An. apply split_answer in An.
  destruct (merge_Ok_cases ups None site u Em) as [[-> ->]|(S & G & NN & M & ->)]; [discriminate|].
  destruct (P _ _ _ _ _ _ _ _ _ Eu An M) as (US & UG & UU).
  destruct (means_dmerge_nil _ _ _ _ US UG M) as [EqS EqG].
  cbn [csites cgen canon] in B. rewrite EqS, EqG in B.
  eapply Cons; try eassumption. now apply batch_full_updated.
Qed.

(** ** C15: order independence *)
Lemma same_content_ids s1 s2 : uniq (s_sites s1) -> uniq (s_sites s2) -> same_content s1 s2 ->
  Permutation (site_ids s1) (site_ids s2).
Proof.
  intros U1 U2 [G _]. apply NoDup_Permutation; [exact U1|exact U2|].
  intros i. unfold site_ids. split; intros I; apply dget_key_Some in I as [d E]; apply dget_key_Some; exists d.
  - specialize (G i). unfold get_site_state in G. now rewrite <- G.
  - specialize (G i). unfold get_site_state in G. now rewrite G.
Qed.

Lemma flat_map_perm {A B} (g : A -> list B) l1 l2 : Permutation l1 l2 -> Permutation (flat_map g l1) (flat_map g l2).
Proof.
  induction 1 as [|x l1 l2 P IH|x y l|l1 l2 l3 P1 IH1 P2 IH2]; cbn.
  - constructor.
  - now apply Permutation_app_head.
  - rewrite !app_assoc. apply Permutation_app_tail, Permutation_app_comm.
  - etransitivity; eassumption.
Qed.

Lemma sync_step_same f s1 s2 b c s1' : own_fun f -> order_blind f -> swf s1 -> swf s2 -> same_content s1 s2 ->
  take_step (pure_controller f) s1 tt = Ok (b, c) -> batch_update s1 b = Ok s1' ->
  exists b2 s2', take_step (pure_controller f) s2 tt = Ok (b2, tt) /\ batch_update s2 b2 = Ok s2' /\ same_content s1' s2' /\
    swf s1' /\ swf s2'.
Proof.
  intros Own OB W1 W2 SC T B. unfold take_step in *.
  pose proof (step_batch_answers f s1 (site_ids s1) b c T) as A1.
  pose proof (same_content_ids s1 s2 (proj1 W1) (proj1 W2) SC) as P.
  assert (A2 : forall id, In id (site_ids s2) -> exists v, f id s2 = Ok v).
  { intros id I. destruct (A1 id) as [v E]; [eapply Permutation_in; [apply Permutation_sym, P|exact I]|].
    exists v. now rewrite <- (OB id s1 s2 SC). }
  destruct (step_batch_fs f Own s1 (site_ids s1) (swf_ids s1 W1) A1) as (o1 & E1 & F1 & G1 & N1).
  destruct (step_batch_fs f Own s2 (site_ids s2) (swf_ids s2 W2) A2) as (o2 & E2 & F2 & G2 & N2).
  rewrite E1 in T. injection T as <- <-.
  destruct o1 as [[S1 Ge1]|]; [|discriminate]. cbn [csites cgen] in F1, G1. subst S1 Ge1.
  destruct o2 as [[S2 Ge2]|].
  2:{ exfalso. assert (X : Some (flat_map (fs f s1) (site_ids s1), @nil (key * val)) = None); [|discriminate].
      apply N1. intros id I. rewrite (OB id s1 s2 SC). apply (proj1 N2 eq_refl). eapply Permutation_in; eassumption. }
  cbn [csites cgen] in F2, G2. subst S2 Ge2. cbn [canon] in *.
  destruct (flat_fs_vsites f Own s1 (site_ids s1)) as (sites1 & Es1 & U1).
  assert (Efs : flat_map (fs f s2) (site_ids s2) = flat_map (fs f s1) (site_ids s2)).
  { apply flat_map_ext. intros id. unfold fs. now rewrite (OB id s1 s2 SC). }
  pose proof (flat_map_perm (fs f s1) _ _ P) as PS. rewrite <- Efs, Es1 in PS. apply Permutation_sym in PS.
  destruct (perm_vsites _ _ PS) as (sites2 & Es2 & PS2).
  pose proof (flat_fs_uniq f Own s1 (site_ids s1) (swf_ids s1 W1)) as Uq1. rewrite Es1, uniq_vsites in Uq1.
  assert (Uq2 : uniq sites2) by (eapply Permutation_NoDup; [apply Permutation_map, Permutation_sym, PS2|exact Uq1]).
  assert (U2 : forall i u, In (i, u) sites2 -> uniq u).
  { intros i u I. eapply U1. eapply Permutation_in; eassumption. }
  rewrite Es1, batch_sites_full in B. injection B as <-.
  exists (full_update (vsites sites2) []), (set_sites_t s2 sites2).
  split; [rewrite E2, Es2; reflexivity|]. split; [apply batch_sites_full|].
  split; [|split; now apply swf_set_sites_t].
  destruct SC as [SG SGe]. split.
  - intros i. rewrite !get_set_sites_t by assumption. rewrite SG.
    assert (D : dget i sites1 = dget i sites2); [|now rewrite D].
    destruct (dget i sites1) as [u|] eqn:E.
    + apply dget_In in E. symmetry. apply In_dget; [assumption|]. eapply Permutation_in; [apply Permutation_sym, PS2|exact E].
    + symmetry. apply dget_None. apply dget_None in E. intros I. apply E.
      eapply Permutation_in; [|exact I]. now apply Permutation_map.
  - now rewrite !set_sites_t_general.
Qed.

Lemma C15_order_lemma : forall (f : key -> sstate -> res val) (s1 s2 : sstate) (n : Z) o1,
  own_fun f -> order_blind f -> swf s1 -> swf s2 -> same_content s1 s2 ->
  run_sync (pure_controller f) tt s1 n = Ok o1 ->
  exists o2, run_sync (pure_controller f) tt s2 n = Ok o2 /\ rlen (o_result o2) = rlen (o_result o1) /\
    forall t, 0 <= t < rlen (o_result o1) -> exists x1 x2,
      get_step (o_result o1) t = Ok x1 /\ get_step (o_result o2) t = Ok x2 /\ same_content x1 x2.
Proof.
  intros f s1 s2 n o1 Own OB W1 W2 SC R. unfold run_sync in *. cbn [c_pre_run pure_controller bind] in *.
  assert (K : forall m x1 x2 d1 d2 x1' d1' c, swf x1 -> swf x2 -> same_content x1 x2 ->
    sync_loop (pure_controller f) m x1 d1 tt = Ok (x1', d1', c) ->
    exists ds1 ds2 x2', d1' = d1 ++ ds1 /\ sync_loop (pure_controller f) m x2 d2 tt = Ok (x2', d2 ++ ds2, tt) /\
      length ds1 = m /\ length ds2 = m /\
      forall t, (t <= m)%nat -> exists y1 y2, replay x1 ds1 t = Ok y1 /\ replay x2 ds2 t = Ok y2 /\ same_content y1 y2).
  { induction m as [|m IH]; intros x1 x2 d1 d2 x1' d1' c V1 V2 Sc L; cbn [sync_loop] in *.
    - injection L as <- <- <-. exists [], [], x2. rewrite !app_nil_r. repeat split; auto.
      intros t Lt. exists x1, x2. replace t with 0%nat by lia. cbn. auto.
    - apply bind_Ok in L as ([b c1] & E1 & L). apply bind_Ok in L as (y1 & E2 & L).
      destruct (sync_step_same f x1 x2 b c1 y1 Own OB V1 V2 Sc E1 E2) as (b2 & y2 & E3 & E4 & Sc' & V1' & V2').
      destruct c1. destruct (IH y1 y2 (d1 ++ [b]) (d2 ++ [b2]) x1' d1' c V1' V2' Sc' L) as (ds1 & ds2 & x2' & -> & L2 & Le1 & Le2 & H).
      exists (b :: ds1), (b2 :: ds2), x2'. rewrite E3. cbn [bind]. rewrite E4. cbn [bind]. rewrite L2, <- !app_assoc.
      split; [reflexivity|]. split; [reflexivity|]. split; [cbn; lia|]. split; [cbn; lia|].
      intros [|t] Lt; [exists x1, x2; cbn; auto|]. unfold replay. cbn [firstn foldM]. rewrite E2, E4. cbn [bind]. apply H. lia. }
  apply bind_Ok in R as ([[x1' d1'] c] & L & R). injection R as <-.
  destruct (K _ s1 s2 [] [] x1' d1' c W1 W2 SC L) as (ds1 & ds2 & x2' & -> & L2 & Le1 & Le2 & H).
  rewrite L2. cbn [bind app]. eexists. split; [reflexivity|]. unfold rlen. cbn [o_result r_diffs app].
  split; [lia|]. intros t Rt. destruct (H (Z.to_nat t)) as (y1 & y2 & A & B & D); [lia|].
  exists y1, y2. assert (Et : t = Z.of_nat (Z.to_nat t)) by lia. rewrite Et, !get_step_fresh by lia. auto.
Qed.

(** ** C16 *)
Lemma C16_sync_lemma : forall (C : Type) (ctl : controller C) (c0 : C) (init : sstate) (n : Z) o,
  run_sync ctl c0 init n = Ok o -> last_step (o_result o) = Ok (o_output o).
Proof.
  intros C ctl c0 init n o R. apply run_sync_Ok in R as (ds & Er & L & RP & _). rewrite Er.
  unfold last_step, rlen. cbn [r_diffs]. replace (Z.of_nat (length ds) + 1 - 1) with (Z.of_nat (length ds)) by lia.
  rewrite get_step_fresh by lia. now rewrite replay_all.
Qed.
Lemma C16_async_lemma : forall (C : Type) (ctl : controller C) (c0 : C) (init : sstate) (n : Z) o,
  run_async ctl c0 init n = Ok o -> last_step (o_result o) = Ok (o_output o).
Proof.
  intros C ctl c0 init n o R. apply run_async_Ok in R as (c1 & q & c2 & es & ds & a & E1 & E2 & NQ & Ch & L1 & L2 & Er & Eo).
  rewrite Er, Eo. pose proof (chain_replay _ _ _ _ _ Ch) as RP. cbn in RP.
  unfold last_step, rlen. cbn [r_diffs]. replace (Z.of_nat (length ds) + 1 - 1) with (Z.of_nat (length ds)) by lia.
  rewrite get_step_fresh by lia. now rewrite replay_all.
Qed.
Lemma C16_parallel_lemma : forall (C : Type) (ctl : controller C) p sched (c0 : C) (init : sstate) (n : Z) o,
  run_parallel ctl p sched c0 init n = Ok o -> o_output o = init.
Proof.
  intros C ctl p sched c0 init n o R. unfold run_parallel in R.
  apply bind_Ok in R as (c1 & _ & R). apply bind_Ok in R as (ch & _ & R). destruct (p <? 1); [discriminate|].
  apply bind_Ok in R as (ds & _ & R). injection R as <-. reflexivity.
Qed.

(** Small concrete worlds used as witnesses. *)
Definition st2 : sstate := mkS [(KInt 0, [(SITE_ID, VInt 0); (KStr "v", VInt 0)]); (KInt 1, [(SITE_ID, VInt 1); (KStr "w", VInt 0)])] [].
Lemma swf_st2 : swf st2.
Proof.
  split; [|split]; [repeat constructor; cbn; intuition discriminate| |constructor].
  intros i d. unfold get_site_state, st2. cbn [s_sites dget].
  destruct (eqb i (KInt 0)); [intros E; injection E as <-; repeat constructor; cbn; intuition discriminate|].
  destruct (eqb i (KInt 1)); [intros E; injection E as <-; repeat constructor; cbn; intuition discriminate|]. discriminate.
Qed.

Lemma own_single id k v : own_answer id (VDict [(KStr k, v)]) [(KStr k, v)] \/ k = "SITES"%string \/ k = "GENERAL"%string.
Proof.
  destruct (string_dec k "SITES") as [->|N1]; [now right; left|]. destruct (string_dec k "GENERAL") as [->|N2]; [now right; right|].
  left. right. split; [discriminate|]. apply means_site.
  - split; cbn [dget]; rewrite eqb_neq; auto; unfold SITES, GENERAL; congruence.
  - intros [_ F]. destruct (F (KStr k)) as [z E]; [now left|discriminate].
Qed.
Lemma own_empty id : own_answer id (VDict []) [].
Proof.
  right. split; [discriminate|]. apply means_site; [split; reflexivity|]. intros [F _]. congruence.
Qed.

(** Rule: site 0 writes v=1 once; site 1 copies site 0's v. *)
Definition lag_rule (id : key) (s : sstate) : res val :=
  let v := match site_entry s (KInt 0) (KStr "v") with Some x => x | None => VNone end in
  if eqb id (KInt 0) then Ok (VDict (if val_eqb v (VInt 1) then [] else [(KStr "v", VInt 1)]))
  else Ok (VDict [(KStr "w", v)]).
Lemma lag_rule_own : own_fun lag_rule.
Proof.
  intros id s v. unfold lag_rule. destruct (eqb id (KInt 0)).
  - destruct (val_eqb _ _); intros E; injection E as <-.
    + exists []. split; [apply own_empty|constructor].
    + destruct (own_single id "v" (VInt 1)) as [O|[E|E]]; try discriminate. eexists. split; [exact O|]. repeat constructor. tauto.
  - intros E. injection E as <-. match goal with |- context [(KStr "w", ?x)] => destruct (own_single id "w" x) as [O|[E|E]] end; try discriminate.
    eexists. split; [exact O|]. repeat constructor. tauto.
Qed.
Definition lag_sched (t b : nat) : nat := if Nat.ltb t 2 then 0%nat else 1%nat.

Lemma C17_refuted_lemma : exists (f : key -> sstate -> res val) p sched init n o o',
  own_fun f /\ swf init /\ 1 <= p /\ (forall t b, Z.of_nat (sched t b) < p) /\
  run_sync (pure_controller f) tt init n = Ok o /\ run_parallel (pure_controller f) p sched tt init n = Ok o' /\
  exists t s s', 0 <= t < rlen (o_result o) /\ get_step (o_result o) t = Ok s /\ get_step (o_result o') t = Ok s' /\
    site_entry s (KInt 1) (KStr "w") = Some (VInt 1) /\ site_entry s' (KInt 1) (KStr "w") = Some (VInt 0).
Proof.
  exists lag_rule, 2, lag_sched, st2, 3.
  eexists. eexists. split; [exact lag_rule_own|]. split; [exact swf_st2|]. split; [lia|]. split.
  - intros t b. unfold lag_sched. destruct (Nat.ltb t 2); lia.
  - split; [vm_compute; reflexivity|]. split; [vm_compute; reflexivity|].
    exists 3. eexists. eexists. split; [vm_compute; split; congruence|]. split; [vm_compute; reflexivity|]. split; [vm_compute; reflexivity|].
    split; vm_compute; reflexivity.
Qed.

Lemma C16_refuted_lemma : exists (f : key -> sstate -> res val) p sched init n o s,
  own_fun f /\ swf init /\ (forall t b, Z.of_nat (sched t b) < p) /\
  run_parallel (pure_controller f) p sched tt init n = Ok o /\ last_step (o_result o) = Ok s /\
  site_entry s (KInt 0) (KStr "v") = Some (VInt 1) /\ site_entry (o_output o) (KInt 0) (KStr "v") = Some (VInt 0).
Proof.
  exists lag_rule, 2, (fun _ b => if Nat.eqb b 0 then 0%nat else 1%nat), st2, 1. eexists. eexists.
  split; [exact lag_rule_own|]. split; [exact swf_st2|]. split; [intros t b; destruct (Nat.eqb b 0); lia|].
  split; [vm_compute; reflexivity|]. split; [vm_compute; reflexivity|]. split; vm_compute; reflexivity.
Qed.

(** One worker: always like the serial run. *)
Lemma C17_one_worker_lemma : forall (f : key -> sstate -> res val) sched init n o,
  own_fun f -> swf init -> site_ids init <> [] -> (forall t b, (sched t b < 1)%nat) ->
  run_sync (pure_controller f) tt init n = Ok o ->
  exists o', run_parallel (pure_controller f) 1 sched tt init n = Ok o' /\
    rlen (o_result o') = rlen (o_result o) /\
    forall t, 0 <= t < rlen (o_result o) -> get_step (o_result o') t = get_step (o_result o) t /\ is_ok (get_step (o_result o) t).
Proof.
  intros f sched init n o Own W NE SL R. apply (C17_fair_lemma f 1 sched init n o); auto; [lia|].
  intros c batches _ _ t b Lb t' Lt. exists b. split; [assumption|]. pose proof (SL t b). pose proof (SL t' b). lia.
Qed.
