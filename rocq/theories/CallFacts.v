(** Proofs about the calls a run makes to its controller. *)
From Verif Require Import Prelude Dict Val ValFacts StateModel ResultModel RunnerModel SpecState SpecResult SpecRunner SpecCalls StateFacts ResultFacts RunnerFacts SyncFacts ParFacts RunnerMore RunnerShapes ParReload.

Lemma calls_app {C} (ctl : controller C) l1 : forall c l2 c1 c2, calls ctl c l1 c1 -> calls ctl c1 l2 c2 -> calls ctl c (l1 ++ l2) c2.
Proof. intros c l2 c1 c2 H. induction H; intros K; cbn [app]; auto; econstructor; eauto. Qed.

Lemma answers_calls {C} (ctl : controller C) s c ids vs c' : answers ctl s c ids vs c' -> calls ctl c (asked s ids vs) c'.
Proof. induction 1; [constructor|]. unfold asked in *. cbn [combine map fst snd]. econstructor; eauto. Qed.

(** ** Serial runs *)
Lemma sync_loop_calls {C} (ctl : controller C) n : forall live diffs c live' diffs' c',
  sync_loop ctl n live diffs c = Ok (live', diffs', c') ->
  exists ds tr, diffs' = diffs ++ ds /\ length ds = n /\ length tr = n /\ calls ctl c (flat_map (fun sv => asked (fst sv) (site_ids (fst sv)) (snd sv)) tr) c' /\
    forall t s vs, nth_error tr t = Some (s, vs) -> foldM batch_update (firstn t ds) live = Ok s /\ length vs = length (site_ids s) /\
      exists o, folded None (site_ids s) vs o /\ nth_error ds t = Some (canon o).
Proof.
  induction n as [|n IH]; intros live diffs c live' diffs' c' E; cbn in E.
  - injection E as <- <- <-. exists [], []. rewrite app_nil_r. do 3 (split; [reflexivity|]). split; [constructor|]. intros [|t] s vs Ht; discriminate.
  - apply bind_Ok in E as ([u c1] & E1 & E). apply bind_Ok in E as (live1 & E2 & E).
    apply IH in E as (ds & tr & -> & L & L2 & CC & St). apply step_batch_Ok in E1 as (vs & o & A & F & Eu).
    exists (u :: ds), ((live, vs) :: tr). rewrite <- app_assoc. split; [reflexivity|]. split; [cbn; congruence|]. split; [cbn; congruence|]. split.
    + cbn [flat_map fst snd]. apply (calls_app _ _ _ _ c1); [now apply answers_calls|exact CC].
    + intros [|t] s vs' Ht; cbn [nth_error] in Ht.
      * injection Ht as <- <-. split; [reflexivity|]. split; [now apply answers_length in A|]. exists o. split; [exact F|]. cbn. now rewrite Eu.
      * destruct (St t s vs' Ht) as (A1 & A2 & A3). split; [|split; [exact A2|exact A3]]. cbn. rewrite E2. cbn. exact A1.
Qed.

Lemma C109_sync_lemma : forall (C : Type) (ctl : controller C) (c0 : C) (init : sstate) (n : Z) o,
  run_sync ctl c0 init n = Ok o ->
  exists (tr : list (sstate * list val)) c', Z.of_nat (length tr) = Z.max 0 n /\
    calls ctl c0 (CPre init :: flat_map (fun sv => asked (fst sv) (site_ids (fst sv)) (snd sv)) tr) c' /\
    forall t s vs, nth_error tr t = Some (s, vs) -> get_step (o_result o) (Z.of_nat t) = Ok s /\ length vs = length (site_ids s) /\
      (own_rule ctl -> swf init -> exists s', get_step (o_result o) (Z.of_nat t + 1) = Ok s' /\
         forall j id v, nth_error (site_ids s) j = Some id -> nth_error vs j = Some v ->
           exists u, own_answer id v u /\ forall k, site_entry s' id k = upd_entry u k (site_entry s id k)).
Proof.
  intros C ctl c0 init n o R. pose proof R as R0. unfold run_sync in R. apply bind_Ok in R as (c1 & E1 & R). apply bind_Ok in R as ([[live diffs] c2] & E2 & R).
  injection R as <-. apply sync_loop_calls in E2 as (ds & tr & -> & L & L2 & CC & St). cbn [o_result app] in *.
  exists tr, c2. split; [lia|]. split; [econstructor; eauto|]. intros t s vs Ht. destruct (St t s vs Ht) as (A1 & A2 & o & F & Ed).
  assert (Lt : (t < length tr)%nat) by (apply nth_error_Some; congruence).
  assert (Gt : get_step (mkR init ds []) (Z.of_nat t) = Ok s) by (rewrite get_step_fresh by lia; exact A1).
  split; [exact Gt|]. split; [exact A2|]. intros O W.
  destruct (C15_lemma C ctl c0 init n _ O W R0) as (_ & _ & H15). cbn [o_result] in H15.
  destruct (H15 (Z.of_nat t) ltac:(lia)) as (s1 & s' & G1 & G2 & I' & Gen & _). rewrite Gt in G1. injection G1 as <-. exists s'. split; [exact G2|].
  assert (WF : swf s).
  { clear - O W R0 Gt Lt L2 L. apply run_sync_Ok in R0 as (ds' & Er & L' & RP & St). cbn [o_result] in Er. injection Er as <-.
    assert (K : forall m x, (m <= length ds)%nat -> replay init ds m = Ok x -> swf x).
    { induction m as [|m IH]; intros x Lm Hx; [injection Hx as <-; exact W|].
      destruct (nth_error ds m) as [d|] eqn:Ed; [|apply nth_error_None in Ed; lia].
      destruct (St m d Ed) as (s0 & ca & cb & s' & A & B & D & F). rewrite F in Hx. injection Hx as <-.
      apply (sync_step_effect _ _ _ _ _ _ O (IH s0 ltac:(lia) A) B D). }
    rewrite get_step_fresh in Gt by lia. apply (K t); [lia|exact Gt]. }
  assert (B : batch_update s (canon o) = Ok s').
  { replace (Z.of_nat t + 1) with (Z.of_nat (S t)) in G2 by lia. rewrite get_step_fresh in G2 by lia. rewrite (replay_S _ _ _ _ Ed) in G2.
    unfold replay in G2. rewrite A1 in G2. exact G2. }
  (* the answers of this step *)
  assert (Us : exists us, Forall2 (fun iv u => own_answer (fst iv) (snd iv) u) (combine (site_ids s) vs) us /\ (forall u, In u us -> uniq u) /\ length us = length (site_ids s)).
  { clear - CC Ht O A2. assert (Sub : exists ca cb, calls ctl ca (asked s (site_ids s) vs) cb).
    { apply nth_error_split in Ht as (l1 & l2 & -> & _). rewrite flat_map_app in CC. cbn [flat_map fst snd] in CC.
      assert (SP : forall l1 l2 c c', calls ctl c (l1 ++ l2) c' -> exists m, calls ctl c l1 m /\ calls ctl m l2 c').
      { clear. induction l1 as [|x l1 IH]; intros l2 c c' H; [exists c; split; [constructor|exact H]|].
        cbn [app] in H. inversion H; subst; match goal with H : calls ctl _ (l1 ++ l2) c' |- _ => apply IH in H as (m & Ha & Hb) end; exists m; (split; [econstructor; eauto|exact Hb]). }
      apply SP in CC as (m & _ & CC). apply SP in CC as (m' & CC & _). eauto. }
    destruct Sub as (ca & cb & CC'). clear CC Ht.
    assert (Q : forall ids vs ca, length vs = length ids -> calls ctl ca (asked s ids vs) cb ->
      exists us, Forall2 (fun iv u => own_answer (fst iv) (snd iv) u) (combine ids vs) us /\ (forall u, In u us -> uniq u) /\ length us = length ids).
    { clear - O. induction ids as [|i ids IH]; intros [|v vs] ca A2 CC'; cbn in A2; try discriminate.
      - exists []. cbn. repeat split; [constructor|tauto].
      - unfold asked in CC'. cbn [combine map fst snd] in CC'. inversion CC' as [| | |? ? ? ? cc ? ? U CC'']; subst. destruct (IH vs cc ltac:(lia) CC'') as (us & W1 & W2 & W3).
        destruct (O _ _ _ _ _ U) as (u & Ou & Uu). exists (u :: us). split; [cbn [combine]; constructor; auto|]. split; [intros w [->|I]; auto|cbn; congruence]. }
    exact (Q _ _ _ A2 CC'). }
  destruct Us as (us & Wu & Uu & Lu).
  destruct (folded_own _ _ _ _ us F (swf_ids s WF) Wu) as (E3 & E4 & E5); [cbn; tauto|].
  destruct o as [[S G]|]; cbn in E3, E4; [|discriminate]. subst S G. cbn [canon] in B. apply batch_full_Ok in B as (sites & Es & Es').
  assert (Es2 : sites = own_sites (site_ids s) vs us).
  { revert Es. generalize (own_sites (site_ids s) vs us) as l. clear. induction sites as [|[i u] t IH]; intros [|[j w] l] E; cbn in E; try discriminate; auto.
    injection E as -> -> E. f_equal. auto. }
  subst sites. assert (G0 : forall x, set_general_state x [] = x) by (intros []; reflexivity). rewrite G0 in Es'.
  intros j id v Hj Hv. assert (Lj : (j < length (site_ids s))%nat) by (apply nth_error_Some; congruence).
  destruct (nth_error us j) as [u|] eqn:Eu; [|apply nth_error_None in Eu; lia].
  assert (Ow : own_answer id v u).
  { clear -Wu Hj Hv Eu. revert vs us j Wu Hj Hv Eu. induction (site_ids s) as [|i ids IH]; intros [|v0 vs] us [|t] Wu Ht Ev Eu; cbn in *; try discriminate;
    inversion Wu as [|? u0 ? us' W0 W1]; subst; cbn in *.
    - injection Ht as ->. injection Ev as ->. injection Eu as ->. exact W0.
    - eapply IH; eassumption. }
  exists u. split; [exact Ow|]. intros k. subst s'. rewrite site_entry_set_sites_t.
  - rewrite (own_sites_get _ _ _ _ _ _ _ (swf_ids s WF) Hj Hv Eu).
    assert (EN : entry_or_new s id k = site_entry s id k).
    { unfold entry_or_new, site_entry. destruct (get_site_state s id) eqn:Gs; [reflexivity|].
      exfalso. apply nth_error_In in Hj. apply get_site_state_In in Hj. congruence. }
    rewrite EN. destruct v; try reflexivity. destruct Ow as [[_ ->]|[N _]]; [reflexivity|congruence].
  - apply own_sites_nodup. now apply swf_ids.
  - now apply own_sites_uniq.
Qed.

(** ** Asynchronous runs *)
Lemma chain_calls {C} (ctl : controller C) a es ds a' : chain ctl a es ds a' ->
  exists vs, length vs = length ds /\ calls ctl (a_ctl a) (flat_map visit_calls vs) (a_ctl a') /\
    map v_site vs ++ a_queue a' = a_queue a ++ flat_map visit_offers vs /\
    forall t v, nth_error vs t = Some v ->
      foldM batch_update (firstn t ds) (a_live a) = Ok (v_before v) /\ foldM batch_update (firstn (S t) ds) (a_live a) = Ok (v_after v) /\
      (exists ups nx S G, answer_of (v_answer v) ups nx /\ requests nx (v_next v) /\ means (v_site v) ups S G /\
         nth_error ds t = Some (full_update (dmerge [] S) (dmerge [] G))) /\
      (exists p, map v_site (firstn (S t) vs) ++ p = a_queue a ++ flat_map visit_offers (firstn t vs) ++ v_next v /\ (p = [] <-> v_random v <> None)) /\
      (forall x ks, v_random v = Some (x, ks) -> offers x ks).
Proof.
  induction 1 as [a|a e d a1 es ds a2 St Ch (vs & L & CC & Q & IH)].
  - exists []. split; [reflexivity|]. split; [constructor|]. split; [now rewrite app_nil_r|]. intros [|t] v Ht; discriminate.
  - destruct St as (q1 & resp & c1 & ups & nx & S & G & Qa & U & Sp & NN & M & D & B & X & _ & RR).
    assert (V : exists v, v_site v = e_site e /\ v_before v = a_live a /\ v_after v = a_live a1 /\ v_answer v = resp /\ v_next v = e_next e /\
              calls ctl (a_ctl a) (visit_calls v) (a_ctl a1) /\ a_queue a1 = q1 ++ visit_offers v /\ (q1 ++ e_next e = [] <-> v_random v <> None) /\
              (forall x ks, v_random v = Some (x, ks) -> offers x ks)).
    { destruct RR as [(Np & R & Qn & Cn)|(Np & Qn & AS)].
      - exists (mkV (e_site e) (a_live a) (a_live a1) resp (e_next e) None). unfold visit_calls, visit_offers. cbn. do 5 (split; [reflexivity|]).
        split; [rewrite Cn; econstructor; [exact U|constructor]|]. split; [now rewrite app_nil_r|]. split; [split; [contradiction|congruence]|]. discriminate.
      - apply add_sites_offers in AS as (x & AS & Of). exists (mkV (e_site e) (a_live a) (a_live a1) resp (e_next e) (Some (x, e_rand e))).
        unfold visit_calls, visit_offers. cbn. do 5 (split; [reflexivity|]).
        split; [econstructor; [exact U|]; econstructor; [exact AS|constructor]|]. apply app_eq_nil in Np as (-> & ->). cbn. split; [exact Qn|].
        split; [split; [discriminate|reflexivity]|]. intros x' ks' E. injection E as <- <-. exact Of. }
    destruct V as (v & V1 & V2 & V3 & V4 & V5 & V6 & V7 & V8 & V9).
    exists (v :: vs). split; [cbn; congruence|]. split; [cbn [flat_map]; now apply (calls_app _ _ _ _ (a_ctl a1))|].
    split. { cbn [map flat_map]. rewrite <- app_comm_cons, Q, V7, Qa, V1. cbn [app]. f_equal. now rewrite <- !app_assoc. }
    intros [|t] v' Ht; cbn [nth_error] in Ht.
    + injection Ht as <-. cbn [firstn foldM]. rewrite B. cbn [bind foldM]. split; [now rewrite V2|]. split; [now rewrite V3|]. split; [|split; [|exact V9]].
      * exists ups, nx, S, G. rewrite V1, V4, V5. split; [now apply split_answer|]. split; [now apply extend_requests|]. split; [exact M|]. cbn. now rewrite D.
      * exists (q1 ++ v_next v). cbn [firstn map flat_map app]. rewrite Qa, V1. split; [reflexivity|]. rewrite V5. exact V8.
    + destruct (IH t v' Ht) as (H1 & H2 & H3 & (p & H4 & H5) & H6). cbn [firstn foldM]. rewrite B. cbn [bind]. split; [exact H1|]. split; [exact H2|]. split; [exact H3|]. split; [|exact H6].
      exists p. split; [|exact H5]. cbn [firstn map flat_map app] in *. rewrite H4, V7, Qa, V1. cbn [app]. f_equal. now rewrite <- !app_assoc.
Qed.

Lemma C109_async_lemma : forall (C : Type) (ctl : controller C) (c0 : C) (init : sstate) (n : Z) o,
  run_async ctl c0 init n = Ok o ->
  exists v0 q (vs : list visit) rest c', offers v0 q /\ q <> [] /\
    Z.of_nat (length vs) = rlen (o_result o) - 1 /\
    calls ctl c0 (CPre init :: CRandom init v0 :: flat_map visit_calls vs) c' /\
    map v_site vs ++ rest = q ++ flat_map visit_offers vs /\
    rlen (o_result o) - 1 <= Z.max 0 n /\ (rlen (o_result o) - 1 < n -> rest = []) /\
    forall t v, nth_error vs t = Some v ->
      get_step (o_result o) (Z.of_nat t) = Ok (v_before v) /\ get_step (o_result o) (Z.of_nat t + 1) = Ok (v_after v) /\
      (exists ups nx S G, answer_of (v_answer v) ups nx /\ requests nx (v_next v) /\ means (v_site v) ups S G /\
         (proper ctl -> updated (v_before v) S G (v_after v))) /\
      (exists pending, map v_site (firstn (S t) vs) ++ pending = q ++ flat_map visit_offers (firstn t vs) ++ v_next v /\
         (pending = [] <-> v_random v <> None)) /\
      (forall x ks, v_random v = Some (x, ks) -> offers x ks).
Proof.
  intros C ctl c0 init n o R. apply run_async_Ok in R as (c1 & q & c2 & es & ds & a & E1 & E2 & NQ & Ch & L1 & L2 & Er & Eo).
  apply add_sites_offers in E2 as (v0 & E2 & Of). pose proof (chain_calls _ _ _ _ _ Ch) as (vs & L & CC & Q & H). cbn [a_ctl a_queue a_live] in *.
  exists v0, q, vs, (a_queue a), (a_ctl a). rewrite Er. unfold rlen. cbn [r_diffs].
  split; [exact Of|]. split; [exact NQ|]. split; [lia|]. split; [econstructor; [exact E1|]; econstructor; [exact E2|exact CC]|].
  split; [exact Q|]. split; [lia|]. split; [intros Lt; apply L2; lia|].
  intros t v Ht. destruct (H t v Ht) as (H1 & H2 & (ups & nx & S & G & H3 & H4 & H5 & H6) & H7 & H8).
  assert (Lt : (t < length vs)%nat) by (apply nth_error_Some; congruence).
  split; [rewrite get_step_fresh by lia; exact H1|].
  split; [replace (Z.of_nat t + 1) with (Z.of_nat (Datatypes.S t)) by lia; rewrite get_step_fresh by lia; exact H2|].
  split; [|split; [exact H7|exact H8]]. exists ups, nx, S, G. split; [exact H3|]. split; [exact H4|]. split; [exact H5|]. intros P.
  assert (U : exists ca cb, c_update ctl ca (v_site v) (v_before v) = Ok (v_answer v, cb)).
  { clear - CC Ht. apply nth_error_split in Ht as (l1 & l2 & -> & _). rewrite flat_map_app in CC. cbn [flat_map] in CC. unfold visit_calls at 2 in CC. cbn [app] in CC.
    revert CC. generalize (flat_map visit_calls l1) as l. intros l. generalize c2. induction l as [|x l IH]; intros c CC; cbn [app] in CC.
    - inversion CC; subst; eauto.
    - inversion CC; subst; eauto. }
  destruct U as (ca & cb & U). destruct (P _ _ _ _ _ _ _ _ _ U H3 H5) as (US & UG & UU). destruct (means_dmerge_nil _ _ _ _ US UG H5) as [EqS EqG]. rewrite EqS, EqG in H6.
  assert (RS : foldM batch_update (firstn (Datatypes.S t) ds) init = batch_update (v_before v) (full_update S G)).
  { pose proof (replay_S init ds t _ H6) as RS. unfold replay in RS. rewrite H1 in RS. exact RS. }
  rewrite H2 in RS. now apply batch_full_updated.
Qed.

(** ** Parallel runs *)
Section Parallel.
  Context {C : Type} (ctl : controller C) (sched : nat -> nat -> nat) (batches : list (list key)) (init : sstate) (c1 : C) (diffs : list val).

  Definition task_ok (x : task) : Prop := length (t_answers x) = length (nth (t_batch x) batches []).
  (** The workers have done the tasks [done] so far. *)
  Definition logged (done : list (nat * nat)) (ws : workers) (log : nat -> list task) : Prop :=
    forall w, map (fun x => (t_step x, t_batch x)) (log w) = filter (fun tb => Nat.eqb (sched (fst tb) (snd tb)) w) done /\
      received diffs init (log w) (fst (ws w)) /\ calls ctl c1 (flat_map (task_calls batches) (log w)) (snd (ws w)) /\ Forall task_ok (log w).

  Lemma received_app s l1 m l2 s' : received diffs s l1 m -> received diffs m l2 s' -> received diffs s (l1 ++ l2) s'.
  Proof. induction 1; cbn [app]; intros; [assumption|]. econstructor; eauto. Qed.

  Lemma starmap_logged t rest : forall b ws us ws' done log, skipn b batches = rest ->
    starmap ctl (sched t) (sent_with diffs t) b rest ws = Ok (us, ws') -> logged done ws log ->
    exists log', logged (done ++ map (fun i => (t, i)) (seq b (length rest))) ws' log' /\ length us = length rest /\
      (forall w x, In x (log w) -> In x (log' w)) /\
      forall i u, nth_error us i = Some u -> exists x o, In x (log' (sched t (b + i)%nat)) /\ t_step x = t /\ t_batch x = (b + i)%nat /\
        folded None (nth (b + i) batches []) (t_answers x) o /\ u = canon o.
  Proof.
    induction rest as [|batch rest IH]; intros b ws us ws' done log Sk E Lg; cbn [starmap] in E.
    - injection E as <- <-. exists log. cbn [length seq map]. rewrite app_nil_r. split; [exact Lg|]. split; [reflexivity|]. split; [auto|]. intros [|i] u Hu; discriminate.
    - apply bind_Ok in E as ([u l'] & E1 & E). apply bind_Ok in E as ([us1 ws1] & E2 & E). injection E as <- <-.
      unfold worker_task in E1. apply bind_Ok in E1 as (s & Eb & E1). apply bind_Ok in E1 as ([u1 c'] & E1 & E3). injection E3 as <- <-.
      apply step_batch_Ok in E1 as (vs & o & A & F & Eu).
      assert (Nb : nth b batches [] = batch /\ skipn (S b) batches = rest).
      { clear - Sk. revert b Sk. induction batches as [|x l IHl]; intros [|b] Sk; cbn in *; try discriminate.
        - injection Sk as -> ->. auto.
        - now apply IHl. }
      destruct Nb as (Nb & Sk').
      set (x := mkT t b s vs). set (w0 := sched t b).
      set (log1 := fun w => if Nat.eqb w w0 then log w ++ [x] else log w).
      assert (Lg1 : logged (done ++ [(t, b)]) (set_worker ws w0 (s, c')) log1).
      { intros w. destruct (Lg w) as (H1 & H2 & H3 & H4). unfold log1, set_worker. rewrite filter_app. cbn [filter fst snd]. fold w0. rewrite (Nat.eqb_sym w0 w).
        destruct (Nat.eqb_spec w w0) as [->|N].
        - cbn [fst snd]. split; [rewrite map_app, H1; reflexivity|]. split; [|split].
          + apply (received_app _ _ _ _ _ H2). econstructor; [exact Eb|constructor].
          + rewrite flat_map_app. apply (calls_app _ _ _ _ _ _ H3). cbn [flat_map]. rewrite app_nil_r. unfold task_calls, x. cbn [t_state t_batch t_answers].
            rewrite Nb. now apply answers_calls.
          + apply Forall_app. split; [exact H4|]. constructor; [|constructor]. unfold task_ok, x. cbn. rewrite Nb. now apply answers_length in A.
        - rewrite app_nil_r. auto. }
      destruct (IH (S b) _ _ _ _ log1 Sk' E2 Lg1) as (log' & L1 & L2 & L3 & L4).
      exists log'. split; [|split; [cbn; congruence|split]].
      + cbn [length seq map]. rewrite <- app_assoc in L1. exact L1.
      + intros w y I. apply L3. unfold log1. destruct (Nat.eqb w w0); [apply in_or_app; now left|exact I].
      + intros [|i] u' Hu; cbn [nth_error] in Hu.
        * injection Hu as <-. rewrite Nat.add_0_r. exists x, o. split; [apply L3; unfold log1; fold w0; rewrite Nat.eqb_refl; apply in_or_app; right; now left|].
          split; [reflexivity|]. split; [reflexivity|]. cbn [t_answers x]. rewrite Nb. split; [exact F|exact Eu].
        * rewrite Nat.add_succ_r, <- Nat.add_succ_l. now apply L4.
  Qed.

  Lemma par_loop_logged ids ck n : site_batches ck ids = Ok batches -> forall t u ds ws log,
    par_loop ctl sched t n ids ck u ds ws = Ok diffs -> length ds = t -> u = sent_with diffs t ->
    logged (list_prod (seq 0 t) (seq 0 (length batches))) ws log ->
    length diffs = (t + n)%nat /\
    exists ws' log', logged (list_prod (seq 0 (t + n)) (seq 0 (length batches))) ws' log' /\
      (forall w x, In x (log w) -> In x (log' w)) /\
      forall m, (t <= m < t + n)%nat -> exists os q, nth_error diffs m = Some (canon q) /\ length os = length batches /\
        foldM (fun a b => merge_updates a b None) (map canon os) VNone = Ok (canon q) /\
        forall b o, nth_error os b = Some o -> exists x, In x (log' (sched m b)) /\ t_step x = m /\ t_batch x = b /\ folded None (nth b batches []) (t_answers x) o.
  Proof.
    intros Sb. induction n as [|n IH]; intros t u ds ws log E L Eu Lg; cbn [par_loop] in E.
    - injection E as <-. rewrite Nat.add_0_r. split; [exact L|]. exists ws, log. split; [exact Lg|]. split; [auto|]. intros m Hm. lia.
    - apply bind_Ok in E as ([u' ws1] & E1 & E). pose proof (par_loop_app _ _ _ _ _ _ _ _ _ _ E) as (l & Hl).
      unfold take_step_parallel in E1. rewrite Sb in E1. cbn [bind] in E1. apply bind_Ok in E1 as ([us ws2] & E2 & E1). apply bind_Ok in E1 as (a & E3 & E1). injection E1 as <- <-.
      rewrite Eu in E2. destruct (starmap_logged t batches 0 ws us ws2 _ log eq_refl E2 Lg) as (log1 & Lg1 & Lu & Sub1 & An).
      assert (Ld : nth_error diffs t = Some a).
      { rewrite Hl, <- app_assoc. rewrite nth_error_app2 by lia. rewrite L, Nat.sub_diag. reflexivity. }
      assert (LP : list_prod (seq 0 t) (seq 0 (length batches)) ++ map (fun i => (t, i)) (seq 0 (length batches)) = list_prod (seq 0 (S t)) (seq 0 (length batches))).
      { rewrite seq_S. cbn [plus]. assert (PA : forall (l1 l2 l3 : list nat), list_prod (l1 ++ l2) l3 = list_prod l1 l3 ++ list_prod l2 l3) by (intros l1 l2 l3; induction l1; cbn; [reflexivity|now rewrite IHl1, app_assoc]).
        rewrite PA. cbn [list_prod]. now rewrite app_nil_r. }
      rewrite LP in Lg1. destruct (IH (S t) a (ds ++ [a]) ws2 log1 E) as (Ln & ws' & log' & Lg' & Sub' & St); auto.
      + rewrite app_length. cbn. lia.
      + cbn [sent_with]. symmetry. now apply nth_error_nth.
      + split; [lia|]. exists ws', log'. rewrite Nat.add_succ_r. split; [exact Lg'|]. split; [auto|]. intros m Hm.
        destruct (Nat.eq_dec m t) as [->|N]; [|apply St; lia].
        assert (OS : exists os, us = map canon os /\ length os = length batches /\
          forall b o, nth_error os b = Some o -> exists x, In x (log' (sched t b)) /\ t_step x = t /\ t_batch x = b /\ folded None (nth b batches []) (t_answers x) o).
        { assert (Q : forall us k, (forall i u, nth_error us i = Some u -> exists x o, In x (log1 (sched t (k + i)%nat)) /\ t_step x = t /\ t_batch x = (k + i)%nat /\
              folded None (nth (k + i) batches []) (t_answers x) o /\ u = canon o) ->
            exists os, us = map canon os /\ length os = length us /\ forall b o, nth_error os b = Some o -> exists x, In x (log' (sched t (k + b)%nat)) /\ t_step x = t /\ t_batch x = (k + b)%nat /\ folded None (nth (k + b) batches []) (t_answers x) o).
          { clear - Sub'. induction us as [|u us IHu]; intros k An.
            - exists []. split; [reflexivity|]. split; [reflexivity|]. intros [|b] o Ho; discriminate.
            - destruct (An 0%nat u eq_refl) as (x & o & X1 & X2 & X3 & X4 & ->).
              destruct (IHu (S k)) as (os & -> & Lo & H). { intros i u Hu. destruct (An (S i) u Hu) as (y & o' & Y). rewrite Nat.add_succ_r in Y. eauto. }
              exists (o :: os). split; [reflexivity|]. split; [cbn; congruence|]. intros [|b] o' Ho; cbn [nth_error] in Ho.
              + injection Ho as <-. eauto 6.
              + rewrite Nat.add_succ_r. now apply H. }
          destruct (Q us 0%nat An) as (os & -> & Lo & H). exists os. split; [reflexivity|]. split; [congruence|exact H]. }
        destruct OS as (os & -> & Lo & Ho). unfold merge_results in E3. destruct (merge_results_canon os None a E3) as (q & ->).
        exists os, q. split; [exact Ld|]. split; [exact Lo|]. split; [exact E3|]. exact Ho.
  Qed.
End Parallel.

Lemma run_parallel_logged {C} (ctl : controller C) p sched c0 init n o : run_parallel ctl p sched c0 init n = Ok o -> 0 < n ->
  exists c1 ck batches ws log, c_pre_run ctl c0 init = Ok c1 /\ chunk_size_of (size init) p = Ok ck /\ 1 <= p /\ site_batches ck (site_ids init) = Ok batches /\
    r_init (o_result o) = init /\ r_stored (o_result o) = [] /\ length (r_diffs (o_result o)) = Z.to_nat n /\
    logged ctl sched batches init c1 (r_diffs (o_result o)) (list_prod (seq 0 (Z.to_nat n)) (seq 0 (length batches))) ws log /\
    forall m, (m < Z.to_nat n)%nat -> exists os q, nth_error (r_diffs (o_result o)) m = Some (canon q) /\ length os = length batches /\
        foldM (fun a b => merge_updates a b None) (map canon os) VNone = Ok (canon q) /\
        forall b o, nth_error os b = Some o -> exists x, In x (log (sched m b)) /\ t_step x = m /\ t_batch x = b /\ folded None (nth b batches []) (t_answers x) o.
Proof.
  intros R L. unfold run_parallel in R. apply bind_Ok in R as (c1 & E1 & R). apply bind_Ok in R as (ck & E2 & R).
  destruct (p <? 1) eqn:Ep; [discriminate|]. apply bind_Ok in R as (ds & E & R). injection R as <-. cbn [o_result r_diffs r_init r_stored].
  assert (SB : exists batches, site_batches ck (site_ids init) = Ok batches).
  { destruct (Z.to_nat n) as [|m] eqn:En; [lia|]. cbn [par_loop] in E. apply bind_Ok in E as ([u ws] & E3 & E). unfold take_step_parallel in E3.
    apply bind_Ok in E3 as (bs & E3 & _). eauto. }
  destruct SB as (batches & SB).
  destruct (par_loop_logged ctl sched batches init c1 ds (site_ids init) ck (Z.to_nat n) SB 0 (VDict []) [] (fun _ => (init, c1)) (fun _ => []) E eq_refl eq_refl) as (Ln & ws & log & Lg & _ & St).
  { intros w. cbn. split; [reflexivity|]. split; [constructor|]. split; [constructor|constructor]. }
  exists c1, ck, batches, ws, log. split; [exact E1|]. split; [exact E2|]. split; [lia|]. split; [exact SB|]. split; [reflexivity|]. split; [reflexivity|]. split; [exact Ln|].
  split; [exact Lg|]. intros m Hm. apply St. lia.
Qed.

Lemma C109_parallel_lemma : forall (C : Type) (ctl : controller C) p sched (c0 : C) (init : sstate) (n : Z) o,
  run_parallel ctl p sched c0 init n = Ok o -> 0 < n ->
  exists c1 ck batches (log : nat -> list task), c_pre_run ctl c0 init = Ok c1 /\
    chunk_size_of (size init) p = Ok ck /\ site_batches ck (site_ids init) = Ok batches /\
    rlen (o_result o) = n + 1 /\
    forall w, map (fun x => (t_step x, t_batch x)) (log w) = tasks_of sched (Z.to_nat n) (length batches) w /\
      Forall (fun x => length (t_answers x) = length (nth (t_batch x) batches [])) (log w) /\
      (exists s, received (r_diffs (o_result o)) init (log w) s) /\
      (exists c', calls ctl c1 (flat_map (task_calls batches) (log w)) c').
Proof.
  intros C ctl p sched c0 init n o R L. destruct (run_parallel_logged _ _ _ _ _ _ _ R L) as (c1 & ck & batches & ws & log & E1 & E2 & P & SB & _ & _ & Ln & Lg & _).
  exists c1, ck, batches, log. split; [exact E1|]. split; [exact E2|]. split; [exact SB|]. split; [unfold rlen; lia|].
  intros w. destruct (Lg w) as (H1 & H2 & H3 & H4). split; [exact H1|]. split; [exact H4|]. split; eauto.
Qed.

(** ** C20: which answer wins *)
Lemma calls_In {C} (ctl : controller C) l : forall c c' site s v, calls ctl c l c' -> In (CUpdate site s v) l -> exists c1 c2, c_update ctl c1 site s = Ok (v, c2).
Proof. intros c c' site s v H. induction H; intros I; [destruct I| | |]; destruct I as [E|I]; try discriminate; try (injection E as -> -> ->); eauto. Qed.

Lemma folded_stands {C} (ctl : controller C) s ids vs o : proper_rule ctl -> folded None ids vs o ->
  Forall2 (fun id v => exists c c', c_update ctl c id s = Ok (v, c')) ids vs ->
  exists SGs, stands_for ctl s ids SGs /\ (forall i, dget i (csites o) = last_for i (map fst SGs)) /\ (forall k, dget k (cgen o) = last_for k (map snd SGs)) /\
    (forall i w, dget i (csites o) = Some w -> forall u, w = VDict u -> uniq u) /\ uniq (csites o) /\ uniq (cgen o) /\
    (o = None -> Forall (fun SG => SG = ([], [])) SGs).
Proof.
  intros P F A.
  assert (Q : forall o0 ids vs o, folded o0 ids vs o -> Forall2 (fun id v => exists c c', c_update ctl c id s = Ok (v, c')) ids vs ->
    (forall i w, dget i (csites o0) = Some w -> forall u, w = VDict u -> uniq u) -> uniq (csites o0) -> uniq (cgen o0) ->
    exists SGs, stands_for ctl s ids SGs /\
     (forall i, dget i (csites o) = fold_left (fun acc S => match dget i S with Some v => Some v | None => acc end) (map fst SGs) (dget i (csites o0))) /\
     (forall k, dget k (cgen o) = fold_left (fun acc S => match dget k S with Some v => Some v | None => acc end) (map snd SGs) (dget k (cgen o0))) /\
     (forall i w, dget i (csites o) = Some w -> forall u, w = VDict u -> uniq u) /\ uniq (csites o) /\ uniq (cgen o) /\
     (o = None -> o0 = None /\ Forall (fun SG => SG = ([], [])) SGs)).
  { clear - P. intros o0 ids vs o F. induction F as [o|o id ids vs o' F IH|o id v ids vs o' S G NN M F IH]; intros A W US UG.
    - exists []. split; [constructor|]. cbn. auto 8.
    - inversion A as [|? ? ? ? (ca & cb & Ea) A']; subst. destruct (IH A' W US UG) as (SGs & H1 & H2 & H3 & H4 & H5 & H6 & H7). exists (([], []) :: SGs).
      split; [constructor; [exists ca, cb, VNone; split; [exact Ea|constructor]|exact H1]|]. cbn. split; [exact H2|]. split; [exact H3|]. split; [exact H4|]. split; [exact H5|]. split; [exact H6|].
      intros E. destruct (H7 E) as (E' & F7). split; [exact E'|]. constructor; [reflexivity|exact F7].
    - inversion A as [|? ? ? ? (ca & cb & Ea) A']; subst. destruct (P _ _ _ _ _ _ _ Ea M) as (U1 & U2 & U3).
      destruct (IH A') as (SGs & H1 & H2 & H3 & H4 & H5 & H6 & H7).
      { cbn [csites]. intros i w D u E. rewrite dget_dmerge in D by assumption. destruct (dget i S) as [w'|] eqn:DS.
        - injection D as ->. apply (U3 i w); [|exact E]. now apply dget_In.
        - eapply W; eassumption. }
      { cbn [csites]. now apply NoDup_dmerge. } { cbn [cgen]. now apply NoDup_dmerge. }
      exists ((S, G) :: SGs). split; [constructor; [exists ca, cb, v; auto|exact H1]|]. cbn [map fst snd fold_left].
      split; [intros i; rewrite H2; cbn [csites]; now rewrite dget_dmerge|]. split; [intros i; rewrite H3; cbn [cgen]; now rewrite dget_dmerge|].
      split; [exact H4|]. split; [exact H5|]. split; [exact H6|]. intros E. destruct (H7 E) as (E' & _). discriminate. }
  destruct (Q None ids vs o F A) as (SGs & H1 & H2 & H3 & H4 & H5 & H6 & H7); cbn; try constructor; [discriminate|].
  exists SGs. split; [exact H1|]. split; [exact H2|]. split; [exact H3|]. split; [exact H4|]. split; [exact H5|]. split; [exact H6|]. intros E. now apply H7.
Qed.

Lemma C20_serial_lemma : forall (C : Type) (ctl : controller C) (c0 : C) (init : sstate) (n : Z) o, proper_rule ctl ->
  run_sync ctl c0 init n = Ok o -> forall t, 0 <= t < n ->
  exists s s' SGs S G, get_step (o_result o) t = Ok s /\ get_step (o_result o) (t + 1) = Ok s' /\ stands_for ctl s (site_ids s) SGs /\
    (forall i, dget i S = last_for i (map fst SGs)) /\ (forall k, dget k G = last_for k (map snd SGs)) /\ updated s S G s'.
Proof.
  intros C ctl c0 init n o P R t Ht. apply run_sync_Ok in R as (ds & Er & L & RP & St). rewrite Er.
  assert (Hm : exists m, t = Z.of_nat m) by (exists (Z.to_nat t); lia). destruct Hm as [m ->].
  destruct (nth_error ds m) as [d|] eqn:Ed; [|apply nth_error_None in Ed; lia].
  destruct (St m d Ed) as (s & c1 & c2 & s' & A & B & D & E). apply step_batch_Ok in B as (vs & q & An & F & ->).
  assert (F2 : Forall2 (fun id v => exists c1 c2, c_update ctl c1 id s = Ok (v, c2)) (site_ids s) vs) by (clear -An; induction An; constructor; eauto).
  destruct (folded_stands ctl s _ _ _ P F F2) as (SGs & H1 & H2 & H3 & H4 & H5 & H6 & _).
  destruct q as [[S G]|]; [|discriminate]. cbn [canon csites cgen] in *. exists s, s', SGs, S, G.
  split; [rewrite get_step_fresh by lia; exact A|]. split; [replace (Z.of_nat m + 1) with (Z.of_nat (Datatypes.S m)) by lia; rewrite get_step_fresh by lia; exact E|].
  split; [exact H1|]. split; [exact H2|]. split; [exact H3|]. apply batch_full_updated; auto.
  intros i w I. apply H4 with (i := i). now apply In_dget.
Qed.

Lemma merged_first os : forall q r, foldM (fun a b => merge_updates a b None) (map canon os) (canon q) = Ok (canon r) ->
  Forall (fun o => uniq (csites o) /\ uniq (cgen o)) (q :: os) ->
  (forall i, dget i (csites r) = first_some (map (fun o => dget i (csites o)) (q :: os))) /\
  (forall i, dget i (cgen r) = first_some (map (fun o => dget i (cgen o)) (q :: os))) /\ uniq (csites r) /\ uniq (cgen r).
Proof.
  assert (CI : forall a b, canon a = canon b -> a = b) by (intros [[? ?]|] [[? ?]|] E; cbn in E; try discriminate; [unfold full_update in E; injection E as -> ->|]; reflexivity).
  induction os as [|o t IH]; intros q r E U; cbn [map foldM] in E.
  - injection E as E. apply CI in E as <-. inversion U as [|? ? (U1 & U2) _]; subst. cbn. split; [intros i; now destruct (dget i (csites q))|]. split; [intros i; now destruct (dget i (cgen q))|auto].
  - apply bind_Ok in E as (m & Em & E). inversion U as [|? ? (U1 & U2) U']; subst. inversion U' as [|? ? (U3 & U4) U'']; subst.
    assert (M : exists q', m = canon q' /\ uniq (csites q') /\ uniq (cgen q') /\ (forall i, dget i (csites q') = first_some [dget i (csites q); dget i (csites o)]) /\ (forall i, dget i (cgen q') = first_some [dget i (cgen q); dget i (cgen o)])).
    { destruct q as [[S G]|].
      - exists (Some (dmerge (csites o) S, dmerge (cgen o) G)). cbn [csites cgen] in *. split.
        + destruct o as [[S' G']|]; cbn in Em; injection Em as <-; reflexivity.
        + split; [now apply NoDup_dmerge|]. split; [now apply NoDup_dmerge|]. cbn [first_some]. split; intros i; rewrite dget_dmerge by assumption; [destruct (dget i S)|destruct (dget i G)]; try reflexivity;
          [now destruct (dget i (csites o))|now destruct (dget i (cgen o))].
      - exists o. cbn in Em. injection Em as <-. split; [reflexivity|]. split; [assumption|]. split; [assumption|]. cbn. split; intros i; [now destruct (dget i (csites o))|now destruct (dget i (cgen o))]. }
    destruct M as (q' & -> & M1 & M2 & M3 & M4). destruct (IH q' r E ltac:(constructor; auto)) as (H1 & H2 & H3 & H4).
    assert (FS : forall A (x y : option A) l, first_some (first_some [x; y] :: l) = first_some (x :: y :: l)) by (intros A [x|] [y|] l; reflexivity).
    split; [intros i; rewrite H1; cbn [map]; rewrite M3; apply FS|]. split; [intros i; rewrite H2; cbn [map]; rewrite M4; apply FS|auto].
Qed.

Lemma C20_parallel_lemma : forall (C : Type) (ctl : controller C) p sched (c0 : C) (init : sstate) (n : Z) o, proper_rule ctl ->
  run_parallel ctl p sched c0 init n = Ok o -> forall t s s', 0 <= t < n ->
  get_step (o_result o) t = Ok s -> get_step (o_result o) (t + 1) = Ok s' ->
  exists batches SGs S G, concat batches = site_ids init /\ Z.of_nat (length batches) <= p /\
    Forall2 (fun ids l => exists x, stands_for ctl x ids l) batches SGs /\
    (forall i, dget i S = first_some (map (fun l => last_for i (map fst l)) SGs)) /\
    (forall k, dget k G = first_some (map (fun l => last_for k (map snd l)) SGs)) /\ updated s S G s'.
Proof.
  intros C ctl p sched c0 init n o P R t s s' Ht Gs Gs'.
  destruct (run_parallel_logged _ _ _ _ _ _ _ R ltac:(lia)) as (c1 & ck & batches & ws & log & _ & Ec & Pp & SB & Ei & Est & Ln & Lg & St).
  assert (Er : o_result o = mkR init (r_diffs (o_result o)) []) by (destruct (o_result o); cbn in *; congruence). rewrite Er in Gs, Gs'.
  assert (Hm : exists m, t = Z.of_nat m) by (exists (Z.to_nat t); lia). destruct Hm as [m ->].
  destruct (St m ltac:(lia)) as (os & q & Ed & Lo & Em & An).
  assert (NE : site_ids init <> []).
  { intros E0. unfold chunk_size_of, size in Ec. rewrite E0 in Ec. cbn in Ec. unfold site_batches in SB. destruct (p =? 0); [discriminate|]. injection Ec as <-. cbn in SB. discriminate. }
  destruct (C18_lemma p (site_ids init) Pp NE) as (ck' & batches' & Ec' & Eb' & Cov & _ & Lb & _). change (Z.of_nat (length (site_ids init))) with (size init) in Ec'. rewrite Ec in Ec'. injection Ec' as <-.
  rewrite SB in Eb'. injection Eb' as <-.
  assert (ST : exists SGs, Forall2 (fun ids l => exists x, stands_for ctl x ids l) batches SGs /\
     Forall2 (fun o l => (forall i, dget i (csites o) = last_for i (map fst l)) /\ (forall k, dget k (cgen o) = last_for k (map snd l)) /\
        (forall i w, dget i (csites o) = Some w -> forall u, w = VDict u -> uniq u) /\ uniq (csites o) /\ uniq (cgen o)) os SGs).
  { assert (Q : forall bs os k, length os = length bs -> (forall j, nth j bs [] = nth (k + j) batches []) ->
       (forall b o, nth_error os b = Some o -> exists x, In x (log (sched m (k + b)%nat)) /\ t_step x = m /\ t_batch x = (k + b)%nat /\ folded None (nth (k + b) batches []) (t_answers x) o) ->
       exists SGs, Forall2 (fun ids l => exists x, stands_for ctl x ids l) bs SGs /\
     Forall2 (fun o l => (forall i, dget i (csites o) = last_for i (map fst l)) /\ (forall k, dget k (cgen o) = last_for k (map snd l)) /\
        (forall i w, dget i (csites o) = Some w -> forall u, w = VDict u -> uniq u) /\ uniq (csites o) /\ uniq (cgen o)) os SGs).
    { clear - P Lg. induction bs as [|b bs IH]; intros [|q os] k Lo Nk An; cbn in Lo; try discriminate; [exists []; split; constructor|].
      destruct (IH os (S k) ltac:(lia)) as (SGs & I1 & I2).
      { intros j. specialize (Nk (S j)). cbn in Nk. rewrite Nk. f_equal. lia. }
      { intros j o' Hj. destruct (An (S j) o' Hj) as (x & X). rewrite Nat.add_succ_r in X. eauto. }
      destruct (An 0%nat q eq_refl) as (x & X1 & X2 & X3 & X4). rewrite Nat.add_0_r in *. specialize (Nk 0%nat). rewrite Nat.add_0_r in Nk. cbn in Nk. rewrite <- Nk in X4.
      destruct (Lg (sched m k)) as (_ & _ & CC & TO). rewrite Forall_forall in TO. specialize (TO x X1). unfold task_ok in TO. rewrite X3, <- Nk in TO.
      assert (F2 : Forall2 (fun id v => exists c c', c_update ctl c id (t_state x) = Ok (v, c')) b (t_answers x)).
      { assert (Sub : forall id v, In (id, v) (combine b (t_answers x)) -> exists c c', c_update ctl c id (t_state x) = Ok (v, c')).
        { intros id v I. apply (calls_In ctl _ _ _ _ _ _ CC). apply in_flat_map. exists x. split; [exact X1|]. unfold task_calls, asked. rewrite X3, <- Nk.
          apply in_map_iff. exists (id, v). auto. }
        clear - TO Sub. revert TO Sub. generalize (t_answers x). induction b as [|i b IH]; intros [|v vs] TO Sub; cbn in TO; try discriminate; constructor.
        - apply Sub. now left.
        - apply IH; [lia|]. intros id' v' I. apply Sub. now right. }
      destruct (folded_stands ctl (t_state x) _ _ _ P X4 F2) as (SG & H1 & H2 & H3 & H4 & H5 & H6 & _).
      exists (SG :: SGs). split; constructor; eauto 10. }
    apply (Q batches os 0%nat Lo); [reflexivity|exact An]. }
  destruct ST as (SGs & F1 & F2).
  destruct (merged_first os None q Em) as (M1 & M2 & M3 & M4).
  { constructor; [split; constructor|]. clear - F2. induction F2 as [|o l os SGs (_ & _ & _ & U1 & U2) F IH]; constructor; auto. }
  exists batches, SGs, (csites q), (cgen q). split; [exact Cov|]. split; [exact Lb|]. split; [exact F1|].
  split. { intros i. rewrite M1. cbn [map first_some csites dget]. clear - F2. induction F2 as [|o l os SGs (H & _) F IH]; cbn [map first_some]; [reflexivity|]. rewrite H. destruct (last_for i (map fst l)); [reflexivity|exact IH]. }
  split. { intros i. rewrite M2. cbn [map first_some cgen dget]. clear - F2. induction F2 as [|o l os SGs (_ & H & _) F IH]; cbn [map first_some]; [reflexivity|]. rewrite H. destruct (last_for i (map snd l)); [reflexivity|exact IH]. }
  rewrite get_step_fresh in Gs by lia. replace (Z.of_nat m + 1) with (Z.of_nat (S m)) in Gs' by lia. rewrite get_step_fresh in Gs' by lia.
  rewrite (replay_S _ _ _ _ Ed), Gs in Gs'. cbn [bind] in Gs'. destruct q as [[S G]|]; [|discriminate]. cbn [canon csites cgen] in *.
  apply batch_full_updated; auto. intros i w I u Ew.
  assert (D : dget i S = Some w) by now apply In_dget. rewrite M1 in D. cbn [map first_some csites dget] in D.
  clear - F2 D Ew. induction F2 as [|o l os SGs (_ & _ & U & _) F IH]; cbn [map first_some] in D; [discriminate|].
  destruct (dget i (csites o)) as [w'|] eqn:Dw; [injection D as ->; now apply (U i w Dw)|now apply IH].
Qed.
