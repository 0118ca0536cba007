(** Lemmas about the serial and parallel synchronous runner. *)
From Verif Require Import Prelude Dict Val ValFacts StateModel ResultModel RunnerModel SpecState SpecResult SpecRunner StateFacts ResultFacts RunnerFacts.
From Coq Require Import Permutation.

(** ** One batch of rule applications *)
Section Batch.
  Context {C : Type} (ctl : controller C).

  (** The answers given while processing a batch (all on the same state). *)
  Inductive answers (s : sstate) : C -> list key -> list val -> C -> Prop :=
  | answers_nil c : answers s c [] [] c
  | answers_cons c id v c1 ids vs c2 :
      c_update ctl c id s = Ok (v, c1) -> answers s c1 ids vs c2 ->
      answers s c (id :: ids) (v :: vs) c2.

  (** Folding answers into a normal-form update. *)
  Inductive folded : option (pdict * pdict) -> list key -> list val -> option (pdict * pdict) -> Prop :=
  | folded_nil o : folded o [] [] o
  | folded_none o id ids vs o' : folded o ids vs o' -> folded o (id :: ids) (VNone :: vs) o'
  | folded_some o id v ids vs o' S G : v <> VNone -> means id v S G ->
      folded (Some (dmerge (csites o) S, dmerge (cgen o) G)) ids vs o' ->
      folded o (id :: ids) (v :: vs) o'.

  Lemma step_batch_gen ids s c o b c' :
    foldM (fun '(batch_updates, c) site_id =>
             do (site_updates, c') <- c_update ctl c site_id s;
             do b <- merge_updates site_updates batch_updates (Some site_id);
             Ok (b, c')) ids (canon o, c) = Ok (b, c') ->
    exists vs o', answers s c ids vs c' /\ folded o ids vs o' /\ b = canon o'.
  Proof.
    revert c o. induction ids as [|id ids IH]; intros c o E; cbn [foldM] in E.
    - injection E as <- <-. exists [], o. repeat split; constructor.
    - apply bind_Ok in E as ([b1 c1] & E1 & E). apply bind_Ok in E1 as ([v c1'] & Eu & E1).
      apply bind_Ok in E1 as (b1' & Em & E1). injection E1 as <- <-.
      destruct (merge_Ok_cases _ _ _ _ Em) as [[-> ->]|(S & G & NN & M & ->)].
      + destruct (IH c1' o E) as (vs & o' & A & F & ->). exists (VNone :: vs), o'.
        split; [econstructor; eassumption|]. split; [now constructor|reflexivity].
      + destruct (IH c1' _ E) as (vs & o' & A & F & ->). exists (v :: vs), o'.
        split; [econstructor; eassumption|]. split; [econstructor; eassumption|reflexivity].
  Qed.
  Lemma step_batch_Ok ids s c b c' : step_batch ctl ids s c = Ok (b, c') ->
    exists vs o, answers s c ids vs c' /\ folded None ids vs o /\ b = canon o.
  Proof. apply (step_batch_gen ids s c None). Qed.

  Lemma step_batch_complete ids s c vs c' o o' : answers s c ids vs c' -> folded o ids vs o' ->
    foldM (fun '(batch_updates, c) site_id =>
             do (site_updates, c') <- c_update ctl c site_id s;
             do b <- merge_updates site_updates batch_updates (Some site_id);
             Ok (b, c')) ids (canon o, c) = Ok (canon o', c').
  Proof.
    intros A. revert o. induction A as [c|c id v c1 ids vs c2 Eu A IH]; intros o F; inversion F; subst; cbn [foldM].
    - reflexivity.
    - rewrite Eu. cbn [bind]. cbn. now apply IH.
    - rewrite Eu. cbn [bind]. destruct v as [| | | | | | |u]; try congruence;
      try match goal with M : means _ _ _ _ |- _ => inversion M; fail end.
      rewrite (merge_means_dict u S G o id) by assumption. cbn [bind].
      apply (IH (Some (dmerge (csites o) S, dmerge (cgen o) G))). assumption.
  Qed.

  Lemma answers_length s c ids vs c' : answers s c ids vs c' -> length vs = length ids.
  Proof. induction 1; cbn; congruence. Qed.
  Lemma answers_nth s c ids vs c' t id v : answers s c ids vs c' ->
    nth_error ids t = Some id -> nth_error vs t = Some v ->
    exists c1 c2, c_update ctl c1 id s = Ok (v, c2).
  Proof.
    intros A. revert t. induction A as [c|c id0 v0 c1 ids vs c2 Eu A IH]; intros [|t] E1 E2; cbn in *; try discriminate.
    - injection E1 as ->. injection E2 as ->. eauto.
    - eapply IH; eassumption.
  Qed.
End Batch.

(** ** Own-site answers *)
Lemma own_answer_cases id v u : own_answer id v u ->
  (v = VNone /\ u = []) \/ (v <> VNone /\ means id v [(id, VDict u)] []).
Proof. auto. Qed.

(** The site part of a folded list of own answers: last answer per site; no site twice. *)
Definition keep (id : key) (v : val) (u : pdict) : list (key * pdict) :=
  match v with VNone => [] | _ => [(id, u)] end.

Definition own_sites (ids : list key) (vs : list val) (us : list pdict) : dict key pdict :=
  flat_map (fun p => keep (fst (fst p)) (snd (fst p)) (snd p)) (combine (combine ids vs) us).

Lemma folded_own o o' ids vs us :
  folded o ids vs o' -> NoDup ids ->
  Forall2 (fun iv u => own_answer (fst iv) (snd iv) u) (combine ids vs) us ->
  (forall id, In id ids -> ~ In id (dkeys (csites o))) ->
  csites o' = csites o ++ vsites (own_sites ids vs us) /\ cgen o' = cgen o /\
  (o' = None <-> o = None /\ Forall (fun v => v = VNone) vs).
Proof.
  intros F. revert us. induction F as [o|o id ids vs o' F IH|o id v ids vs o' S G NN M F IH]; intros us ND W FR.
  - cbn in W. inversion W; subst. cbn. rewrite app_nil_r. repeat split; auto; tauto.
  - cbn in W. inversion W as [|? u ? us' Wu W']; subst. inversion ND as [|? ? N1 N2]; subst.
    destruct (IH us' N2 W') as (A & B & D); [intros i I; apply FR; now right|].
    split; [exact A|]. split; [exact B|]. rewrite D. split; intros [E1 E2]; split; auto. now inversion E2.
  - cbn in W. inversion W as [|? u ? us' Wu W']; subst. inversion ND as [|? ? N1 N2]; subst.
    destruct Wu as [[E _]|[_ M']]; cbn in *; [congruence|].
    destruct (means_fun _ _ _ _ _ _ M M') as [-> ->].
    assert (Fr : ~ In id (dkeys (csites o))) by (apply FR; now left).
    assert (ES : dmerge (csites o) [(id, VDict u)] = csites o ++ [(id, VDict u)]) by (cbn; now apply dset_snoc).
    rewrite ES in *. cbn [csites cgen dmerge fold_left] in IH.
    destruct (IH us' N2 W') as (A & B & D).
    { intros i I. unfold dkeys. rewrite map_app, in_app_iff. intros [J|[J|[]]].
      - apply (FR i); [now right|exact J].
      - cbn in J. subst. tauto. }
    split; [|split].
    + rewrite A. unfold own_sites. cbn [combine flat_map fst snd]. rewrite <- app_assoc.
      destruct v; try congruence; reflexivity.
    + exact B.
    + rewrite D. split; [intros [E _]; discriminate|]. intros [_ E]. inversion E; subst. congruence.
Qed.

Lemma own_sites_keys ids vs us i : In i (dkeys (own_sites ids vs us)) -> In i ids.
Proof.
  unfold own_sites, dkeys. rewrite in_map_iff. intros ([j u] & <- & I). apply in_flat_map in I as ([[id v] u'] & I & J).
  apply in_combine_l in I. apply in_combine_l in I. cbn in J. unfold keep in J.
  destruct v; cbn in J; try (destruct J as [J|[]]; injection J as <- <-; assumption). destruct J.
Qed.
Lemma own_sites_nodup ids vs us : NoDup ids -> uniq (own_sites ids vs us).
Proof.
  unfold uniq. revert vs us. induction ids as [|id ids IH]; intros [|v vs] [|u us] N; try constructor.
  inversion N as [|? ? N1 N2]; subst. unfold own_sites. cbn [combine flat_map fst snd].
  fold (own_sites ids vs us). unfold dkeys. rewrite map_app.
  assert (Q : NoDup (map fst (own_sites ids vs us))) by now apply IH.
  destruct v; cbn [keep map app]; try exact Q; constructor; try exact Q;
  intros I; apply N1; eapply own_sites_keys, I.
Qed.
Lemma own_sites_get ids vs us t id v u : NoDup ids ->
  nth_error ids t = Some id -> nth_error vs t = Some v -> nth_error us t = Some u ->
  dget id (own_sites ids vs us) = match v with VNone => None | _ => Some u end.
Proof.
  revert vs us t. induction ids as [|id0 ids IH]; intros [|v0 vs] [|u0 us] [|t] N E1 E2 E3; cbn in E1, E2, E3; try discriminate;
  inversion N as [|? ? N1 N2]; subst; unfold own_sites; cbn [combine flat_map fst snd]; fold (own_sites ids vs us).
  - injection E1 as ->. injection E2 as ->. injection E3 as ->.
    destruct v; cbn [keep app dget]; try (now rewrite eqb_refl).
    apply dget_None. intros I. apply N1. eapply own_sites_keys, I.
  - assert (Ne : id <> id0) by (intros ->; apply N1; eapply nth_error_In, E1).
    destruct v0; cbn [keep app dget]; rewrite ?(eqb_neq id id0) by assumption; eapply IH; eassumption.
Qed.
Lemma own_sites_uniq ids vs us : (forall u, In u us -> uniq u) ->
  forall i u, In (i, u) (own_sites ids vs us) -> uniq u.
Proof.
  intros U i u I. apply in_flat_map in I as ([[id v] u'] & I & J).
  apply in_combine_r in I. cbn in J. unfold keep in J.
  destruct v; cbn in J; try (destruct J as [J|[]]; injection J as <- <-; auto). destruct J.
Qed.

Lemma site_ids_set_sites_sub s sites : (forall i, In i (dkeys sites) -> In i (site_ids s)) ->
  site_ids (set_sites_t s sites) = site_ids s.
Proof.
  unfold set_sites_t. revert s. induction sites as [|[i u] t IH]; intros s F; cbn [fold_left]; [reflexivity|].
  cbn in F. rewrite IH.
  - cbn [fst snd]. rewrite site_ids_set. assert (M : mem i (site_ids s) = true) by (apply mem_In, F; now left). now rewrite M.
  - intros j I. cbn [fst snd]. rewrite site_ids_set. assert (M : mem i (site_ids s) = true) by (apply mem_In, F; now left).
    rewrite M. apply F. now right.
Qed.

Lemma swf_ids s : swf s -> NoDup (site_ids s).
Proof. intros W. apply W. Qed.

(** Choose the list of own updates. *)
Lemma answers_own {C} (ctl : controller C) s c ids vs c' : own_rule ctl -> answers ctl s c ids vs c' ->
  exists us, Forall2 (fun iv u => own_answer (fst iv) (snd iv) u) (combine ids vs) us /\ (forall u, In u us -> uniq u) /\ length us = length ids.
Proof.
  intros O. induction 1 as [c|c id v c1 ids vs c2 Eu A (us & W & U & L)].
  - exists []. repeat split; [constructor|intros u []].
  - destruct (O _ _ _ _ _ Eu) as (u & Ou & Uu). exists (u :: us). split; [constructor; auto|].
    split; [|cbn; congruence]. intros w [->|I]; auto.
Qed.

(** One serial step for an own-site rule. *)
Lemma sync_step_own {C} (ctl : controller C) s c b c' s' : own_rule ctl -> swf s ->
  take_step ctl s c = Ok (b, c') -> batch_update s b = Ok s' ->
  exists vs us sites,
    answers ctl s c (site_ids s) vs c' /\
    Forall2 (fun iv u => own_answer (fst iv) (snd iv) u) (combine (site_ids s) vs) us /\
    (forall u, In u us -> uniq u) /\ length us = length (site_ids s) /\
    sites = own_sites (site_ids s) vs us /\
    b = full_update (vsites sites) [] /\ s' = set_sites_t s sites /\ swf s' /\ site_ids s' = site_ids s.
Proof.
  intros O W E B. apply step_batch_Ok in E as (vs & o & A & F & ->).
  destruct (answers_own _ _ _ _ _ _ O A) as (us & Wu & Uu & L).
  destruct (folded_own _ _ _ _ us F (swf_ids s W) Wu) as (E1 & E2 & E3); [cbn; tauto|].
  destruct o as [[S G]|]; cbn in E1, E2; [|discriminate]. subst S G.
  exists vs, us, (own_sites (site_ids s) vs us).
  cbn [canon] in B. apply batch_full_Ok in B as (sites & Es & ->).
  assert (Es' : sites = own_sites (site_ids s) vs us).
  { revert Es. generalize (own_sites (site_ids s) vs us) as l. clear. induction sites as [|[i u] t IH]; intros [|[j w] l] E; cbn in E; try discriminate; auto.
    injection E as -> -> E. f_equal. auto. }
  subst sites.
  assert (G0 : forall x, set_general_state x [] = x) by (intros []; reflexivity). rewrite G0.
  repeat split; auto.
  - apply swf_set_sites_t; [assumption|]. now apply own_sites_uniq.
  - apply swf_set_sites_t; [assumption|]. now apply own_sites_uniq.
  - apply swf_set_sites_t; [assumption|]. now apply own_sites_uniq.
  - apply site_ids_set_sites_sub. intros i I. eapply own_sites_keys, I.
Qed.

(** The effect of one own-site step on every entry. *)
Lemma sync_step_effect {C} (ctl : controller C) s c b c' s' : own_rule ctl -> swf s ->
  take_step ctl s c = Ok (b, c') -> batch_update s b = Ok s' ->
  swf s' /\ site_ids s' = site_ids s /\ get_general_state s' = get_general_state s /\
  forall id, In id (site_ids s) -> exists c1 c2 v u,
    c_update ctl c1 id s = Ok (v, c2) /\ own_answer id v u /\
    forall k, site_entry s' id k = upd_entry u k (site_entry s id k).
Proof.
  intros O W E B. destruct (sync_step_own _ _ _ _ _ _ O W E B) as (vs & us & sites & A & Wu & Uu & L & Es & Eb & Es' & W' & I').
  split; [exact W'|]. split; [exact I'|]. split; [subst s'; apply set_sites_t_general|].
  intros id I. apply In_nth_error in I as [t Ht].
  pose proof (answers_length _ _ _ _ _ _ A) as Lv.
  assert (Lt : (t < length (site_ids s))%nat) by (apply nth_error_Some; congruence).
  destruct (nth_error vs t) as [v|] eqn:Ev; [|apply nth_error_None in Ev; lia].
  destruct (nth_error us t) as [u|] eqn:Eu; [|apply nth_error_None in Eu; lia].
  destruct (answers_nth _ _ _ _ _ _ _ _ _ A Ht Ev) as (c1 & c2 & Ec).
  assert (Ow : own_answer id v u).
  { clear -Wu Ht Ev Eu. revert vs us t Wu Ht Ev Eu. induction (site_ids s) as [|i ids IH]; intros [|v0 vs] us [|t] Wu Ht Ev Eu; cbn in *; try discriminate;
    inversion Wu as [|? u0 ? us' W0 W1]; subst; cbn in *.
    - injection Ht as ->. injection Ev as ->. injection Eu as ->. exact W0.
    - eapply IH; eassumption. }
  exists c1, c2, v, u. split; [exact Ec|]. split; [exact Ow|].
  intros k. subst s' sites. rewrite site_entry_set_sites_t.
  - rewrite (own_sites_get _ _ _ _ _ _ _ (swf_ids s W) Ht Ev Eu).
    assert (EN : entry_or_new s id k = site_entry s id k).
    { unfold entry_or_new, site_entry. destruct (get_site_state s id) eqn:G; [reflexivity|].
      exfalso. apply nth_error_In in Ht. apply get_site_state_In in Ht. congruence. }
    rewrite EN. destruct v; try reflexivity.
    destruct Ow as [[_ ->]|[N _]]; [reflexivity|congruence].
  - apply own_sites_nodup. now apply swf_ids.
  - now apply own_sites_uniq.
Qed.

(** ** The serial loop *)
Lemma sync_loop_spec {C} (ctl : controller C) n live diffs c live' diffs' c' :
  sync_loop ctl n live diffs c = Ok (live', diffs', c') ->
  exists ds, diffs' = diffs ++ ds /\ length ds = n /\ foldM batch_update ds live = Ok live' /\
  forall t d, nth_error ds t = Some d -> exists s c1 c2 s',
     foldM batch_update (firstn t ds) live = Ok s /\ take_step ctl s c1 = Ok (d, c2) /\ batch_update s d = Ok s'.
Proof.
  revert live diffs c. induction n as [|n IH]; intros live diffs c E; cbn in E.
  - injection E as <- <- <-. exists []. rewrite app_nil_r. repeat split. intros [|t] d Ht; discriminate.
  - apply bind_Ok in E as ([u c1] & E1 & E). apply bind_Ok in E as (live1 & E2 & E).
    apply IH in E as (ds & -> & L & R & St). exists (u :: ds). rewrite <- app_assoc. cbn. rewrite E2. cbn.
    repeat split; auto. intros [|t] d Ht; cbn in Ht.
    + injection Ht as <-. exists live, c, c1, live1. cbn. auto.
    + destruct (St t d Ht) as (s & c2 & c3 & s' & A & B & D). exists s, c2, c3, s'. cbn. rewrite E2. cbn. auto.
Qed.

Lemma run_sync_Ok {C} (ctl : controller C) c0 init n o : run_sync ctl c0 init n = Ok o ->
  exists ds, o_result o = mkR init ds [] /\ length ds = Z.to_nat n /\
    foldM batch_update ds init = Ok (o_output o) /\
    forall t d, nth_error ds t = Some d -> exists s c1 c2 s',
     replay init ds t = Ok s /\ take_step ctl s c1 = Ok (d, c2) /\ batch_update s d = Ok s' /\
     replay init ds (S t) = Ok s'.
Proof.
  unfold run_sync. intros E. apply bind_Ok in E as (c1 & E1 & E). apply bind_Ok in E as ([[live diffs] c2] & E2 & E).
  injection E as <-. apply sync_loop_spec in E2 as (ds & -> & L & R & St). exists ds. cbn [o_result o_output app]. repeat split; auto.
  intros t d Ht. destruct (St t d Ht) as (s & c3 & c4 & s' & A & B & D). exists s, c3, c4, s'.
  repeat split; auto. rewrite (replay_S _ _ _ _ Ht). unfold replay. rewrite A. exact D.
Qed.

Lemma C15_lemma : forall (C : Type) (ctl : controller C) (c0 : C) (init : sstate) (n : Z) o,
  own_rule ctl -> swf init -> run_sync ctl c0 init n = Ok o ->
  rlen (o_result o) = Z.max 0 n + 1 /\ get_step (o_result o) 0 = Ok init /\
  forall t, 0 <= t < Z.max 0 n -> exists s s',
    get_step (o_result o) t = Ok s /\ get_step (o_result o) (t + 1) = Ok s' /\
    site_ids s' = site_ids init /\ get_general_state s' = get_general_state init /\
    forall id, In id (site_ids init) -> exists c1 c2 v u,
      c_update ctl c1 id s = Ok (v, c2) /\ own_answer id v u /\
      forall k, site_entry s' id k = upd_entry u k (site_entry s id k).
Proof.
  intros C ctl c0 init n o O W R. apply run_sync_Ok in R as (ds & Er & L & RP & St). rewrite Er.
  unfold rlen. cbn [r_diffs]. split; [lia|]. split; [exact (get_step_fresh init ds 0 ltac:(lia))|].
  assert (K : forall m, (m <= length ds)%nat -> exists s, replay init ds m = Ok s /\ swf s /\ site_ids s = site_ids init /\ get_general_state s = get_general_state init).
  { induction m as [|m IH]; intros Lm; [exists init; auto|].
    destruct IH as (s & E & Ws & Is & Gs); [lia|].
    destruct (nth_error ds m) as [d|] eqn:Ed; [|apply nth_error_None in Ed; lia].
    destruct (St m d Ed) as (s0 & c1 & c2 & s' & A & B & D & F). rewrite E in A. injection A as <-.
    destruct (sync_step_effect _ _ _ _ _ _ O Ws B D) as (W' & I' & G' & _).
    exists s'. repeat split; try congruence; apply W'. }
  intros t Rt. assert (Ht : exists m, t = Z.of_nat m) by (exists (Z.to_nat t); lia). destruct Ht as [m ->].
  destruct (nth_error ds m) as [d|] eqn:Ed; [|apply nth_error_None in Ed; lia].
  destruct (K m) as (s & E & Ws & Is & Gs); [lia|].
  destruct (St m d Ed) as (s0 & c1 & c2 & s' & A & B & D & F). rewrite E in A. injection A as <-.
  destruct (sync_step_effect _ _ _ _ _ _ O Ws B D) as (W' & I' & G' & Eff).
  exists s, s'. split; [rewrite get_step_fresh by lia; exact E|].
  split; [replace (Z.of_nat m + 1) with (Z.of_nat (S m)) by lia; rewrite get_step_fresh by lia; exact F|].
  split; [congruence|]. split; [congruence|]. rewrite <- Is. exact Eff.
Qed.

(** Order independence for pure own-site rules. *)
Lemma answers_pure f s ids vs : answers (pure_controller f) s tt ids vs tt <-> Forall2 (fun id v => f id s = Ok v) ids vs.
Proof.
  split.
  - intros A. assert (Q : forall c c', answers (pure_controller f) s c ids vs c' -> Forall2 (fun id v => f id s = Ok v) ids vs).
    { clear A. induction ids as [|id ids IH] in vs |- *; intros c c' A; inversion A; subst; constructor.
      - match goal with H : c_update _ _ _ _ = _ |- _ => cbn in H; apply bind_Ok in H as (v' & E & F); injection F as <- <- end. exact E.
      - eapply IH; eassumption. }
    eapply Q, A.
  - induction 1 as [|id v ids vs E F IH]; [constructor|]. econstructor; [|exact IH]. cbn. now rewrite E.
Qed.

Lemma set_sites_t_perm s l1 l2 : uniq l1 -> Permutation l1 l2 ->
  (forall i, In i (dkeys l1) -> In i (site_ids s)) -> uniq (s_sites s) ->
  set_sites_t s l1 = set_sites_t s l2.
Proof.
  intros U P F W.
  assert (U2 : uniq l2) by (eapply Permutation_NoDup; [apply Permutation_map, P|exact U]).
  assert (D : forall i, dget i l1 = dget i l2).
  { intros i. destruct (dget i l1) as [u|] eqn:E.
    - apply dget_In in E. symmetry. apply In_dget; [assumption|]. eapply Permutation_in; eassumption.
    - symmetry. apply dget_None. apply dget_None in E. intros I. apply E.
      eapply Permutation_in; [|exact I]. apply Permutation_sym. now apply Permutation_map. }
  assert (F2 : forall i, In i (dkeys l2) -> In i (site_ids s)).
  { intros i I. apply F. eapply Permutation_in; [|exact I]. apply Permutation_sym, Permutation_map, P. }
  assert (E : s_sites (set_sites_t s l1) = s_sites (set_sites_t s l2)).
  { apply dict_ext.
    - change (NoDup (site_ids (set_sites_t s l1))). rewrite site_ids_set_sites_sub by assumption. exact W.
    - change (site_ids (set_sites_t s l1) = site_ids (set_sites_t s l2)). now rewrite !site_ids_set_sites_sub.
    - intros i. change (get_site_state (set_sites_t s l1) i = get_site_state (set_sites_t s l2) i).
      now rewrite !get_set_sites_t, D. }
  pose proof (set_sites_t_general s l1) as G1. pose proof (set_sites_t_general s l2) as G2.
  unfold get_general_state in *. destruct (set_sites_t s l1), (set_sites_t s l2); cbn in *. congruence.
Qed.

Definition upd_of (f : key -> sstate -> res val) (s : sstate) (id : key) (u : pdict) : Prop :=
  exists v, f id s = Ok v /\ own_answer id v u.
