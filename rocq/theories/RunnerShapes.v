(** Update shapes, merging, None answers, and reloading of runner results. *)
From Verif Require Import Prelude Dict Val ValFacts StateModel ResultModel RunnerModel JsonModel SpecState SpecResult SpecRunner StateFacts ResultFacts JsonFacts RunnerFacts SyncFacts ParFacts ParRun RunnerMore.

(** ** C10: results of runs do not reload *)
Lemma format_full S G : format_diff (json_roundtrip (full_update S G)) = Err ValueError.
Proof. reflexivity. Qed.

Lemma reload_full init S G ds st : json_state init ->
  result_from_dict (json_roundtrip (result_as_dict (mkR init (full_update S G :: ds) st))) = Err ValueError.
Proof.
  intros J. rewrite result_from_dict_unfold. cbn [r_init r_diffs]. rewrite C06_lemma by assumption. cbn [bind map foldM].
  now rewrite format_full.
Qed.

Lemma C10_async_refuted_lemma : forall (C : Type) (ctl : controller C) (c0 : C) (init : sstate) (n : Z) o,
  json_state init -> run_async ctl c0 init n = Ok o -> 1 < rlen (o_result o) ->
  result_from_dict (json_roundtrip (result_as_dict (o_result o))) = Err ValueError.
Proof.
  intros C ctl c0 init n o J R L.
  apply run_async_Ok in R as (c1 & q & c2 & es & ds & a & _ & _ & _ & Ch & _ & _ & Er & _). rewrite Er in *.
  unfold rlen in L. cbn [r_diffs] in L. destruct ds as [|d ds]; [cbn in L; lia|].
  inversion Ch as [|? e ? a1 es' ds' ? St Ch']; subst.
  destruct St as (q1 & resp & c1' & ups & nx & S & G & _ & _ & _ & _ & _ & -> & _). now apply reload_full.
Qed.
Lemma C10_sync_refuted_lemma : forall (C : Type) (ctl : controller C) (c0 : C) (init : sstate) (n : Z) o,
  json_state init -> run_sync ctl c0 init n = Ok o -> 0 < n ->
  result_from_dict (json_roundtrip (result_as_dict (o_result o))) = Err ValueError.
Proof.
  intros C ctl c0 init n o J R L. apply run_sync_Ok in R as (ds & Er & Le & RP & St). rewrite Er.
  destruct ds as [|d ds]; [cbn in Le; lia|].
  destruct (St 0%nat d eq_refl) as (s & c1 & c2 & s' & E1 & E2 & E3 & _).
  apply step_batch_Ok in E2 as (vs & [[S G]|] & _ & _ & ->); [|discriminate]. now apply reload_full.
Qed.
(** Hand-recorded steps with general updates lose them. *)
Lemma C10_general_refuted_lemma : exists (r r' : sresult) s s',
  json_state (r_init r) /\ r_diffs r = [VDict [(GENERAL, VDict [(KStr "t", VInt 1)])]] /\
  result_from_dict (json_roundtrip (result_as_dict r)) = Ok r' /\
  get_step r 1 = Ok s /\ get_step r' 1 = Ok s' /\
  general_entry s (KStr "t") = Some (VInt 1) /\ general_entry s' (KStr "t") = Some (VInt 0).
Proof.
  exists (mkR (mkS [] [(KStr "t", VInt 0)]) [VDict [(GENERAL, VDict [(KStr "t", VInt 1)])]] []).
  eexists. eexists. eexists. split.
  - split; [constructor|]. split; [constructor|]. cbn. split; [repeat constructor; tauto|]. split; [eauto|auto].
  - split; [reflexivity|]. split; [vm_compute; reflexivity|]. split; [vm_compute; reflexivity|].
    split; [vm_compute; reflexivity|]. split; vm_compute; reflexivity.
Qed.

(** ** C19 *)
Lemma C19_lemma : forall (id : key) (v : val) (S G : pdict),
  means id v S G -> upd_wf S G -> v <> VNone ->
  merge_updates v VNone (Some id) = Ok (full_update S G) /\
  forall s, exists s', batch_update s (full_update S G) = Ok s' /\ updated s S G s'.
Proof.
  intros id v S G M (US & UG & UV) NN.
  destruct v as [| | | | | | |u]; try congruence; try (inversion M; fail).
  pose proof (merge_means_dict u S G None id M) as Em. cbn [canon csites cgen] in Em.
  destruct (means_dmerge_nil _ _ _ _ US UG M) as [EqS EqG]. rewrite EqS, EqG in Em. split; [exact Em|].
  intros s. destruct (vdicts_vsites S) as [sites ES]; [intros i w I; destruct (UV i w I) as (u' & -> & _); eauto|].
  assert (B : batch_update s (full_update S G) = Ok (set_general_state (set_sites_t s sites) G)).
  { rewrite ES, batch_full_update, set_sites_vsites. reflexivity. }
  eexists. split; [exact B|]. apply batch_full_updated; auto.
  intros i w I u' ->. destruct (UV i (VDict u') I) as (u2 & E & U2). congruence.
Qed.
Lemma C19_none_lemma : forall (curr : val) (id : option key), merge_updates VNone curr id = Ok curr.
Proof. reflexivity. Qed.
(** The three shapes of one and the same site update. *)
Lemma C19_shapes_lemma : forall (z : Z) (u : pdict), no_reserved u -> ~ site_map u -> uniq u ->
  let id := KInt z in
  let full := Ok (full_update [(id, VDict u)] []) in
  merge_updates (VDict u) VNone (Some id) = full /\
  (forall at_site, merge_updates (VDict [(id, VDict u)]) VNone (Some at_site) = full) /\
  (forall at_site, merge_updates (VDict [(SITES, VDict [(id, VDict u)])]) VNone (Some at_site) = full) /\
  (forall at_site, merge_updates (VDict [(SITES, VDict [(id, VDict u)]); (GENERAL, VDict [])]) VNone (Some at_site) = full) /\
  (forall at_site, merge_updates (VDict [(GENERAL, VDict []); (SITES, VDict [(id, VDict u)])]) VNone (Some at_site) = full).
Proof.
  intros z u NR NS U id full. subst full. split; [|repeat split; intros; reflexivity].
  apply (merge_means_dict u [(id, VDict u)] [] None id). now apply means_site.
Qed.
(** A site update whose keys are all integers is taken for a map of sites. *)
Lemma C19_int_keys_lemma : forall (id : key) (u : pdict), site_map u -> no_reserved u -> uniq u ->
  merge_updates (VDict u) VNone (Some id) = Ok (full_update u []).
Proof.
  intros id u SM NR U. pose proof (merge_means_dict u u [] None id (means_sites id u NR SM)) as E.
  cbn [canon csites cgen] in E. now rewrite (dict_of_id u U : dmerge [] u = u) in E.
Qed.

(** ** C20 *)
Lemma dget_fold_merge {V} (Ss : list (dict key V)) : Forall uniq Ss -> forall acc i,
  dget i (fold_left dmerge Ss acc) = fold_left (fun a S => match dget i S with Some v => Some v | None => a end) Ss (dget i acc).
Proof.
  induction 1 as [|S Ss U F IH]; intros acc i; cbn; [reflexivity|]. rewrite IH. f_equal. now rewrite dget_dmerge.
Qed.

Lemma folded_merge o ids vs o' : folded o ids vs o' ->
  exists Ss Gs, Forall2 (fun idv SG => means (fst idv) (snd idv) (fst SG) (snd SG)) (combine ids vs) (combine Ss Gs) /\
    length Ss = length ids /\ length Gs = length ids /\ length vs = length ids /\
    ((forall v, In v vs -> v = VNone) -> o' = o) /\
    csites o' = fold_left dmerge Ss (csites o) /\ cgen o' = fold_left dmerge Gs (cgen o).
Proof.
  induction 1 as [o|o id ids vs o' F IH|o id v ids vs o' S G NN M F IH].
  - exists [], []. repeat split; constructor.
  - destruct IH as (Ss & Gs & A & L1 & L2 & L3 & N & B & D). exists ([] :: Ss), ([] :: Gs). cbn.
    split; [constructor; [constructor|assumption]|]. repeat split; try lia; auto.
  - destruct IH as (Ss & Gs & A & L1 & L2 & L3 & N & B & D). exists (S :: Ss), (G :: Gs). cbn.
    split; [constructor; assumption|]. repeat split; try lia; auto.
    intros Q. exfalso. apply NN. apply Q. now left.
Qed.

(** Rules answer with proper dictionaries (synchronous runs). *)
Lemma C20_lemma : forall (C : Type) (ctl : controller C) (ids : list key) (s : sstate) (c c' : C) S G,
  (forall c id s v c' S G, c_update ctl c id s = Ok (v, c') -> means id v S G -> uniq S /\ uniq G) ->
  step_batch ctl ids s c = Ok (full_update S G, c') ->
  exists vs Ss Gs,
    Forall2 (fun id v => exists c1 c2, c_update ctl c1 id s = Ok (v, c2)) ids vs /\
    Forall2 (fun idv SG => means (fst idv) (snd idv) (fst SG) (snd SG)) (combine ids vs) (combine Ss Gs) /\
    length Ss = length ids /\ length Gs = length ids /\
    (forall i, dget i S = last_for i Ss) /\ (forall k, dget k G = last_for k Gs).
Proof.
  intros C ctl ids s c c' S G U E. apply step_batch_Ok in E as (vs & o & A & F & Eo).
  apply folded_merge in F as (Ss & Gs & M & L1 & L2 & L3 & _ & B & D).
  destruct o as [[S0 G0]|]; [|discriminate]. unfold full_update in Eo. cbn [canon] in Eo. unfold full_update in Eo.
  injection Eo as <- <-. cbn [csites cgen] in *.
  assert (F2 : Forall2 (fun id v => exists c1 c2, c_update ctl c1 id s = Ok (v, c2)) ids vs).
  { clear -A. induction A; constructor; eauto. }
  assert (UU : Forall uniq Ss /\ Forall uniq Gs).
  { clear -F2 M U L1 L2 L3. revert Ss Gs M L1 L2. induction F2 as [|id v ids vs (c1 & c2 & Eu) F2 IH]; intros Ss Gs M L1 L2.
    - destruct Ss, Gs; try discriminate. split; constructor.
    - destruct Ss as [|S Ss], Gs as [|G Gs]; try discriminate. cbn in M. inversion M as [|? ? ? ? Mh Mt]; subst. cbn [fst snd] in Mh.
      destruct (U _ _ _ _ _ _ _ Eu Mh) as [U1 U2].
      destruct (IH ltac:(cbn in *; lia) Ss Gs Mt) as [I1 I2]; [cbn in *; lia|cbn in *; lia|]. split; constructor; auto. }
  destruct UU as [U1 U2]. exists vs, Ss, Gs. repeat split; auto.
  - intros i. rewrite B. apply (dget_fold_merge Ss U1).
  - intros k. rewrite D. apply (dget_fold_merge Gs U2).
Qed.

(** Two rules writing different keys of the same site: the earlier assignment is lost. *)
Definition both_rule (id : key) (s : sstate) : res val :=
  Ok (VDict [(KInt 0, VDict [(if eqb id (KInt 0) then KStr "a" else KStr "b", VInt 1)])]).
Lemma C20_refuted_lemma : exists (f : key -> sstate -> res val) init o s,
  swf init /\ run_sync (pure_controller f) tt init 1 = Ok o /\ get_step (o_result o) 1 = Ok s /\
  In (KInt 0) (site_ids init) /\
  (forall x, f (KInt 0) x = Ok (VDict [(KInt 0, VDict [(KStr "a", VInt 1)])])) /\
  site_entry init (KInt 0) (KStr "a") = None /\ site_entry s (KInt 0) (KStr "a") = None.
Proof.
  exists both_rule, st2. eexists. eexists. split; [exact swf_st2|]. split; [vm_compute; reflexivity|].
  split; [vm_compute; reflexivity|]. split; [now left|]. split; [reflexivity|]. split; reflexivity.
Qed.
(** On conflicts the later site wins serially, the earlier batch wins in parallel. *)
Definition conflict_rule (id : key) (s : sstate) : res val :=
  Ok (VDict [(KInt 0, VDict [(KStr "a", match id with KInt z => VInt z | _ => VNone end)])]).
Lemma C20_parallel_refuted_lemma : exists (f : key -> sstate -> res val) init sched o o' s s',
  swf init /\ run_sync (pure_controller f) tt init 1 = Ok o /\
  run_parallel (pure_controller f) 2 sched tt init 1 = Ok o' /\
  get_step (o_result o) 1 = Ok s /\ get_step (o_result o') 1 = Ok s' /\
  site_entry s (KInt 0) (KStr "a") = Some (VInt 1) /\ site_entry s' (KInt 0) (KStr "a") = Some (VInt 0).
Proof.
  exists conflict_rule, st2, (fun _ b => b). eexists. eexists. eexists. eexists. split; [exact swf_st2|].
  split; [vm_compute; reflexivity|]. split; [vm_compute; reflexivity|]. split; [vm_compute; reflexivity|].
  split; [vm_compute; reflexivity|]. split; reflexivity.
Qed.

(** ** C22 *)
(** Serial: a None answer leaves the site's state as it was, provided some site answers. *)
Lemma C22_sync_lemma : forall (f : key -> sstate -> res val) (init : sstate) (n : Z) o,
  own_fun f -> swf init -> run_sync (pure_controller f) tt init n = Ok o ->
  forall t s s' id, 0 <= t < Z.max 0 n -> get_step (o_result o) t = Ok s -> get_step (o_result o) (t + 1) = Ok s' ->
    In id (site_ids init) -> f id s = Ok VNone -> forall k, site_entry s' id k = site_entry s id k.
Proof.
  intros f init n o Own W R t s s' id Rt E1 E2 I Ef k.
  assert (O : own_rule (pure_controller f)).
  { intros c0 i x v c' Eu. cbn in Eu. apply bind_Ok in Eu as (v' & Ev & Eu). injection Eu as <- <-. eapply Own, Ev. }
  destruct (C15_lemma unit (pure_controller f) tt init n o O W R) as (_ & _ & H).
  destruct (H t Rt) as (x & x' & Ex & Ex' & _ & _ & Hid). rewrite E1 in Ex. injection Ex as <-. rewrite E2 in Ex'. injection Ex' as <-.
  destruct (Hid id I) as (c1 & c2 & v & u & Eu & OA & Ent). cbn in Eu. rewrite Ef in Eu. injection Eu as <- <-.
  destruct OA as [[_ ->]|[NN _]]; [|congruence]. rewrite Ent. reflexivity.
Qed.
(** Serial: if no site answers at all, the run crashes. *)
Lemma foldM_none {C} (ctl : controller C) s (H : forall c id, c_update ctl c id s = Ok (VNone, c)) ids c :
  step_batch ctl ids s c = Ok (VNone, c).
Proof. unfold step_batch. induction ids as [|id ids IH]; cbn [foldM]; [reflexivity|]. rewrite H. cbn [bind merge_updates]. exact IH. Qed.

Lemma C22_sync_refuted_lemma : forall (init : sstate) (n : Z), 0 < n ->
  run_sync (pure_controller (fun _ _ => Ok VNone)) tt init n = Err TypeError.
Proof.
  intros init n L. unfold run_sync. cbn [c_pre_run pure_controller bind].
  destruct (Z.to_nat n) as [|m] eqn:E; [lia|]. cbn [sync_loop]. unfold take_step.
  rewrite (foldM_none (pure_controller (fun _ _ => Ok VNone)) init (fun c id => eq_refl)). reflexivity.
Qed.
Lemma C22_async_refuted_lemma : forall (C : Type) (ctl : controller C) (c0 c1 c2 c3 : C) (init : sstate) (n : Z) v k ks,
  0 < n -> c_pre_run ctl c0 init = Ok c1 -> c_random_site ctl c1 init = Ok (v, c2) -> offers v (k :: ks) ->
  c_update ctl c2 k init = Ok (VNone, c3) -> run_async ctl c0 init n = Err TypeError.
Proof.
  intros C ctl c0 c1 c2 c3 init n v k ks L E1 E2 O E3. unfold run_async. rewrite E1. cbn [bind].
  assert (E2' : add_sites ctl init [] c1 = Ok (k :: ks, c2)) by (apply add_sites_offers; eauto).
  rewrite E2'. cbn [bind]. destruct (Z.to_nat n) as [|m] eqn:E; [lia|]. cbn [async_loop]. unfold async_step. cbn [a_queue a_ctl a_live].
  rewrite E3. reflexivity.
Qed.
(** Parallel: the run crashes at the second step, or the result cannot be read. *)
Lemma C22_parallel_refuted_lemma : exists init sched o,
  swf init /\ run_parallel (pure_controller (fun _ _ => Ok VNone)) 2 sched tt init 1 = Ok o /\
  rlen (o_result o) = 2 /\ get_step (o_result o) 1 = Err TypeError.
Proof.
  exists st2, (fun _ b => b). eexists. split; [exact swf_st2|]. split; [vm_compute; reflexivity|]. split; reflexivity.
Qed.
