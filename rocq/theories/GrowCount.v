(** Phase fractions in growth runs (C137). *)
From Coq Require Import Reals Lra.
From Flocq Require Import Core Binary BinarySingleNaN Bits.
From Verif Require Import Prelude Dict Val ValFacts Arith RealArith LatticeModel StructModel StateModel ResultModel RunnerModel NbModel RulesModel AnalyzerModel SpecState SpecResult SpecRunner SpecNb SpecRules SpecAnalyze StateFacts ResultFacts RunnerFacts GenRun RulesFacts RulesMore AsyncGrow AnalyzerFacts FracAt FloatArith SpecFloat64 FloatFacts FloatFrac RunSplit.
Local Open Scope Z_scope.

Definition quiet (u : pdict) : Prop := u = [] \/ exists v, u = [(KStr "DISCRETE_OCCUPANCY", v)].
Lemma quiet_own id u : quiet u -> means id (VDict u) [(id, VDict u)] [].
Proof.
  intros [->|(q & ->)]; apply means_site.
  - split; reflexivity.
  - intros [H _]. congruence.
  - split; reflexivity.
  - intros [_ H]. destruct (H (KStr "DISCRETE_OCCUPANCY")) as [z E]; [simpl; auto|discriminate].
Qed.
Lemma grow_quiet id u : grow_upd id u -> quiet u.
Proof. intros [->|(q & ->)]; [now left|right; eauto]. Qed.

Lemma ided_set s k u : ided s -> quiet u -> ided (set_site_state s k u).
Proof.
  intros [U I] Q. split; [unfold set_site_state; cbn [s_sites]; now apply NoDup_dset|].
  intros k' d E. unfold get_site_state, set_site_state in E. cbn [s_sites] in E. destruct (eqb_spec k' k) as [->|D].
  - rewrite dget_dset_same in E. injection E as <-. destruct (dget k (s_sites s)) as [old|] eqn:EO.
    + specialize (I k old EO). destruct Q as [->|(v & ->)]; cbn [dmerge fold_left fst snd]; [exact I|]. unfold dmerge. cbn. rewrite dget_dset_other; [exact I|discriminate].
    + destruct Q as [->|(v & ->)]; reflexivity.
  - rewrite dget_dset_other in E by auto. now apply I.
Qed.
Lemma ided_sites U : forall s, ided s -> (forall k u, In (k, u) U -> quiet u) -> ided (set_sites_t s U).
Proof.
  unfold set_sites_t. induction U as [|[k u] U IH]; intros s I Q; [exact I|]. cbn [fold_left fst snd]. apply IH; [|intros; eapply Q; right; eauto]. apply ided_set; [exact I|]. eapply Q. now left.
Qed.
Lemma ided_after (U : nat -> dict key pdict) init : ided init -> forall t, (forall t' k u, (t' < t)%nat -> In (k, u) (U t') -> quiet u) -> ided (after U init t).
Proof.
  intros I. induction t as [|t IH]; intros Q; [exact I|]. rewrite after_S. apply ided_sites; [apply IH; intros; eapply (Q t'); [lia|eauto]|]. intros k u. apply Q. lia.
Qed.

Section Counts.
  Variables (ids : list Z) (bg : string) (st st' : sstate).
  Hypothesis (PH : phased ids st) (PH' : phased ids st') (I : ided st) (I' : ided st').

  Lemma phased_discrete s : phased ids s -> ided s -> discrete s.
  Proof. intros [E H] ID. split; [exact ID|]. intros k Hk. rewrite E in Hk. apply in_map_iff in Hk as (i & <- & Hi). destruct (H i Hi) as [p Hp]. exists (VStr p). split; [exact Hp|reflexivity]. Qed.
  Lemma has_phase_holds s i p : has_phase s (VStr p) (KInt i) = true <-> holds s i p.
  Proof.
    unfold has_phase, holds. destruct (site_entry s (KInt i) (KStr "DISCRETE_OCCUPANCY")) as [v|]; [|split; discriminate]. split.
    - intros E. destruct v; try discriminate. cbn in E. apply String.eqb_eq in E. now subst.
    - intros E. injection E as ->. cbn. apply String.eqb_refl.
  Qed.
  Lemma filter_le {A} (f g : A -> bool) l : (forall x, In x l -> f x = true -> g x = true) -> (length (filter f l) <= length (filter g l))%nat.
  Proof.
    induction l as [|x l IH]; intros H; [auto|]. cbn [filter]. specialize (IH (fun y Hy => H y (or_intror Hy))). pose proof (H x (or_introl eq_refl)) as Hx.
    destruct (f x); [rewrite Hx by auto; cbn; lia|]. destruct (g x); cbn; lia.
  Qed.
  Lemma occ_up p : (forall i, In i ids -> holds st i p -> holds st' i p) -> occurrences st (VStr p) <= occurrences st' (VStr p).
  Proof.
    intros H. unfold occurrences. rewrite (proj1 PH), (proj1 PH'). apply Nat2Z.inj_le. apply filter_le. intros k Hk. apply in_map_iff in Hk as (i & <- & Hi). rewrite !has_phase_holds. auto.
  Qed.
  Lemma occ_down : (forall i, In i ids -> occupied bg st i -> occupied bg st' i) -> occurrences st' (VStr bg) <= occurrences st (VStr bg).
  Proof.
    intros H. unfold occurrences. rewrite (proj1 PH), (proj1 PH'). apply Nat2Z.inj_le. apply filter_le. intros k Hk. apply in_map_iff in Hk as (i & <- & Hi). rewrite !has_phase_holds.
    intros Hb. destruct (proj2 PH i Hi) as [q Hq]. destruct (eqb_spec q bg) as [->|D]; [exact Hq|]. destruct (H i Hi (ex_intro _ q (conj Hq D))) as (q' & Hq' & D'). unfold holds in *. congruence.
  Qed.
End Counts.

(** The fractions of the phase [p] at two steps, in exact and in binary64 arithmetic. *)
Lemma fractions r t t' st st' p : get_step r t = Ok st -> get_step r t' = Ok st' -> discrete st -> discrete st' -> 0 < size st -> size st' = size st ->
  (exists x x', phase_fraction_at RA r t p = Ok x /\ phase_fraction_at RA r t' p = Ok x' /\ (occurrences st p <= occurrences st' p -> (x <= x')%R) /\ (occurrences st' p <= occurrences st p -> (x' <= x)%R)) /\
  (size st < 2 ^ 53 -> exists x x', phase_fraction_at FA r t p = Ok x /\ phase_fraction_at FA r t' p = Ok x' /\ is_finite x = true /\ is_finite x' = true /\
     (occurrences st p <= occurrences st' p -> (B2R x <= B2R x')%R) /\ (occurrences st' p <= occurrences st p -> (B2R x' <= B2R x)%R)).
Proof.
  intros E E' D D' S0 SE. assert (DIV : forall a b, a <= b -> (IZR a / IZR (size st) <= IZR b / IZR (size st))%R).
  { intros a b L. apply Rmult_le_compat_r; [|now apply IZR_le]. apply Rlt_le, Rinv_0_lt_compat. now apply IZR_lt. }
  split.
  - destruct (C59_at_lemma r t st p E D) as [-> _]. destruct (C59_at_lemma r t' st' p E' D') as [-> _]. rewrite SE. rewrite (proj2 (Z.eqb_neq _ _)) by lia. do 2 eexists. split; [reflexivity|]. split; [reflexivity|]. split; apply DIV.
  - intros S1. destruct (C103_lemma b64 None st p D I ltac:(lia)) as (x & EX & [FX DX] & _). destruct (C103_lemma b64 None st' p D' I ltac:(lia)) as (x' & EX' & [FX' DX'] & _).
    exists x, x'. unfold phase_fraction_at. rewrite E, E'. cbn [bind]. split; [exact EX|]. split; [exact EX'|]. split; [exact FX|]. split; [exact FX'|]. rewrite DX, DX', SE. split; intros L; apply rnd_le, DIV, L.
Qed.

Lemma phased_size ids s : phased ids s -> size s = Z.of_nat (length ids).
Proof. intros [E _]. rewrite size_ids, E, map_length. reflexivity. Qed.

Section Runs.
  Context {F : Type} (N : nbhood F) (bg : string) (ords : nat -> @nb_oracle F) (rnd0 : nat -> nat).
  Notation gc := (growth_controller N bg ords rnd0).

  (** What the rule answers, on every state. *)
  Lemma answer_quiet c k s resp c' : c_update gc c k s = Ok (resp, c') -> exists u, resp = VDict u /\ quiet u.
  Proof.
    cbn [c_update growth_controller]. unfold growth_update. intros E. apply bind_Ok in E as (cur & _ & E). destruct (val_eqb cur (VStr bg)).
    - apply bind_Ok in E as (nbs & _ & E). apply bind_Ok in E as (cs & _ & E). destruct cs as [|x cs]; injection E as <- _; eexists; (split; [reflexivity|]); [now left|right; eexists; reflexivity].
    - injection E as <- _. eexists. split; [reflexivity|]. now left.
  Qed.
  Definition keeps_ids (d : val) : Prop := forall s s', ided s -> batch_update s d = Ok s' -> ided s'.
  Lemma recorded_quiet a a' : async_step gc a = Ok a' -> exists d, a_diffs a' = a_diffs a ++ [d] /\ keeps_ids d.
  Proof.
    unfold async_step. destruct (a_queue a) as [|k q]; [discriminate|]. intros E. apply bind_Ok in E as ([resp c1] & EU & E). apply answer_quiet in EU as (u & -> & Q). cbn [split_response bind] in E.
    pose proof (merge_means_dict u _ _ None k (quiet_own k u Q)) as EM. cbn [canon csites cgen] in EM. rewrite EM in E. cbn [bind] in E. apply bind_Ok in E as (live & _ & E).
    exists (full_update (dmerge [] [(k, VDict u)]) (dmerge [] [])). split.
    - cbn [extend_arg mapM bind] in E. rewrite app_nil_r in E. destruct q; [|injection E as <-; reflexivity]. apply bind_Ok in E as ([q3 c2] & _ & E). injection E as <-. reflexivity.
    - intros s s' I B. change (dmerge [] [(k, VDict u)]) with (vsites [(k, u)]) in B. rewrite batch_full_update, set_sites_vsites in B. cbn [bind] in B. injection B as <-. destruct (ided_set s k u I Q) as [A1 A2]. split; [exact A1|exact A2].
  Qed.
  Lemma loop_quiet n : forall a a', async_loop gc n a = Ok a' -> Forall keeps_ids (a_diffs a) -> Forall keeps_ids (a_diffs a').
  Proof.
    induction n as [|n IH]; intros a a' E H; cbn [async_loop] in E; [now injection E as <-|]. apply bind_Ok in E as (a1 & E1 & E). apply recorded_quiet in E1 as (d & ED & K).
    assert (H1 : Forall keeps_ids (a_diffs a1)) by (rewrite ED; apply Forall_app; split; [exact H|apply Forall_cons; [exact K|apply Forall_nil]]). destruct (a_queue a1); [injection E as <-; exact H1|eapply IH; eauto].
  Qed.
  Lemma fold_quiet ds : Forall keeps_ids ds -> forall s s', ided s -> foldM batch_update ds s = Ok s' -> ided s'.
  Proof. induction 1 as [|d ds K _ IH]; intros s s' I E; cbn [foldM] in E; [now injection E as <-|]. apply bind_Ok in E as (s1 & E1 & E). eapply IH; [eapply K; eauto|exact E]. Qed.
  Lemma async_ided c0 init n o t st : ided init -> run_async gc c0 init n = Ok o -> 0 <= t < rlen (o_result o) -> get_step (o_result o) t = Ok st -> ided st.
  Proof.
    intros I E Ht G. unfold run_async in E. apply bind_Ok in E as (c1 & _ & E). apply bind_Ok in E as ([q c2] & _ & E). destruct q as [|k q]; [discriminate|]. apply bind_Ok in E as (a & EL & E). injection E as <-. cbn [o_result] in *.
    apply loop_quiet in EL; [|constructor]. unfold rlen in Ht. cbn [r_diffs] in Ht. rewrite <- (Z2Nat.id t) in G by lia. rewrite get_step_fresh in G by lia. unfold replay in G. eapply fold_quiet; [|exact I|exact G].
    apply Forall_forall. intros d Hd. rewrite Forall_forall in EL. apply EL. rewrite <- (firstn_skipn (Z.to_nat t)). apply in_or_app. now left.
  Qed.
End Runs.

Lemma C137_serial_lemma : forall F (N : nbhood F) bg ords rnd ids c0 init n,
  (forall t, legal (ords t)) -> NoDup ids -> ids <> [] -> has_neighbours ids N -> phased ids init -> ided init ->
  exists o, run_sync (growth_controller N bg ords rnd) c0 init n = Ok o /\
  forall t t' p, 0 <= t -> t <= t' -> t' <= Z.max 0 n ->
    (exists x x', phase_fraction_at RA (o_result o) t (VStr p) = Ok x /\ phase_fraction_at RA (o_result o) t' (VStr p) = Ok x' /\ (p = bg -> x' <= x)%R /\ (p <> bg -> x <= x')%R) /\
    (Z.of_nat (length ids) < 2 ^ 53 ->
     exists x x', phase_fraction_at FA (o_result o) t (VStr p) = Ok x /\ phase_fraction_at FA (o_result o) t' (VStr p) = Ok x' /\ is_finite x = true /\ is_finite x' = true /\ (p = bg -> B2R x' <= B2R x)%R /\ (p <> bg -> B2R x <= B2R x')%R).
Proof.
  intros F N bg ords rnd ids c0 init n LO NI NE HN PI ID. destruct (C55_lemma F N bg ords rnd ids c0 init n LO NI NE HN PI) as (o & E & RL & H).
  destruct (grow_sync N bg ords rnd ids LO NI NE HN c0 init n PI) as (U & o' & E' & _ & _ & GS & HU). rewrite E in E'. injection E' as <-.
  exists o. split; [exact E|]. intros t t' p H0 H1 H2.
  destruct (H t ltac:(lia)) as (st & G & PH & _ & K & _). destruct (H t' ltac:(lia)) as (st' & G' & PH' & _).
  assert (IDS : forall u s, 0 <= u <= Z.max 0 n -> get_step (o_result o) u = Ok s -> ided s).
  { intros u s Hu Gu. pose proof (GS (Z.to_nat u) ltac:(lia)) as X. rewrite Z2Nat.id in X by lia. rewrite Gu in X. injection X as ->. apply ided_after; [exact ID|]. intros v k w Hv Hw. destruct (HU v ltac:(lia)) as (_ & _ & _ & A). destruct (A k w Hw) as [Q _]. eapply grow_quiet, Q. }
  assert (D : discrete st) by (eapply phased_discrete; eauto; eapply (IDS t); [lia|exact G]). assert (D' : discrete st') by (eapply phased_discrete; eauto; eapply (IDS t'); [lia|exact G']).
  assert (SZ : size st = Z.of_nat (length ids)) by now apply phased_size. assert (SZ' : size st' = Z.of_nat (length ids)) by now apply phased_size.
  assert (UP : p <> bg -> occurrences st (VStr p) <= occurrences st' (VStr p)) by (intros DP; eapply occ_up; eauto; intros i Hi Hp; eapply K; eauto; lia).
  assert (DN : p = bg -> occurrences st' (VStr p) <= occurrences st (VStr p)).
  { intros ->. eapply occ_down; eauto. intros i Hi (q & Hq & Dq). exists q. split; [|exact Dq]. eapply K; eauto; lia. }
  destruct (fractions (o_result o) t t' st st' (VStr p) G G' D D') as [A B]; [destruct ids; [congruence|cbn in SZ; lia]|lia|]. split.
  - destruct A as (x & x' & E1 & E2 & L1 & L2). exists x, x'. repeat (split; [assumption|]). intuition auto.
  - intros LS. destruct (B ltac:(lia)) as (x & x' & E1 & E2 & F1 & F2 & L1 & L2). exists x, x'. repeat (split; [assumption|]). intuition auto.
Qed.

Lemma C137_async_lemma : forall F (N : nbhood F) bg ords rnd m c0 init n,
  (forall t, legal (ords t)) -> 0 < m -> has_neighbours (zrange 0 m) N -> phased (zrange 0 m) init -> ided init ->
  exists o, run_async (growth_controller N bg ords rnd) c0 init n = Ok o /\
  forall t t' p, 0 <= t -> t <= t' -> t' <= Z.max 0 n ->
    (exists x x', phase_fraction_at RA (o_result o) t (VStr p) = Ok x /\ phase_fraction_at RA (o_result o) t' (VStr p) = Ok x' /\ (p = bg -> x' <= x)%R /\ (p <> bg -> x <= x')%R) /\
    (m < 2 ^ 53 ->
     exists x x', phase_fraction_at FA (o_result o) t (VStr p) = Ok x /\ phase_fraction_at FA (o_result o) t' (VStr p) = Ok x' /\ is_finite x = true /\ is_finite x' = true /\ (p = bg -> B2R x' <= B2R x)%R /\ (p <> bg -> B2R x <= B2R x')%R).
Proof.
  intros F N bg ords rnd m c0 init n LO HM HN PI ID. destruct (C80_lemma F N bg ords rnd m c0 init n LO HM HN PI) as (o & E & RL & H).
  exists o. split; [exact E|]. intros t t' p H0 H1 H2.
  destruct (H t ltac:(lia)) as (st & G & PH & _ & K & _). destruct (H t' ltac:(lia)) as (st' & G' & PH' & _).
  assert (D : discrete st) by (eapply phased_discrete; eauto; eapply (async_ided N bg ords rnd c0 init n o t); eauto; lia). assert (D' : discrete st') by (eapply phased_discrete; eauto; eapply (async_ided N bg ords rnd c0 init n o t'); eauto; lia).
  assert (LZ : Z.of_nat (length (zrange 0 m)) = m) by (rewrite zrange_length; lia).
  assert (SZ : size st = m) by (rewrite <- LZ; now apply phased_size). assert (SZ' : size st' = m) by (rewrite <- LZ; now apply phased_size).
  assert (UP : p <> bg -> occurrences st (VStr p) <= occurrences st' (VStr p)) by (intros DP; eapply occ_up; eauto; intros i Hi Hp; eapply K; eauto; lia).
  assert (DN : p = bg -> occurrences st' (VStr p) <= occurrences st (VStr p)).
  { intros ->. eapply occ_down; eauto. intros i Hi (q & Hq & Dq). exists q. split; [|exact Dq]. eapply K; eauto; lia. }
  destruct (fractions (o_result o) t t' st st' (VStr p) G G' D D') as [A B]; [lia|lia|]. split.
  - destruct A as (x & x' & E1 & E2 & L1 & L2). exists x, x'. repeat (split; [assumption|]). intuition auto.
  - intros LS. destruct (B ltac:(lia)) as (x & x' & E1 & E2 & F1 & F2 & L1 & L2). exists x, x'. repeat (split; [assumption|]). intuition auto.
Qed.

Lemma C137_parallel_lemma : forall F (N : nbhood F) bg ords rnd ids w sched c0 init n,
  (forall t, legal (ords t)) -> NoDup ids -> ids <> [] -> has_neighbours ids N -> phased ids init -> ided init -> 1 <= w ->
  exists o, run_parallel (growth_controller N bg ords rnd) w sched c0 init n = Ok o /\
  forall t t', 0 <= t -> t <= t' -> t' <= Z.max 0 n ->
    (exists x x', phase_fraction_at RA (o_result o) t (VStr bg) = Ok x /\ phase_fraction_at RA (o_result o) t' (VStr bg) = Ok x' /\ (x' <= x)%R) /\
    (Z.of_nat (length ids) < 2 ^ 53 ->
     exists x x', phase_fraction_at FA (o_result o) t (VStr bg) = Ok x /\ phase_fraction_at FA (o_result o) t' (VStr bg) = Ok x' /\ is_finite x = true /\ is_finite x' = true /\ (B2R x' <= B2R x)%R).
Proof.
  intros F N bg ords rnd ids w sched c0 init n LO NI NE HN PI ID W. destruct (C56_spread_lemma F N bg ords rnd ids w sched c0 init n LO NI NE HN PI W) as (o & E & RL & H).
  destruct (grow_par N bg ords rnd ids LO NI NE HN w sched c0 init n PI W) as (U & o' & E' & _ & GS & HU). rewrite E in E'. injection E' as <-.
  exists o. split; [exact E|]. intros t t' H0 H1 H2.
  destruct (H t ltac:(lia)) as (st & G & PH & _ & K & _). destruct (H t' ltac:(lia)) as (st' & G' & PH' & _).
  assert (IDS : forall u s, 0 <= u <= Z.max 0 n -> get_step (o_result o) u = Ok s -> ided s).
  { intros u s Hu Gu. pose proof (GS (Z.to_nat u) ltac:(lia)) as X. rewrite Z2Nat.id in X by lia. rewrite Gu in X. injection X as ->. apply ided_after; [exact ID|]. intros v k y Hv Hw. destruct (HU v ltac:(lia)) as (_ & _ & A). destruct (A k y Hw) as (_ & _ & _ & Q & _). eapply grow_quiet, Q. }
  assert (D : discrete st) by (eapply phased_discrete; eauto; eapply (IDS t); [lia|exact G]). assert (D' : discrete st') by (eapply phased_discrete; eauto; eapply (IDS t'); [lia|exact G']).
  assert (SZ : size st = Z.of_nat (length ids)) by now apply phased_size. assert (SZ' : size st' = Z.of_nat (length ids)) by now apply phased_size.
  assert (DN : occurrences st' (VStr bg) <= occurrences st (VStr bg)) by (eapply occ_down; eauto; intros i Hi O; eapply K; eauto; lia).
  destruct (fractions (o_result o) t t' st st' (VStr bg) G G' D D') as [A B]; [destruct ids; [congruence|cbn in SZ; lia]|lia|]. split.
  - destruct A as (x & x' & E1 & E2 & L1 & L2). exists x, x'. repeat (split; [assumption|]). intuition auto.
  - intros LS. destruct (B ltac:(lia)) as (x & x' & E1 & E2 & F1 & F2 & L1 & L2). exists x, x'. repeat (split; [assumption|]). intuition auto.
Qed.

(** A worker that missed a step repaints cells: a phase that grows loses cells. *)
Lemma C137_falls_lemma : exists (N : nbhood Z) bg ords rnd ids w sched init n o t t' a k k' st st',
  (forall t, legal (ords t)) /\ NoDup ids /\ has_neighbours ids N /\ phased ids init /\ ided init /\ 1 <= w /\ (forall t b, Z.of_nat (sched t b) < w) /\
  run_parallel (growth_controller N bg ords rnd) w sched 0%nat init n = Ok o /\ 0 <= t <= t' /\ a <> bg /\
  get_step (o_result o) t = Ok st /\ get_step (o_result o) t' = Ok st' /\
  cell_count (F := Z) None st (VStr a) = Ok k /\ cell_count (F := Z) None st' (VStr a) = Ok k' /\ k' < k.
Proof.
  exists (NGraph row_graph), "bg"%string, (fun _ => list_oracle), (fun _ => 0%nat), [0; 1; 2; 3; 4], 2, late, (row_state ["a"; "bg"; "bg"; "bg"; "b"]%string), 3.
  eexists. exists 2, 3, "a"%string. do 4 eexists.
  split; [intros _; exact list_legal|]. split; [repeat constructor; simpl; intuition lia|]. split; [exact row_neighbours|].
  split; [now apply row_phased|]. split; [|].
  { split; [repeat constructor; simpl; intuition congruence|]. intros k d E. unfold get_site_state in E. cbn [row_state s_sites combine map fst snd dget] in E.
    repeat match type of E with (if eqb k ?x then _ else _) = _ => destruct (eqb_spec k x) as [->|]; [injection E as <-; reflexivity|] end. discriminate. }
  split; [lia|]. split; [intros t b; unfold late; destruct (Nat.eqb t 2); lia|].
  split; [vm_compute; reflexivity|]. split; [lia|]. split; [discriminate|]. split; [vm_compute; reflexivity|]. split; [vm_compute; reflexivity|]. split; [vm_compute; reflexivity|]. split; [vm_compute; reflexivity|]. lia.
Qed.
