(** How many steps of a growth run can change anything (C138). *)
From Verif Require Import Prelude Dict Val StateModel ResultModel RunnerModel NbModel RulesModel SpecState SpecResult SpecRunner SpecNb SpecSetup SpecRules RulesFacts RulesMore AsyncGrow.
Local Open Scope Z_scope.

Lemma filter_mono {A} (f g : A -> bool) l : (forall x, In x l -> f x = true -> g x = true) -> (length (filter f l) <= length (filter g l))%nat.
Proof.
  induction l as [|x l IH]; intros H; [auto|]. cbn [filter]. specialize (IH (fun y Hy => H y (or_intror Hy))). pose proof (H x (or_introl eq_refl)) as Hx.
  destruct (f x); [rewrite Hx by auto; cbn; lia|]. destruct (g x); cbn; lia.
Qed.
Lemma filter_less {A} (f g : A -> bool) l x : (forall x, In x l -> f x = true -> g x = true) -> In x l -> f x = false -> g x = true -> (length (filter f l) < length (filter g l))%nat.
Proof.
  induction l as [|y l IH]; intros H Hx Fx Gx; [destruct Hx|]. cbn [filter]. pose proof (filter_mono f g l (fun z Hz => H z (or_intror Hz))) as LE. destruct Hx as [->|Hx].
  - rewrite Fx, Gx. cbn. lia.
  - specialize (IH (fun z Hz => H z (or_intror Hz)) Hx Fx Gx). pose proof (H y (or_introl eq_refl)) as Hy. destruct (f y); [rewrite Hy by auto; cbn; lia|]. destruct (g y); cbn; lia.
Qed.
Lemma few_drops (f : nat -> nat) n : (forall k, (k < n)%nat -> (f (S k) <= f k)%nat) -> forall ts, NoDup ts -> (forall t, In t ts -> (t < n)%nat /\ (f (S t) < f t)%nat) -> (length ts <= f 0)%nat.
Proof.
  intros M ts ND H. assert (L : (length (filter (fun t => (f (S t) <? f t)%nat) (seq 0 n)) + f n <= f 0)%nat).
  { clear H. induction n as [|n IH]; [cbn; lia|]. specialize (IH (fun k Hk => M k ltac:(lia))). rewrite seq_S, filter_app, app_length. cbn [filter Nat.add]. pose proof (M n ltac:(lia)). destruct (Nat.ltb_spec (f (S n)) (f n)); cbn [length]; lia. }
  assert (length ts <= length (filter (fun t => (f (S t) <? f t)%nat) (seq 0 n)))%nat; [|lia]. apply NoDup_incl_length; [exact ND|]. intros t Ht. destruct (H t Ht) as [L1 L2]. apply filter_In. split; [apply in_seq; lia|]. now apply Nat.ltb_lt.
Qed.

(** A course of states in which occupied cells keep their phase. *)
Lemma few_changes ids bg (r : sresult) init n : 0 <= n -> get_step r 0 = Ok init ->
  (forall t, 0 <= t <= n -> exists st, get_step r t = Ok st /\ phased ids st /\
     forall t' st' i p, t <= t' <= n -> get_step r t' = Ok st' -> In i ids -> holds st i p -> p <> bg -> holds st' i p) ->
  forall ts, NoDup ts ->
  (forall t, In t ts -> 0 <= t < n /\ exists st st' i p, get_step r t = Ok st /\ get_step r (t + 1) = Ok st' /\ In i ids /\ holds st i p /\ ~ holds st' i p) ->
  Z.of_nat (length ts) <= count_in init ids bg.
Proof.
  intros Hn G0 H ts ND HT.
  set (f := fun k : nat => match get_step r (Z.of_nat k) with Ok st => length (filter (fun i => phase_at st i bg) ids) | Err _ => 0%nat end).
  assert (BACK : forall k st st', (k < Z.to_nat n)%nat -> get_step r (Z.of_nat k) = Ok st -> get_step r (Z.of_nat k + 1) = Ok st' -> phased ids st /\ phased ids st' /\
    (forall i p, In i ids -> holds st i p -> p <> bg -> holds st' i p) /\ forall i, In i ids -> phase_at st' i bg = true -> phase_at st i bg = true).
  { intros k st st' Hk G G'. destruct (H (Z.of_nat k) ltac:(lia)) as (s & Gs & PH & K). assert (s = st) by congruence. subst s. destruct (H (Z.of_nat k + 1) ltac:(lia)) as (s & Gs' & PH' & _). assert (s = st') by congruence. subst s.
    split; [exact PH|]. split; [exact PH'|]. assert (KP : forall i p, In i ids -> holds st i p -> p <> bg -> holds st' i p) by (intros; eapply K; eauto; lia). split; [exact KP|].
    intros i Hi B. destruct (proj2 PH i Hi) as [p Hp]. rewrite (holds_phase _ _ _ bg Hp). destruct (eqb_spec p bg) as [|D]; [reflexivity|]. rewrite (holds_phase _ _ _ bg (KP i p Hi Hp D)), eqb_neq in B by auto. discriminate. }
  assert (ST : forall k, (k <= Z.to_nat n)%nat -> exists st, get_step r (Z.of_nat k) = Ok st) by (intros k Hk; destruct (H (Z.of_nat k) ltac:(lia)) as (st & G & _); eauto).
  assert (F0 : f 0%nat = length (filter (fun i => phase_at init i bg) ids)) by (unfold f; change (Z.of_nat 0) with 0; now rewrite G0).
  unfold count_in. rewrite <- F0. apply Nat2Z.inj_le. rewrite <- (map_length Z.to_nat ts). apply (few_drops f (Z.to_nat n)).
  - intros k Hk. destruct (ST k ltac:(lia)) as [st G]. destruct (ST (S k) ltac:(lia)) as [st' G']. unfold f. rewrite G, G'. apply filter_mono. intros i Hi. replace (Z.of_nat (S k)) with (Z.of_nat k + 1) in G' by lia. now apply (BACK k st st').
  - clear -ND HT. induction ND as [|t ts NI _ IH]; cbn [map]; [constructor|]. constructor; [|apply IH; intros; apply HT; now right]. intros X. apply in_map_iff in X as (u & E & Hu). destruct (HT t (or_introl eq_refl)) as [A _]. destruct (HT u (or_intror Hu)) as [B _]. assert (u = t) by lia. congruence.
  - intros k Hk. apply in_map_iff in Hk as (t & <- & Ht). destruct (HT t Ht) as (L & st & st' & i & p & G & G' & Hi & Hp & NP). split; [lia|]. unfold f. replace (Z.of_nat (S (Z.to_nat t))) with (t + 1) by lia. rewrite Z2Nat.id by lia. rewrite G, G'.
    assert (GK : get_step r (Z.of_nat (Z.to_nat t)) = Ok st) by (rewrite Z2Nat.id by lia; exact G). assert (GK' : get_step r (Z.of_nat (Z.to_nat t) + 1) = Ok st') by (rewrite Z2Nat.id by lia; exact G').
    destruct (BACK (Z.to_nat t) st st' ltac:(lia) GK GK') as (PH & PH' & KP & B). assert (p = bg) as -> by (destruct (eqb_spec p bg) as [|D]; [assumption|]; exfalso; apply NP; eauto).
    apply filter_less with i; auto; [|rewrite (holds_phase _ _ _ bg Hp); apply eqb_refl]. destruct (proj2 PH' i Hi) as [q Hq]. rewrite (holds_phase _ _ _ bg Hq). apply eqb_neq. intros ->. contradiction.
Qed.

Lemma C138_changes_lemma : forall F (N : nbhood F) bg ords rnd,
  (forall t, legal (ords t)) ->
  let few := fun ids init n (o : run_out) => forall ts, NoDup ts ->
    (forall t, In t ts -> 0 <= t < n /\ exists st st' i p, get_step (o_result o) t = Ok st /\ get_step (o_result o) (t + 1) = Ok st' /\ In i ids /\ holds st i p /\ ~ holds st' i p) ->
    Z.of_nat (length ts) <= count_in init ids bg in
  (forall ids c0 init n, NoDup ids -> ids <> [] -> has_neighbours ids N -> phased ids init ->
     exists o, run_sync (growth_controller N bg ords rnd) c0 init n = Ok o /\ few ids init n o) /\
  (forall m c0 init n, 0 < m -> has_neighbours (zrange 0 m) N -> phased (zrange 0 m) init ->
     exists o, run_async (growth_controller N bg ords rnd) c0 init n = Ok o /\ few (zrange 0 m) init n o).
Proof.
  intros F N bg ords rnd LO few. split.
  - intros ids c0 init n NI NE HN PI. destruct (C55_lemma F N bg ords rnd ids c0 init n LO NI NE HN PI) as (o & E & RL & H). exists o. split; [exact E|]. intros ts ND HT. apply (few_changes ids bg (o_result o) init (Z.max 0 n)); auto; [lia| | |].
    + unfold run_sync in E. apply bind_Ok in E as (c1 & _ & E). apply bind_Ok in E as ([[l d] c2] & _ & E). injection E as <-. reflexivity.
    + intros t Ht. destruct (H t Ht) as (st & G & PH & _ & K & _). exists st. split; [exact G|]. split; [exact PH|]. intros; eapply K; eauto.
    + intros t Ht. destruct (HT t Ht) as [L X]. split; [lia|exact X].
  - intros m c0 init n HM HN PI. destruct (C80_lemma F N bg ords rnd m c0 init n LO HM HN PI) as (o & E & RL & H). exists o. split; [exact E|]. intros ts ND HT. apply (few_changes (zrange 0 m) bg (o_result o) init (Z.max 0 n)); auto; [lia| | |].
    + unfold run_async in E. apply bind_Ok in E as (c1 & _ & E). apply bind_Ok in E as ([q c2] & _ & E). destruct q; [discriminate|]. apply bind_Ok in E as (a & _ & E). injection E as <-. reflexivity.
    + intros t Ht. destruct (H t Ht) as (st & G & PH & _ & K & _). exists st. split; [exact G|]. split; [exact PH|]. intros; eapply K; eauto.
    + intros t Ht. destruct (HT t Ht) as [L X]. split; [lia|exact X].
Qed.
