(** Ties in the growth rule (C54). *)
From Coq Require Import Permutation.
From Verif Require Import Prelude Dict Val ValFacts Arith LatticeModel StructModel StateModel ResultModel RunnerModel NbModel GridModel SimModel SetupModel RulesModel
  SpecState SpecResult SpecRunner SpecGeom SpecNb SpecGrid SpecSetup SpecRules StateFacts ResultFacts RunnerFacts RulesFacts.
Local Open Scope Z_scope.

Lemma max_first (counts : dict key Z) : forall sp m k n, fold_left better counts (sp, m) = (Some k, n) ->
  (sp = Some k /\ n = m /\ forall k' n', In (k', n') counts -> n' <= n) \/
  exists pre post, counts = pre ++ (k, n) :: post /\ (forall k' n', In (k', n') pre -> n' < n) /\ m < n.
Proof.
  induction counts as [|[k0 n0] t IH]; intros sp m k n; cbn [fold_left].
  - intros E. injection E as -> ->. left. split; auto. split; auto. intros ? ? [].
  - change (better (sp, m) (k0, n0)) with (if m <? n0 then (Some k0, n0) else (sp, m)). destruct (Z.ltb_spec m n0) as [L|L]; intros E; apply IH in E as [(A & B & D)|(pre & post & -> & D & M)].
    + right. injection A as ->. subst n. exists [], t. split; auto. split; [intros ? ? []|auto].
    + right. exists ((k0, n0) :: pre), post. split; auto. split; [|lia]. intros k' n' [X|X]; [injection X as _ <-; auto|eauto].
    + left. split; auto. split; auto. intros k' n' [X|X]; [injection X as _ <-; lia|eauto].
    + right. exists ((k0, n0) :: pre), post. split; auto. split; [|lia]. intros k' n' [X|X]; [injection X as _ <-; lia|eauto].
Qed.

Definition met_first (bg : string) (st : sstate) (l : list Z) (counts : dict key Z) : Prop :=
  forall pre k post, dkeys counts = pre ++ k :: post -> exists q l1 j l2, k = KStr q /\ l = l1 ++ j :: l2 /\ holds st j q /\
    forall j' r, In j' l1 -> holds st j' r -> r <> bg -> In (KStr r) pre.

Lemma counts_order bg st l : (forall j, In j l -> exists p, holds st j p) -> forall counts, growth_counts bg st l = Ok counts -> counted bg st l counts -> met_first bg st l counts.
Proof.
  unfold growth_counts. rewrite <- (rev_involutive l). induction (rev l) as [|j r IH]; cbn [rev].
  - intros _ counts E _ pre k post X. injection E as <-. destruct pre; discriminate.
  - intros HP counts E CO. assert (HP' : forall i, In i (rev r) -> exists p, holds st i p) by (intros i Hi; apply HP, in_or_app; auto).
    destruct (growth_counts_spec bg st (rev r) HP') as (cs & Ecs & CO'). specialize (IH HP' cs Ecs CO').
    rewrite foldM_app in E. unfold growth_counts in Ecs. rewrite Ecs in E. cbn [bind foldM] in E.
    destruct (HP j) as [p Hp]; [apply in_or_app; simpl; auto|]. rewrite (holds_of _ _ _ Hp) in E. cbn [bind] in E. rewrite str_val_eqb in E.
    set (l' := rev r) in *.
    assert (KEEP : met_first bg st (l' ++ [j]) cs).
    { intros pre k post X. destruct (IH pre k post X) as (q & l1 & i & l2 & -> & -> & Hq & Hr). exists q, l1, i, (l2 ++ [j]). split; auto. split; [now rewrite <- app_assoc|]. auto. }
    destruct (eqb_spec p bg) as [Ep|D]; cbn [negb bind val_key] in E; [injection E as <-; exact KEEP|].
    assert (Ed : exists n, counts = dset (KStr p) n cs) by (destruct (dget (KStr p) cs); cbn [bind] in E; injection E as <-; eauto). destruct Ed as [n ->].
    destruct (dget (KStr p) cs) as [n'|] eqn:En.
    + intros pre k post X. apply KEEP with (post := post). rewrite <- X. symmetry. apply dkeys_dset_In. apply dget_key_Some. eauto.
    + assert (NI : ~ In (KStr p) (dkeys cs)) by (intros H; apply dget_key_Some in H as [z Hz]; congruence).
      intros pre k post X. rewrite dkeys_dset_notIn in X by auto. destruct post as [|k' post _] using rev_ind.
      * apply app_inj_tail in X as [X <-]. exists p, l', j, []. split; auto. split; auto. split; auto. intros j' q Hj Hq Dq. rewrite <- X.
        assert (P : 0 < count_in st l' q) by (apply count_pos; eauto). apply dget_key_Some. exists (count_in st l' q). apply CO'. exists q. auto.
      * replace (pre ++ k :: post ++ [k']) with ((pre ++ k :: post) ++ [k']) in X by (rewrite <- app_assoc; reflexivity).
        apply app_inj_tail in X as [X _]. eapply KEEP; eauto.
Qed.

Lemma C54_ties_lemma : forall F (N : nbhood F) bg ords rnd c i st l q c' r,
  neighbors_of (ords c) N i = Ok l -> holds st i bg -> (forall j, In j l -> exists p, holds st j p) ->
  c_update (growth_controller N bg ords rnd) c (KInt i) st = Ok (VDict [(KStr "DISCRETE_OCCUPANCY", VStr q)], c') ->
  r <> bg -> r <> q -> count_in st l r = count_in st l q ->
  exists l1 j l2, l = l1 ++ j :: l2 /\ holds st j q /\ forall j', In j' l1 -> ~ holds st j' r.
Proof.
  intros F N bg ords rnd c i st l q c' r EN Hp HL. cbn [c_update growth_controller]. unfold growth_update. rewrite (holds_of _ _ _ Hp). cbn [bind]. rewrite str_val_eqb, eqb_refl.
  cbn [neighbors_of_key]. rewrite EN. cbn [bind]. destruct (growth_counts_spec bg st l HL) as (counts & E & CO). rewrite E. cbn [bind].
  pose proof (counts_order bg st l HL counts E CO) as MF. destruct CO as [UC HC].
  destruct counts as [|kn0 t] eqn:Ecs; [discriminate|]. rewrite <- Ecs in *. clear Ecs kn0 t.
  intros EU Db Dq Ec. destruct (growth_max counts) as [sp m] eqn:EM. cbn [fst] in EU. unfold occ in EU. injection EU as EU _.
  destruct sp as [k|]; [|discriminate].
  assert (EM' : fold_left better counts (None, 0) = (Some k, m)) by exact EM.
  apply max_first in EM' as [(X & _)|(pre & post & Es & LT & _)]; [discriminate|].
  assert (K : dkeys counts = dkeys pre ++ k :: dkeys post) by (rewrite Es; unfold dkeys; rewrite map_app; reflexivity).
  destruct (MF _ _ _ K) as (q' & l1 & j & l2 & -> & -> & Hq & Hr). injection EU as <-.
  exists l1, j, l2. split; auto. split; auto. intros j' Hj Hh. specialize (Hr j' r Hj Hh Db).
  unfold dkeys in Hr. apply in_map_iff in Hr as ([k' n'] & Ek & Hin). cbn [fst] in Ek. subst k'. pose proof (LT _ _ Hin) as LT'.
  assert (G : dget (KStr r) counts = Some n') by (apply In_dget; auto; rewrite Es; apply in_or_app; auto).
  assert (G' : dget (KStr q') counts = Some m) by (apply In_dget; auto; rewrite Es; apply in_or_app; simpl; auto).
  apply HC in G as (x & Ex & _ & -> & _). injection Ex as <-. apply HC in G' as (y & Ey & _ & -> & _). injection Ey as <-. lia.
Qed.
