(** Growth and life: the update rules and their runs. *)
From Coq Require Import Reals Permutation.
From Verif Require Import Prelude Dict Val ValFacts Arith LatticeModel StructModel StateModel ResultModel RunnerModel NbModel GridModel SimModel SetupModel RulesModel
  SpecState SpecResult SpecRunner SpecGeom SpecNb SpecGrid SpecSetup SpecRules StateFacts ResultFacts RunnerFacts SyncFacts ParFacts ParRun GenRun.
Local Open Scope Z_scope.

Lemma holds_of st k p : site_entry st k (KStr "DISCRETE_OCCUPANCY") = Some (VStr p) -> occupancy_of st k = Ok (VStr p).
Proof. unfold site_entry, occupancy_of, dgetE. destruct (get_site_state st k); [|discriminate]. unfold DISCRETE_OCCUPANCY. intros ->. reflexivity. Qed.
Lemma holds_fun st i p q : holds st i p -> holds st i q -> p = q.
Proof. unfold holds. congruence. Qed.
Lemma holds_phase st i p q : holds st i p -> phase_at st i q = eqb p q.
Proof. unfold holds, phase_at. intros ->. reflexivity. Qed.
Lemma str_val_eqb p q : val_eqb (VStr p) (VStr q) = eqb p q.
Proof. reflexivity. Qed.
Lemma count_snoc st l j q p : holds st j q -> count_in st (l ++ [j]) p = count_in st l p + if eqb q p then 1 else 0.
Proof.
  intros H. unfold count_in. rewrite filter_app, app_length. cbn [filter]. rewrite (holds_phase st j q p H). destruct (eqb q p); cbn [length]; lia.
Qed.
Lemma count_nonneg st l p : 0 <= count_in st l p.
Proof. unfold count_in. lia. Qed.
Lemma count_pos st l p : 0 < count_in st l p <-> exists j, In j l /\ holds st j p.
Proof.
  unfold count_in. split.
  - intros H. destruct (filter _ l) as [|j t] eqn:E; [cbn in H; lia|]. exists j.
    assert (In j (filter (fun i => phase_at st i p) l)) by (rewrite E; simpl; auto). apply filter_In in H0 as [H0 H1]. split; auto.
    unfold phase_at in H1. unfold holds. revert H1. destruct (site_entry st (KInt j) _) as [[| | | |w| | |]|]; try discriminate. destruct (eqb_spec w p) as [W|D]; [rewrite W; auto|discriminate].
  - intros (j & Hj & Hp). assert (In j (filter (fun i => phase_at st i p) l)).
    { apply filter_In. split; auto. rewrite (holds_phase st j p p Hp). apply eqb_refl. }
    destruct (filter _ l); [destruct H|cbn; lia].
Qed.

(** * Counting *)
Definition counted (bg : string) (st : sstate) (l : list Z) (counts : dict key Z) : Prop :=
  uniq counts /\ forall k n, dget k counts = Some n <-> exists q, k = KStr q /\ q <> bg /\ n = count_in st l q /\ 0 < n.
Lemma growth_counts_spec bg st l : (forall j, In j l -> exists p, holds st j p) -> exists counts, growth_counts bg st l = Ok counts /\ counted bg st l counts.
Proof.
  unfold growth_counts. rewrite <- (rev_involutive l). induction (rev l) as [|j r IH]; cbn [rev].
  - intros _. exists []. split; [reflexivity|]. split; [constructor|]. intros k n. split; [discriminate|]. intros (q & _ & _ & -> & H). unfold count_in in H. cbn in H. lia.
  - intros HP. rewrite foldM_app. destruct IH as (counts & E & UC & HC); [intros i Hi; apply HP, in_or_app; auto|]. rewrite E. cbn [bind foldM].
    destruct (HP j) as [p Hp]; [apply in_or_app; simpl; auto|]. rewrite (holds_of _ _ _ Hp). cbn [bind]. rewrite str_val_eqb.
    set (l' := rev r) in *. destruct (eqb_spec p bg) as [->|D]; cbn [negb bind val_key].
    + exists counts. split; [reflexivity|]. split; auto. intros k n. rewrite HC. split; intros (q & -> & Dq & -> & Pq); exists q; repeat split; auto;
        rewrite ?(count_snoc st l' j bg q Hp) in *; rewrite eqb_neq in * by congruence; lia.
    + assert (EQ : (do a' <- match dget (KStr p) counts with None => Ok (dset (KStr p) 1 counts) | Some n => Ok (dset (KStr p) (n + 1) counts) end; Ok a')
             = Ok (dset (KStr p) (count_in st l' p + 1) counts)).
      { destruct (dget (KStr p) counts) as [n|] eqn:En; cbn [bind].
        - apply HC in En as (q & Eq & _ & -> & _). injection Eq as <-. reflexivity.
        - do 2 f_equal. pose proof (count_nonneg st l' p). destruct (Z.eq_dec (count_in st l' p) 0) as [->|D0]; auto. exfalso.
          assert (dget (KStr p) counts = Some (count_in st l' p)) by (apply HC; exists p; repeat split; auto; lia). congruence. }
      rewrite EQ. exists (dset (KStr p) (count_in st l' p + 1) counts). split; [reflexivity|]. split; [now apply NoDup_dset|].
      intros k n. destruct (eqb_spec k (KStr p)) as [->|Dk].
      * rewrite dget_dset_same. split.
        -- intros En. injection En as <-. exists p. pose proof (count_nonneg st l' p). pose proof (count_snoc st l' j p p Hp) as X. rewrite eqb_refl in X. repeat split; auto; lia.
        -- intros (q & Eq & Dq & -> & _). injection Eq as <-. rewrite (count_snoc st l' j p p Hp), eqb_refl. reflexivity.
      * rewrite dget_dset_other by auto. rewrite HC. split; intros (q & -> & Dq & -> & Pq); exists q; repeat split; auto;
          rewrite ?(count_snoc st l' j p q Hp) in *; rewrite eqb_neq in * by congruence; lia.
Qed.

Definition better (m : option key * Z) (pc : key * Z) : option key * Z := if snd m <? snd pc then (Some (fst pc), snd pc) else m.
Lemma growth_max_from (counts : dict key Z) : forall sp m, let r := fold_left better counts (sp, m) in
  (forall k n, In (k, n) counts -> n <= snd r) /\ m <= snd r /\ (r = (sp, m) \/ exists k n, In (k, n) counts /\ r = (Some k, n)).
Proof.
  induction counts as [|[k n] t IH]; intros sp m; cbn [fold_left].
  - cbn [snd]. split; [intros ? ? []|]. split; [lia|auto].
  - change (better (sp, m) (k, n)) with (if m <? n then (Some k, n) else (sp, m)). destruct (m <? n) eqn:E.
    + destruct (IH (Some k) n) as (A & B & D). split; [|split].
      * intros k' n' [H|H]; [injection H as _ <-; auto|eauto].
      * lia.
      * right. destruct D as [->|(k' & n' & I & ->)]; [exists k, n|exists k', n']; split; simpl; auto.
    + destruct (IH sp m) as (A & B & D). split; [|split; auto].
      * intros k' n' [H|H]; [injection H as _ <-; lia|eauto].
      * destruct D as [->|(k' & n' & I & ->)]; auto. right. exists k', n'. split; simpl; auto.
Qed.

Lemma C54_lemma : forall F (N : nbhood F) bg ords rnd c i st l,
  neighbors_of (ords c) N i = Ok l -> (exists p, holds st i p) -> (forall j, In j l -> exists p, holds st j p) ->
  exists u, c_update (growth_controller N bg ords rnd) c (KInt i) st = Ok (VDict u, S c) /\
    (occupied bg st i -> u = []) /\
    (holds st i bg -> (forall j, In j l -> holds st j bg) -> u = []) /\
    (holds st i bg -> (exists j, In j l /\ occupied bg st j) ->
       exists q, u = [(KStr "DISCRETE_OCCUPANCY", VStr q)] /\ q <> bg /\ 0 < count_in st l q /\ forall r, r <> bg -> count_in st l r <= count_in st l q).
Proof.
  intros F N bg ords rnd c i st l EN [p Hp] HL. cbn [c_update growth_controller]. unfold growth_update. rewrite (holds_of _ _ _ Hp). cbn [bind]. rewrite str_val_eqb.
  destruct (eqb_spec p bg) as [Ep|D].
  - subst p. cbn [neighbors_of_key]. rewrite EN. cbn [bind]. destruct (growth_counts_spec bg st l HL) as (counts & E & UC & HC). rewrite E. cbn [bind].
    destruct counts as [|[k0 n0] t] eqn:Ecs.
    + exists []. split; [reflexivity|]. split; auto. split; auto. intros _ (j & Hj & q & Hq & Dq). exfalso.
      assert (P : 0 < count_in st l q) by (apply count_pos; eauto). assert (X : dget (KStr q) (@nil (key * Z)) = Some (count_in st l q)) by (apply HC; exists q; auto). discriminate.
    + rewrite <- Ecs in *. destruct (growth_max_from counts None 0) as (A & B & [M|(k & n & I & M)]); change (fold_left better counts (None, 0)) with (growth_max counts) in *.
      * exfalso. rewrite M in A. cbn [snd] in A. assert (I0 : In (k0, n0) counts) by (rewrite Ecs; simpl; auto). pose proof (A _ _ I0).
        apply In_dget in I0; auto. apply HC in I0 as (q & _ & _ & _ & P). lia.
      * rewrite M in *. cbn [fst snd] in *. pose proof (In_dget _ _ _ UC I) as G. apply HC in G as (q & -> & Dq & -> & Pq).
        eexists. split; [reflexivity|]. split; [|split].
        -- intros (r & Hr & Dr). exfalso. apply Dr. eapply holds_fun; eauto.
        -- intros _ HB. exfalso. apply count_pos in Pq as (j & Hj & Hq). apply Dq. eapply holds_fun; eauto.
        -- intros _ _. exists q. split; [reflexivity|]. split; auto. split; auto. intros r Dr. pose proof (count_nonneg st l r).
           destruct (Z.eq_dec (count_in st l r) 0); [lia|]. apply (A (KStr r)). apply dget_In, HC. exists r. repeat split; auto. lia.
  - exists []. split; [reflexivity|]. split; auto. split; auto. intros HB. exfalso. apply D. eapply holds_fun; eauto.
Qed.

(** * Growth runs *)
Definition grow_upd (id : key) (u : pdict) : Prop := u = [] \/ exists q, u = [(KStr "DISCRETE_OCCUPANCY", VStr q)].
Lemma grow_own id u : grow_upd id u -> means id (VDict u) [(id, VDict u)] [].
Proof.
  intros [->|(q & ->)]; apply means_site.
  - split; reflexivity.
  - intros [H _]. congruence.
  - split; reflexivity.
  - intros [_ H]. destruct (H (KStr "DISCRETE_OCCUPANCY")) as [z E]; [simpl; auto|discriminate].
Qed.
Lemma in_map_key ids i : In (KInt i) (map KInt ids) <-> In i ids.
Proof. split; [|apply in_map]. intros H. apply in_map_iff in H as (j & E & H). congruence. Qed.
Lemma nodup_keys ids : NoDup ids -> NoDup (map KInt ids).
Proof. apply FinFun.Injective_map_NoDup. intros a b E. congruence. Qed.

Section Step.
  Variables (ids : list Z) (s : sstate) (U : dict key pdict).
  Hypothesis PH : phased ids s.
  Hypothesis NU : NoDup (dkeys U).

  Lemma step_keep i : dget (KInt i) U = Some [] -> In i ids -> forall p, holds (set_sites_t s U) i p <-> holds s i p.
  Proof.
    intros E Hi p. unfold holds, site_entry. rewrite get_set_sites_t by exact NU. rewrite E. destruct PH as [HI HP]. destruct (HP i Hi) as [q Hq].
    unfold holds, site_entry in Hq. destruct (get_site_state s (KInt i)); [|discriminate]. reflexivity.
  Qed.
  Lemma step_put i q : dget (KInt i) U = Some [(KStr "DISCRETE_OCCUPANCY", VStr q)] -> holds (set_sites_t s U) i q.
  Proof.
    intros E. unfold holds, site_entry. rewrite get_set_sites_t by exact NU. rewrite E.
    change (dmerge ?d [(?k, ?v)]) with (dset k v d). now rewrite dget_dset_same.
  Qed.
  Lemma step_phased : NoDup ids -> Permutation (dkeys U) (map KInt ids) -> (forall id u, In (id, u) U -> grow_upd id u) -> phased ids (set_sites_t s U).
  Proof.
    intros NI PU HU. split.
    - rewrite site_ids_set_sites_sub; [apply PH|]. intros k Hk. rewrite (proj1 PH). eapply Permutation_in; eauto.
    - intros i Hi. assert (Hk : In (KInt i) (dkeys U)) by (eapply Permutation_in; [apply Permutation_sym, PU|now apply in_map]).
      apply dget_key_Some in Hk as [u Eu]. destruct (HU _ _ (dget_In _ _ _ Eu)) as [->|(q & ->)].
      + destruct (proj2 PH i Hi) as [p Hp]. exists p. now apply step_keep.
      + exists q. now apply step_put.
  Qed.
End Step.

Lemma after_view U init t : view U init t (after U init t).
Proof. induction t as [|t IH]; [constructor|]. rewrite after_S. apply view_later with t; auto. Qed.

Section Growth.
  Context {F : Type} (N : nbhood F) (bg : string) (ords : nat -> @nb_oracle F) (rnd : nat -> nat) (ids : list Z).
  Hypothesis LO : forall t, legal (ords t).
  Hypothesis NI : NoDup ids.
  Hypothesis NE : ids <> [].
  Hypothesis HN : has_neighbours ids N.
  Let ctl := growth_controller N bg ords rnd.

  Lemma grow_ans c id s : phased ids s -> In id (map KInt ids) -> exists u c', c_update ctl c id s = Ok (VDict u, c') /\ grow_upd id u.
  Proof.
    intros [HI HP] H. apply in_map_iff in H as (i & <- & Hi). destruct (HN (ords c) i (LO c) Hi) as (l & EL & IL).
    destruct (C54_lemma F N bg ords rnd c i s l EL (HP i Hi)) as (u & E & U1 & U2 & U3); [intros j Hj; apply HP, IL, Hj|].
    exists u, (S c). split; auto. destruct (HP i Hi) as [p Hp]. destruct (eqb_spec p bg) as [Ep|D].
    - subst p. destruct (existsb (fun j => negb (phase_at s j bg)) l) eqn:X.
      + apply existsb_exists in X as (j & Hj & X). right. destruct U3 as (q & -> & _); eauto. exists j. split; auto.
        destruct (HP j (IL j Hj)) as [r Hr]. exists r. split; auto. intros ->. rewrite (holds_phase _ _ _ _ Hr), eqb_refl in X. discriminate.
      + left. apply U2; auto. intros j Hj. destruct (HP j (IL j Hj)) as [r Hr]. destruct (eqb_spec r bg) as [Er|D]; [congruence|].
        exfalso. assert (existsb (fun j => negb (phase_at s j bg)) l = true); [|congruence]. apply existsb_exists. exists j. split; auto.
        rewrite (holds_phase _ _ _ _ Hr), eqb_neq; auto.
    - left. apply U1. exists p. auto.
  Qed.
  Lemma grow_sync c0 init n : phased ids init -> exists U o,
    run_sync ctl c0 init n = Ok o /\ rlen (o_result o) = Z.max 0 n + 1 /\ o_output o = after U init (Z.to_nat n) /\
    (forall t, (t <= Z.to_nat n)%nat -> get_step (o_result o) (Z.of_nat t) = Ok (after U init t)) /\
    forall t, (t < Z.to_nat n)%nat -> NoDup (dkeys (U t)) /\ Permutation (dkeys (U t)) (map KInt ids) /\ phased ids (after U init t) /\
      forall id u, In (id, u) (U t) -> ans_on ctl grow_upd (fun _ => True) (after U init t) id u.
  Proof.
    intros PH. destruct (own_sync ctl (map KInt ids) (phased ids) grow_upd (fun _ => True) (nodup_keys _ NI)) with (c0 := c0) (c1 := c0) (init := init) (n := n) as (U & o & A & B & D & E & G).
    - destruct ids; [congruence|discriminate].
    - intros s H. apply H.
    - intros c id s _ Hs Hid. destruct (grow_ans c id s Hs Hid) as (u & c' & E & G). exists u, c'. auto.
    - apply grow_own.
    - intros s U H1 H2 H3 H4. apply step_phased; auto.
    - auto.
    - reflexivity.
    - exact I.
    - exists U, o. split; auto. split; auto. split; auto. split; auto. intros t Ht. destruct (G t Ht) as (K & P & Q). rewrite K. split; [now apply nodup_keys|]. auto.
  Qed.
  Lemma grow_par p sched c0 init n : phased ids init -> 1 <= p -> exists U o,
    run_parallel ctl p sched c0 init n = Ok o /\ rlen (o_result o) = Z.max 0 n + 1 /\
    (forall t, (t <= Z.to_nat n)%nat -> get_step (o_result o) (Z.of_nat t) = Ok (after U init t)) /\
    forall t, (t < Z.to_nat n)%nat -> NoDup (dkeys (U t)) /\ Permutation (dkeys (U t)) (map KInt ids) /\
      forall id u, In (id, u) (U t) -> exists v, view U init t v /\ phased ids v /\ ans_on ctl grow_upd (fun _ => True) v id u.
  Proof.
    intros PH P1. destruct (own_par ctl (map KInt ids) (phased ids) grow_upd (fun _ => True) (nodup_keys _ NI)) with (p := p) (sched := sched) (c0 := c0) (c1 := c0) (init := init) (n := n)
      as (U & o & A & B & D & E).
    - destruct ids; [congruence|discriminate].
    - intros s H. apply H.
    - intros c id s _ Hs Hid. destruct (grow_ans c id s Hs Hid) as (u & c' & E & G). exists u, c'. auto.
    - apply grow_own.
    - intros s U H1 H2 H3 H4. apply step_phased; auto.
    - auto.
    - auto.
    - reflexivity.
    - exact I.
    - exists U, o. auto.
  Qed.

  (** What the updates of a run do, when every answer was computed on some view. *)
  Section Spread.
    Variables (init : sstate) (U : nat -> dict key pdict) (n : nat).
    Hypothesis PI : phased ids init.
    Hypothesis HU : forall t, (t < n)%nat -> NoDup (dkeys (U t)) /\ Permutation (dkeys (U t)) (map KInt ids) /\
      forall id u, In (id, u) (U t) -> exists v, view U init t v /\ phased ids v /\ ans_on ctl grow_upd (fun _ => True) v id u.

    Lemma upd_of_site t i : (t < n)%nat -> In i ids -> exists u, dget (KInt i) (U t) = Some u /\ (u = [] \/ exists q, u = [(KStr "DISCRETE_OCCUPANCY", VStr q)]) /\
      exists v c l, view U init t v /\ phased ids v /\ neighbors_of (ords c) N i = Ok l /\ incl l ids /\
       (occupied bg v i -> u = []) /\
       (holds v i bg -> (forall j, In j l -> holds v j bg) -> u = []) /\
       (holds v i bg -> (exists j, In j l /\ occupied bg v j) ->
       exists q, u = [(KStr "DISCRETE_OCCUPANCY", VStr q)] /\ q <> bg /\ 0 < count_in v l q /\ forall r, r <> bg -> count_in v l r <= count_in v l q).
    Proof.
      intros Ht Hi. destruct (HU t Ht) as (A & B & D). assert (Hk : In (KInt i) (dkeys (U t))) by (eapply Permutation_in; [apply Permutation_sym, B|now apply in_map]).
      apply dget_key_Some in Hk as [u Eu]. exists u. split; auto. destruct (D _ _ (dget_In _ _ _ Eu)) as (v & Vv & Pv & GU & c & c' & _ & E). split; [exact GU|].
      destruct (HN (ords c) i (LO c) Hi) as (l & EL & IL). exists v, c, l. split; auto. split; auto. split; auto. split; auto.
      destruct (C54_lemma F N bg ords rnd c i v l EL (proj2 Pv i Hi)) as (u' & E' & U1 & U2 & U3); [intros j Hj; apply Pv, IL, Hj|].
      unfold ctl in E. rewrite E in E'. injection E' as <- _. auto.
    Qed.
    Lemma spread_phased t : (t <= n)%nat -> phased ids (after U init t).
    Proof.
      induction t as [|t IH]; intros L; auto. rewrite after_S. destruct (HU t ltac:(lia)) as (A & B & D). apply step_phased; auto.
      - apply IH. lia.
      - intros id u H. destruct (D id u H) as (v & _ & _ & G & _). exact G.
    Qed.
    Lemma view_phased t v : (t <= n)%nat -> view U init t v -> phased ids v.
    Proof.
      intros L V. revert L. induction V as [|t|t t' w V IH L']; intros L; auto; destruct (HU t ltac:(lia)) as (A & B & D).
      - apply step_phased; auto. intros id u H. destruct (D id u H) as (v & _ & _ & G & _). exact G.
      - apply step_phased; auto; [apply IH; lia|]. intros id u H. destruct (D id u H) as (v & _ & _ & G & _). exact G.
    Qed.

    (** Assigned phases are phases of the initial state, never the background. *)
    Definition from_init (p : string) : Prop := exists j, In j ids /\ holds init j p.
    Lemma step_holds w t i p : (t < n)%nat -> In i ids -> phased ids w -> holds (set_sites_t w (U t)) i p ->
      (dget (KInt i) (U t) = Some [] /\ holds w i p) \/ dget (KInt i) (U t) = Some [(KStr "DISCRETE_OCCUPANCY", VStr p)].
    Proof.
      intros Ht Hi Pw H. destruct (HU t Ht) as (A & B & D). destruct (upd_of_site t i Ht Hi) as (u & Eu & [->|(q & ->)] & _).
      - left. split; auto. eapply step_keep; eauto.
      - right. assert (q = p) as ->; auto. eapply holds_fun; [|exact H]. now apply step_put.
    Qed.
    Lemma view_from t v : (t <= n)%nat -> (forall t', (t' < t)%nat -> forall i q, In i ids -> dget (KInt i) (U t') = Some [(KStr "DISCRETE_OCCUPANCY", VStr q)] -> q <> bg /\ from_init q) ->
      view U init t v -> forall i p, In i ids -> holds v i p -> p = bg \/ from_init p.
    Proof.
      intros L HQ V. revert L HQ. induction V as [|t|t t' w V IH L']; intros L HQ i p Hi Hp.
      - right. exists i. auto.
      - destruct (step_holds init t i p ltac:(lia) Hi PI Hp) as [[_ H]|H]; [right; exists i; auto|]. right. apply (HQ t ltac:(lia) i); auto.
      - destruct (step_holds w t i p ltac:(lia) Hi) as [[_ H]|H]; auto.
        + apply (view_phased t'); auto. lia.
        + apply (IH ltac:(lia)) with (i := i); auto. intros s Hs. apply HQ. lia.
        + right. apply (HQ t ltac:(lia) i); auto.
    Qed.
    Lemma assigned t : (t < n)%nat -> forall i q, In i ids -> dget (KInt i) (U t) = Some [(KStr "DISCRETE_OCCUPANCY", VStr q)] -> q <> bg /\ from_init q.
    Proof.
      induction t as [t IH] using lt_wf_ind. intros Ht i q Hi E. destruct (upd_of_site t i Ht Hi) as (u & Eu & _ & v & c & l & Vv & Pv & EL & IL & U1 & U2 & U3).
      rewrite E in Eu. injection Eu as <-. destruct (proj2 Pv i Hi) as [p Hp]. destruct (eqb_spec p bg) as [Ep|D].
      2:{ exfalso. specialize (U1 (ex_intro _ p (conj Hp D))). discriminate. }
      subst p. destruct (existsb (fun j => negb (phase_at v j bg)) l) eqn:X.
      - apply existsb_exists in X as (j & Hj & X). destruct U3 as (r & Er & Dr & Pr & _); auto.
        { exists j. split; auto. destruct (proj2 Pv j (IL j Hj)) as [r Hr]. exists r. split; auto. intros ->. rewrite (holds_phase _ _ _ _ Hr), eqb_refl in X. discriminate. }
        injection Er as <-. split; auto. apply count_pos in Pr as (m & Hm & Hq).
        destruct (view_from t v ltac:(lia)) with (i := m) (p := q) as [?|?]; auto; [|contradiction]. intros t' Ht' i' q'. apply IH; lia.
      - exfalso. specialize (U2 Hp). assert (X2 : [(KStr "DISCRETE_OCCUPANCY", VStr q)] = []); [|discriminate]. apply U2. intros j Hj.
        destruct (proj2 Pv j (IL j Hj)) as [r Hr]. destruct (eqb_spec r bg) as [Er|D]; [congruence|].
        exfalso. assert (existsb (fun j => negb (phase_at v j bg)) l = true); [|congruence]. apply existsb_exists. exists j. split; auto.
        rewrite (holds_phase _ _ _ _ Hr), eqb_neq; auto.
    Qed.
    Lemma spread_from t i p : (t <= n)%nat -> In i ids -> holds (after U init t) i p -> p = bg \/ from_init p.
    Proof. intros L Hi H. eapply (view_from t (after U init t) L); eauto using after_view. intros t' Ht'. apply assigned. lia. Qed.

    Lemma occupied_stays t i : (t < n)%nat -> In i ids -> occupied bg (after U init t) i -> occupied bg (after U init (S t)) i.
    Proof.
      intros Ht Hi (p & Hp & Dp). rewrite after_S. destruct (HU t Ht) as (A & B & D). pose proof (spread_phased t ltac:(lia)) as Pw.
      destruct (upd_of_site t i Ht Hi) as (u & Eu & [Eu'|(q & Eu')] & _); subst u.
      - exists p. split; auto. eapply step_keep; eauto.
      - exists q. split; [now apply step_put|]. apply (assigned t Ht i q); auto.
    Qed.

    (** The spread of occupied sites along a fixed neighbour relation. *)
    Variable nbr : Z -> Z -> Prop.
    Hypothesis HR : forall o i l j, legal o -> In i ids -> neighbors_of o N i = Ok l -> (In j l <-> nbr i j).
    Definition near (t : nat) (i : Z) : Prop := exists j, within nbr t i j /\ occupied bg init j.
    Lemma near_S t i : near t i -> near (S t) i.
    Proof.
      intros (j & W & O). exists j. split; auto. clear O. induction W as [k i|k i m j H W IH]; [constructor|]. now apply within_hop with m.
    Qed.
    Lemma near_le t t' i : (t <= t')%nat -> near t i -> near t' i.
    Proof. induction 1 as [|t' L IH]; auto. intros H. apply near_S. auto. Qed.
    Lemma near_hop t i m : nbr i m -> near t m -> near (S t) i.
    Proof. intros H (j & W & O). exists j. split; auto. now apply within_hop with m. Qed.
    Lemma near_cases t i : near (S t) i -> occupied bg init i \/ exists m, nbr i m /\ near t m.
    Proof. intros (j & W & O). inversion W as [k i' E1 E2 E3|k i' m j' H W' E1 E2 E3]; subst; auto. right. exists m. split; auto. exists j. auto. Qed.

    Lemma view_near t v : (t <= n)%nat -> (forall t', (t' < t)%nat -> forall i q, In i ids -> dget (KInt i) (U t') = Some [(KStr "DISCRETE_OCCUPANCY", VStr q)] -> near (S t') i) ->
      view U init t v -> forall i, In i ids -> occupied bg v i -> near t i.
    Proof.
      intros L HQ V. revert L HQ. induction V as [|t|t t' w V IH L']; intros L HQ i Hi (p & Hp & Dp).
      - exists i. split; [constructor|exists p; auto].
      - destruct (step_holds init t i p ltac:(lia) Hi PI Hp) as [[_ H]|H]; [exists i; split; [constructor|exists p; auto]|]. apply (HQ t ltac:(lia) i p); auto.
      - destruct (step_holds w t i p ltac:(lia) Hi) as [[_ H]|H]; auto.
        + apply (view_phased t'); auto. lia.
        + apply near_le with t'; auto. apply (IH ltac:(lia)) with (i := i); auto; [|exists p; auto]. intros s Hs. apply HQ. lia.
        + apply (HQ t ltac:(lia) i p); auto.
    Qed.
    (** Sites occupied at the start, or by the update just sent, are seen. *)
    Lemma view_seen t v i : (t <= n)%nat -> view U init t v -> In i ids ->
      occupied bg init i \/ (exists t' q, t = S t' /\ dget (KInt i) (U t') = Some [(KStr "DISCRETE_OCCUPANCY", VStr q)]) -> occupied bg v i.
    Proof.
      intros L V. revert L i. induction V as [|t|t t' w V IH L']; intros L i Hi H.
      - destruct H as [H|(t' & q & E & _)]; [auto|discriminate].
      - destruct (HU t ltac:(lia)) as (A & B & D). destruct (upd_of_site t i ltac:(lia) Hi) as (u & Eu & [Eu'|(q & Eu')] & _); subst u.
        + destruct H as [(p & Hp & Dp)|(t' & q & E & Eq)]; [|injection E as <-; congruence]. exists p. split; auto. eapply step_keep; eauto.
        + exists q. split; [now apply step_put|]. apply (assigned t ltac:(lia) i q); auto.
      - destruct (HU t ltac:(lia)) as (A & B & D). assert (Pw : phased ids w) by (apply (view_phased t'); auto; lia).
        destruct (upd_of_site t i ltac:(lia) Hi) as (u & Eu & [Eu'|(q & Eu')] & _); subst u.
        + destruct H as [H|(t2 & q & E & Eq)]; [|injection E as <-; congruence].
          destruct (IH ltac:(lia) i Hi (or_introl H)) as (p & Hp & Dp). exists p. split; auto. eapply step_keep; eauto.
        + exists q. split; [now apply step_put|]. apply (assigned t ltac:(lia) i q); auto.
    Qed.

    Lemma assigned_near t : (t < n)%nat -> forall i q, In i ids -> dget (KInt i) (U t) = Some [(KStr "DISCRETE_OCCUPANCY", VStr q)] -> near (S t) i.
    Proof.
      induction t as [t IH] using lt_wf_ind. intros Ht i q Hi E. destruct (upd_of_site t i Ht Hi) as (u & Eu & _ & v & c & l & Vv & Pv & EL & IL & U1 & U2 & U3).
      rewrite E in Eu. injection Eu as <-. destruct (proj2 Pv i Hi) as [p Hp]. destruct (eqb_spec p bg) as [Ep|D].
      2:{ exfalso. specialize (U1 (ex_intro _ p (conj Hp D))). discriminate. }
      subst p. destruct (existsb (fun j => negb (phase_at v j bg)) l) eqn:X.
      - apply existsb_exists in X as (j & Hj & X). apply near_hop with j; [eapply HR; eauto|].
        apply (view_near t v ltac:(lia)) with (i := j); auto.
        + intros t' Ht' i' q'. apply IH; lia.
        + destruct (proj2 Pv j (IL j Hj)) as [r Hr]. exists r. split; auto. intros ->. rewrite (holds_phase _ _ _ _ Hr), eqb_refl in X. discriminate.
      - exfalso. specialize (U2 Hp). assert (X2 : [(KStr "DISCRETE_OCCUPANCY", VStr q)] = []); [|discriminate]. apply U2. intros j Hj.
        destruct (proj2 Pv j (IL j Hj)) as [r Hr]. destruct (eqb_spec r bg) as [Er|D]; [congruence|].
        exfalso. assert (existsb (fun j => negb (phase_at v j bg)) l = true); [|congruence]. apply existsb_exists. exists j. split; auto.
        rewrite (holds_phase _ _ _ _ Hr), eqb_neq; auto.
    Qed.
    Hypothesis NIn : forall i j, In i ids -> nbr i j -> In j ids.
    Lemma front_assigned t : (t < n)%nat -> forall i, In i ids -> near (S t) i -> ~ near t i -> exists q, dget (KInt i) (U t) = Some [(KStr "DISCRETE_OCCUPANCY", VStr q)].
    Proof.
      induction t as [t IH] using lt_wf_ind. intros Ht i Hi NS NN.
      destruct (upd_of_site t i Ht Hi) as (u & Eu & _ & v & c & l & Vv & Pv & EL & IL & _ & _ & U3).
      destruct (proj2 Pv i Hi) as [p Hp]. destruct (eqb_spec p bg) as [Ep|D].
      2:{ exfalso. apply NN. apply (view_near t v ltac:(lia)) with (i := i); auto; [|exists p; auto]. intros t' Ht'. apply assigned_near. lia. }
      subst p. destruct (near_cases t i NS) as [O|(m & Hm & Nm)].
      { exfalso. apply NN. exists i. split; [constructor|auto]. }
      assert (Im : In m ids) by eauto.
      assert (X : exists j, In j l /\ occupied bg v j); [|destruct (U3 Hp X) as (q & -> & _); eauto]. exists m. split; [apply (HR (ords c) i l m (LO c) Hi EL); auto|].
      apply (fun H => view_seen t v m ltac:(lia) Vv Im H). destruct t as [|t].
      - left. destruct Nm as (j & W & O). inversion W; subst; auto.
      - right. destruct (IH t ltac:(lia) ltac:(lia) m Im Nm) as [q Eq].
        + intros N0. apply NN. now apply near_hop with m.
        + exists t, q. auto.
    Qed.
    Lemma spread_iff t i : (t <= n)%nat -> In i ids -> (occupied bg (after U init t) i <-> near t i).
    Proof.
      intros L Hi. split.
      - intros H. apply (view_near t (after U init t) L) with (i := i); auto using after_view. intros t' Ht'. apply assigned_near. lia.
      - induction t as [|t IH]; intros H.
        + destruct H as (j & W & O). inversion W; subst; auto.
        + destruct (Classical_Prop.classic (near t i)) as [Y|Y]; [apply occupied_stays; auto; try lia; apply IH; auto; lia|].
          destruct (front_assigned t ltac:(lia) i Hi H Y) as [q Eq]. rewrite after_S. exists q. split; [apply step_put; auto; apply (HU t ltac:(lia))|].
          apply (assigned t ltac:(lia) i q); auto.
    Qed.
  End Spread.
End Growth.
