(** Growth comes to rest (C138). *)
From Verif Require Import Prelude Dict Val StateModel ResultModel RunnerModel NbModel RulesModel SpecState SpecResult SpecRunner SpecNb SpecSetup SpecRules RulesFacts RulesMore.
Local Open Scope Z_scope.

Section Rest.
  Variables (ids : list Z) (P : nat -> Z -> bool).
  Hypothesis MONO : forall k i, In i ids -> P k i = true -> P (S k) i = true.
  Hypothesis STEP : forall k, (forall i, In i ids -> P k i = P (S k) i) -> forall i, In i ids -> P (S k) i = P (S (S k)) i.
  Definition same (a b : nat) : Prop := forall i, In i ids -> P a i = P b i.
  Definition cnt (k : nat) : nat := length (filter (P k) ids).

  Lemma stays k : same k (S k) -> forall d, same (k + d) (S (k + d)).
  Proof. intros S0. induction d as [|d IH]; [now rewrite Nat.add_0_r|]. rewrite Nat.add_succ_r. intros i Hi. now apply STEP. Qed.
  Lemma stays_all k : same k (S k) -> forall d, same k (k + d).
  Proof. intros S0. induction d as [|d IH]; intros i Hi; [now rewrite Nat.add_0_r|]. rewrite Nat.add_succ_r, (IH i Hi). now apply stays. Qed.
  Lemma grows k : same k (S k) \/ (cnt k < cnt (S k))%nat.
  Proof.
    unfold same, cnt. clear STEP. induction ids as [|x l IH]; [left; intros i []|]. destruct IH as [IH|IH]; [intros; apply MONO; [now right|assumption]| |].
    - pose proof (MONO k x (or_introl eq_refl)) as Mx. cbn [filter]. assert (E : filter (P k) l = filter (P (S k)) l) by (apply filter_ext_in; exact IH). rewrite E. destruct (P k x) eqn:A, (P (S k) x) eqn:B.
      + left. intros i [<-|Hi]; [congruence|auto].
      + now specialize (Mx eq_refl).
      + right. cbn. lia.
      + left. intros i [<-|Hi]; [congruence|auto].
    - right. pose proof (MONO k x (or_introl eq_refl)) as Mx. cbn [filter]. destruct (P k x) eqn:A; [rewrite Mx by auto; cbn; lia|]. destruct (P (S k) x); cbn; lia.
  Qed.
  Lemma cnt_le k : (cnt k <= length ids)%nat.
  Proof. unfold cnt. induction ids as [|x l IH]; [auto|]. cbn [filter]. assert (length (filter (P k) l) <= length l)%nat by (clear; induction l; cbn; auto; destruct (P k a); cbn; lia). destruct (P k x); cbn; lia. Qed.
  Lemma rest k : (exists j, (j <= k)%nat /\ same j (S j)) \/ (cnt 0 + S k <= cnt (S k))%nat.
  Proof.
    induction k as [|k [(j & L & S0)|IH]].
    - destruct (grows 0) as [S0|L]; [left; exists 0%nat; auto|right; lia].
    - left. exists j. split; [lia|exact S0].
    - destruct (grows (S k)) as [S0|L]; [left; exists (S k); auto|right; lia].
  Qed.
  (** At rest after as many steps as there are sites that can still change. *)
  Lemma at_rest k d : (length ids - cnt 0 <= k)%nat -> same k (k + d).
  Proof.
    intros L. assert (exists j, (j <= k)%nat /\ same j (S j)) as (j & Lj & S0).
    { destruct (rest k) as [H|H]; [exact H|]. pose proof (cnt_le (S k)). lia. }
    intros i Hi. pose proof (stays_all j S0 (k - j) i Hi) as A. pose proof (stays_all j S0 (k - j + d) i Hi) as B. replace (j + (k - j))%nat with k in A by lia. replace (j + (k - j + d))%nat with (k + d)%nat in B by lia. congruence.
  Qed.
End Rest.

Section Reach.
  Context (nbr : Z -> Z -> Prop) (occ : Z -> Prop).
  Definition reach (k : nat) (i : Z) : Prop := exists j, within nbr k i j /\ occ j.
  Lemma reach_S k i : reach (S k) i <-> occ i \/ exists m, nbr i m /\ reach k m.
  Proof.
    split.
    - intros (j & W & O). inversion W as [|k' i' m j' H W']; subst; [now left|]. right. exists m. split; [exact H|]. now exists j.
    - intros [O|(m & H & j & W & O)]; [exists i; split; [constructor|exact O]|]. exists j. split; [|exact O]. econstructor; eauto.
  Qed.
  Lemma reach_le k i : reach k i -> reach (S k) i.
  Proof. intros (j & W & O). exists j. split; [now apply within_S|exact O]. Qed.
End Reach.

(** The sites reached within [t] steps, once decided, are all those ever reached from step |background| on. *)
Lemma reach_rest ids nbr occ (P : nat -> Z -> bool) : (forall k i, In i ids -> (P k i = true <-> reach nbr occ k i)) ->
  (forall i j, In i ids -> nbr i j -> In j ids) ->
  (forall k d i, (length ids - length (filter (P 0%nat) ids) <= k)%nat -> In i ids -> (reach nbr occ k i <-> reach nbr occ (k + d) i)) /\
  (forall k d i, (forall i, In i ids -> (reach nbr occ k i <-> reach nbr occ (S k) i)) -> In i ids -> (reach nbr occ k i <-> reach nbr occ (k + d) i)).
Proof.
  intros HP CL.
  assert (BI : forall a b i, In i ids -> (P a i = P b i <-> (reach nbr occ a i <-> reach nbr occ b i))).
  { intros a b i Hi. rewrite <- !HP by auto. destruct (P a i), (P b i); intuition congruence. }
  assert (MONO : forall k i, In i ids -> P k i = true -> P (S k) i = true) by (intros k i Hi; rewrite !HP by auto; apply reach_le).
  assert (STEP : forall k, (forall i, In i ids -> P k i = P (S k) i) -> forall i, In i ids -> P (S k) i = P (S (S k)) i).
  { intros k H i Hi. apply BI; auto. rewrite (reach_S _ _ k), (reach_S _ _ (S k)). split; (intros [O|(m & N & R)]; [now left|right; exists m; split; [exact N|]]); apply (BI k (S k) m (CL i m Hi N)) in R; auto; apply H; eauto. }
  split.
  - intros k d i L Hi. apply BI; auto. now apply (at_rest ids P MONO STEP).
  - intros k d i H Hi. apply BI; auto. apply (stays_all ids P STEP); auto. intros j Hj. apply BI; auto.
Qed.

Section Decided.
  Context {F : Type} (N : nbhood F) (bg : string) (ords : nat -> @nb_oracle F) (rnd : nat -> nat) (ids : list Z) (c0 : nat) (init : sstate) (nbr : Z -> Z -> Prop).
  Hypothesis (LO : forall t, legal (ords t)) (NI : NoDup ids) (NE : ids <> []) (HN : has_neighbours ids N) (PI : phased ids init).
  Hypothesis HB : forall o i l j, legal o -> In i ids -> neighbors_of o N i = Ok l -> (In j l <-> nbr i j).
  Definition shown (k : nat) (i : Z) : bool :=
    match run_sync (growth_controller N bg ords rnd) c0 init (Z.of_nat k) with
    | Ok o => match get_step (o_result o) (Z.of_nat k) with Ok st => negb (phase_at st i bg) | Err _ => false end
    | Err _ => false
    end.
  Lemma occ_bool st i : phased ids st -> In i ids -> (negb (phase_at st i bg) = true <-> occupied bg st i).
  Proof.
    intros [_ H] Hi. destruct (H i Hi) as [p Hp]. rewrite (holds_phase _ _ _ bg Hp). split.
    - intros E. exists p. split; [exact Hp|]. intros ->. rewrite eqb_refl in E. discriminate.
    - intros (q & Hq & D). assert (q = p) as -> by (unfold holds in *; congruence). now rewrite eqb_neq.
  Qed.
  Lemma shown_reach k i : In i ids -> (shown k i = true <-> reach nbr (occupied bg init) k i).
  Proof.
    intros Hi. destruct (C55_lemma F N bg ords rnd ids c0 init (Z.of_nat k) LO NI NE HN PI) as (o & E & _ & H). destruct (H (Z.of_nat k) ltac:(lia)) as (st & G & PH & _ & _ & R).
    unfold shown. rewrite E, G, occ_bool by auto. rewrite (R nbr HB i Hi). rewrite Nat2Z.id. reflexivity.
  Qed.
  Lemma nbr_closed i j : In i ids -> nbr i j -> In j ids.
  Proof. intros Hi Hn. destruct (HN (ords 0%nat) i (LO _) Hi) as (l & EL & IL). apply IL. now apply (HB (ords 0%nat) i l j (LO _) Hi EL). Qed.
  Lemma bg_count : Z.of_nat (length ids - length (filter (shown 0) ids)) = count_in init ids bg.
  Proof.
    assert (E : filter (shown 0) ids = filter (fun i => negb (phase_at init i bg)) ids).
    { apply filter_ext_in. intros i Hi. apply Bool.eq_true_iff_eq. rewrite shown_reach, occ_bool by auto. split; [intros (j & W & O); inversion W; subst; exact O|intros O; exists i; split; [constructor|exact O]]. }
    rewrite E. unfold count_in. f_equal. clear. induction ids as [|x l IH]; [reflexivity|]. cbn [filter]. assert (length (filter (fun i => negb (phase_at init i bg)) l) <= length l)%nat by (clear; induction l; cbn; auto; destruct (negb _); cbn; lia).
    destruct (phase_at init x bg); cbn [negb length]; lia.
  Qed.
  Lemma region_rest k d i : count_in init ids bg <= Z.of_nat k -> In i ids -> (reach nbr (occupied bg init) k i <-> reach nbr (occupied bg init) (k + d) i).
  Proof. intros L Hi. apply (proj1 (reach_rest ids nbr (occupied bg init) shown shown_reach nbr_closed)); auto. rewrite <- bg_count in L. lia. Qed.
  Lemma region_stays k d i : (forall i, In i ids -> (reach nbr (occupied bg init) k i <-> reach nbr (occupied bg init) (S k) i)) -> In i ids -> (reach nbr (occupied bg init) k i <-> reach nbr (occupied bg init) (k + d) i).
  Proof. apply (proj2 (reach_rest ids nbr (occupied bg init) shown shown_reach nbr_closed)). Qed.
End Decided.

Lemma C138_serial_lemma : forall F (N : nbhood F) bg ords rnd ids c0 init n nbr,
  (forall t, legal (ords t)) -> NoDup ids -> ids <> [] -> has_neighbours ids N -> phased ids init ->
  (forall o i l j, legal o -> In i ids -> neighbors_of o N i = Ok l -> (In j l <-> nbr i j)) ->
  exists o, run_sync (growth_controller N bg ords rnd) c0 init n = Ok o /\
  (forall t t', count_in init ids bg <= t -> t <= t' -> t' <= Z.max 0 n ->
     exists st st', get_step (o_result o) t = Ok st /\ get_step (o_result o) t' = Ok st' /\ forall i p, In i ids -> (holds st i p <-> holds st' i p)) /\
  (forall t t' st st1 st', 0 <= t -> t < t' -> t' <= Z.max 0 n ->
     get_step (o_result o) t = Ok st -> get_step (o_result o) (t + 1) = Ok st1 -> get_step (o_result o) t' = Ok st' ->
     (forall i p, In i ids -> (holds st i p <-> holds st1 i p)) -> forall i p, In i ids -> (holds st i p <-> holds st' i p)).
Proof.
  intros F N bg ords rnd ids c0 init n nbr LO NI NE HN PI HB. destruct (C55_lemma F N bg ords rnd ids c0 init n LO NI NE HN PI) as (o & E & _ & H). exists o. split; [exact E|].
  assert (SAME : forall t t' st st', 0 <= t -> t <= t' -> t' <= Z.max 0 n -> get_step (o_result o) t = Ok st -> get_step (o_result o) t' = Ok st' ->
    (forall i, In i ids -> (reach nbr (occupied bg init) (Z.to_nat t) i <-> reach nbr (occupied bg init) (Z.to_nat t') i)) -> forall i p, In i ids -> (holds st i p <-> holds st' i p)).
  { intros t t' st st' H0 H1 H2 G G' R i p Hi. destruct (H t ltac:(lia)) as (s & Gs & PH & _ & K & RS). assert (s = st) by congruence. subst s. destruct (H t' ltac:(lia)) as (s & Gs' & PH' & _ & _ & RS'). assert (s = st') by congruence. subst s.
    specialize (R i Hi). unfold reach in R. rewrite <- (RS nbr HB i Hi), <- (RS' nbr HB i Hi) in R.
    destruct (proj2 PH i Hi) as [q Hq]. destruct (eqb_spec q bg) as [->|D].
    - destruct (proj2 PH' i Hi) as [q' Hq']. assert (q' = bg) as ->. { destruct (eqb_spec q' bg) as [|D]; [assumption|]. destruct (proj2 R (ex_intro _ q' (conj Hq' D))) as (w & Hw & Dw). unfold holds in *. congruence. } unfold holds in *. rewrite Hq, Hq'. reflexivity.
    - assert (Hq' : holds st' i q) by (eapply K; eauto; lia). unfold holds in *. rewrite Hq, Hq'. reflexivity. }
  split.
  - intros t t' L L1 L2. assert (0 <= t) by (unfold count_in in L; lia). destruct (H t ltac:(lia)) as (st & G & _). destruct (H t' ltac:(lia)) as (st' & G' & _). exists st, st'. split; [exact G|]. split; [exact G'|].
    apply (SAME t t'); auto. intros i Hi. replace (Z.to_nat t') with (Z.to_nat t + (Z.to_nat t' - Z.to_nat t))%nat by lia. apply (region_rest N bg ords rnd ids c0 init nbr); auto. lia.
  - intros t t' st st1 st' H0 H1 H2 G G1 G' SM. apply (SAME t t'); auto; [lia|]. intros i Hi. replace (Z.to_nat t') with (Z.to_nat t + (Z.to_nat t' - Z.to_nat t))%nat by lia. apply (region_stays N bg ords rnd ids c0 init nbr); auto.
    intros j Hj. destruct (H t ltac:(lia)) as (s & Gs & _ & _ & _ & RS). assert (s = st) by congruence. subst s. destruct (H (t + 1) ltac:(lia)) as (s & Gs' & _ & _ & _ & RS'). assert (s = st1) by congruence. subst s.
    specialize (RS nbr HB j Hj). specialize (RS' nbr HB j Hj). replace (Z.to_nat (t + 1)) with (S (Z.to_nat t)) in RS' by lia. unfold reach. rewrite <- RS, <- RS'. unfold occupied. split; intros (q & Hq & D); exists q; (split; [now apply SM|exact D]).
Qed.

Lemma C138_parallel_lemma : forall F (N : nbhood F) bg ords rnd ids w sched c0 init n nbr,
  (forall t, legal (ords t)) -> NoDup ids -> ids <> [] -> has_neighbours ids N -> phased ids init -> 1 <= w ->
  (forall o i l j, legal o -> In i ids -> neighbors_of o N i = Ok l -> (In j l <-> nbr i j)) ->
  exists o, run_parallel (growth_controller N bg ords rnd) w sched c0 init n = Ok o /\
  (forall t t', count_in init ids bg <= t -> t <= t' -> t' <= Z.max 0 n ->
     exists st st', get_step (o_result o) t = Ok st /\ get_step (o_result o) t' = Ok st' /\ forall i, In i ids -> (holds st i bg <-> holds st' i bg)) /\
  (forall t t' st st1 st', 0 <= t -> t < t' -> t' <= Z.max 0 n ->
     get_step (o_result o) t = Ok st -> get_step (o_result o) (t + 1) = Ok st1 -> get_step (o_result o) t' = Ok st' ->
     (forall i, In i ids -> (holds st i bg <-> holds st1 i bg)) -> forall i, In i ids -> (holds st i bg <-> holds st' i bg)).
Proof.
  intros F N bg ords rnd ids w sched c0 init n nbr LO NI NE HN PI W HB. destruct (C56_spread_lemma F N bg ords rnd ids w sched c0 init n LO NI NE HN PI W) as (o & E & _ & H). exists o. split; [exact E|].
  assert (BG : forall s s', phased ids s -> phased ids s' -> forall i, In i ids -> ((holds s i bg <-> holds s' i bg) <-> (occupied bg s i <-> occupied bg s' i))).
  { intros s s' [_ A] [_ B] i Hi. destruct (A i Hi) as [p Hp], (B i Hi) as [q Hq]. unfold occupied, holds in *. rewrite Hp, Hq. destruct (eqb_spec p bg) as [->|D], (eqb_spec q bg) as [->|D'].
    - split; [intros _|intros _; tauto]. split; intros (r & X & Y); congruence.
    - split; [intros [X _]; specialize (X eq_refl); congruence|]. intros [_ X]. destruct X as (r & X & Y); [exists q; auto|congruence].
    - split; [intros [_ X]; specialize (X eq_refl); congruence|]. intros [X _]. destruct X as (r & X & Y); [exists p; auto|congruence].
    - split; [intros _; split; intros _; eauto|intros _; split; congruence]. }
  assert (SAME : forall t t' st st', 0 <= t -> t <= t' -> t' <= Z.max 0 n -> get_step (o_result o) t = Ok st -> get_step (o_result o) t' = Ok st' ->
    forall i, In i ids -> ((reach nbr (occupied bg init) (Z.to_nat t) i <-> reach nbr (occupied bg init) (Z.to_nat t') i) <-> (holds st i bg <-> holds st' i bg))).
  { intros t t' st st' H0 H1 H2 G G' i Hi. destruct (H t ltac:(lia)) as (s & Gs & PH & _ & K & RS). assert (s = st) by congruence. subst s. destruct (H t' ltac:(lia)) as (s & Gs' & PH' & _ & _ & RS'). assert (s = st') by congruence. subst s.
    unfold reach. rewrite <- (RS nbr HB i Hi), <- (RS' nbr HB i Hi). symmetry. now apply BG. }
  split.
  - intros t t' L L1 L2. assert (0 <= t) by (unfold count_in in L; lia). destruct (H t ltac:(lia)) as (st & G & _). destruct (H t' ltac:(lia)) as (st' & G' & _). exists st, st'. split; [exact G|]. split; [exact G'|].
    intros i Hi. apply (SAME t t' st st'); auto. replace (Z.to_nat t') with (Z.to_nat t + (Z.to_nat t' - Z.to_nat t))%nat by lia. apply (region_rest N bg ords rnd ids c0 init nbr); auto. lia.
  - intros t t' st st1 st' H0 H1 H2 G G1 G' SM i Hi. apply (SAME t t' st st'); auto; [lia|]. replace (Z.to_nat t') with (Z.to_nat t + (Z.to_nat t' - Z.to_nat t))%nat by lia. apply (region_stays N bg ords rnd ids c0 init nbr); auto.
    intros j Hj. replace (S (Z.to_nat t)) with (Z.to_nat (t + 1)) by lia. apply (SAME t (t + 1) st st1); auto; lia.
Qed.
