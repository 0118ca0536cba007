(** Asynchronous growth runs (C80, C81). *)
From Coq Require Import Permutation.
From Verif Require Import Prelude Dict Val ValFacts Arith LatticeModel StructModel StateModel ResultModel RunnerModel NbModel GridModel SimModel SetupModel RulesModel
  SpecState SpecResult SpecRunner SpecGeom SpecNb SpecGrid SpecSetup SpecRules StateFacts ResultFacts RunnerFacts RunnerMore SyncFacts ParFacts ParRun GenRun RulesFacts.
Local Open Scope Z_scope.

(** One visit: only site [i] may change, and as the growth rule says. *)
Definition visited {F} (N : nbhood F) (bg : string) (o : @nb_oracle F) (st : sstate) (i : Z) (st' : sstate) : Prop :=
  (forall j p, j <> i -> (holds st' j p <-> holds st j p)) /\
  exists l, neighbors_of o N i = Ok l /\
    ((occupied bg st i \/ forall j, In j l -> holds st j bg) -> forall p, holds st' i p <-> holds st i p) /\
    (holds st i bg -> (exists j, In j l /\ occupied bg st j) ->
       exists q, holds st' i q /\ q <> bg /\ 0 < count_in st l q /\ forall r, r <> bg -> count_in st l r <= count_in st l q).

Section AsyncGrow.
  Context {F : Type} (N : nbhood F) (bg : string) (ords : nat -> @nb_oracle F) (rnd : nat -> nat) (m : Z).
  Hypothesis LO : forall t, legal (ords t).
  Hypothesis HM : 0 < m.
  Let ids := zrange 0 m.
  Hypothesis HN : has_neighbours ids N.
  Let ctl := growth_controller N bg ords rnd.
  Let site (c : nat) : Z := Z.of_nat (rnd c) mod m.

  Lemma site_In c : In (site c) ids.
  Proof. unfold ids, site. apply zrange_In. apply Z.mod_pos_bound. exact HM. Qed.

  Lemma ask c st : phased ids st -> add_sites ctl st [] c = Ok ([KInt (site c)], S c).
  Proof.
    intros [HI _]. apply add_sites_offers. exists (VInt (site c)). split; [|constructor].
    cbn [c_random_site ctl growth_controller]. unfold basic_random_site.
    assert (E : size st = m).
    { unfold size. rewrite HI, map_length. unfold ids. rewrite zrange_length. lia. }
    rewrite E. replace (m <=? 0) with false by lia. reflexivity.
  Qed.

  Lemma one_visit c st : phased ids st -> exists st',
    phased ids st' /\ visited N bg (ords (S c)) st (site c) st' /\
    forall ds, exists u, async_step ctl (mkA st ds [KInt (site c)] (S c)) = Ok (mkA st' (ds ++ [u]) [KInt (site (S (S c)))] (S (S (S c)))) /\ batch_update st u = Ok st'.
  Proof.
    intros PH. set (i := site c). pose proof (site_In c) as Hi. fold i in Hi. destruct PH as [HI HP].
    destruct (HN (ords (S c)) i (LO _) Hi) as (l & EL & IL).
    destruct (C54_lemma F N bg ords rnd (S c) i st l EL (HP i Hi)) as (u & E & U1 & U2 & U3); [intros j Hj; apply HP, IL, Hj|].
    assert (GU : grow_upd (KInt i) u).
    { destruct (grow_ans N bg ords rnd ids LO HN (S c) (KInt i) st (conj HI HP)) as (u' & c' & E' & G); [now apply in_map|]. rewrite E in E'. injection E' as <- _. exact G. }
    pose (st' := set_general_state (set_sites_t st [(KInt i, u)]) []).
    assert (HS : forall j p, holds st' j p <-> holds (set_sites_t st [(KInt i, u)]) j p) by (intros; unfold holds, st', site_entry; rewrite get_site_set_general; tauto).
    assert (NDU : NoDup (dkeys [(KInt i, u)])) by (repeat constructor; simpl; tauto).
    assert (OTH : forall j p, j <> i -> (holds st' j p <-> holds st j p)).
    { intros j p D. rewrite HS. unfold holds, site_entry. rewrite get_set_sites_t_notin; [tauto|]. simpl. intros [X|[]]. congruence. }
    assert (KEEP : u = [] -> forall p, holds st' i p <-> holds st i p).
    { intros ->. intros p. rewrite HS. eapply step_keep; [exact (conj HI HP)|exact NDU| |exact Hi]. cbn [dget]. now rewrite eqb_refl. }
    assert (PUT : forall q, u = [(KStr "DISCRETE_OCCUPANCY", VStr q)] -> holds st' i q).
    { intros q ->. rewrite HS. apply step_put; auto. cbn [dget]. now rewrite eqb_refl. }
    assert (PH' : phased ids st').
    { split.
      - change (site_ids st') with (site_ids (set_sites_t st [(KInt i, u)])). rewrite site_ids_set_sites_sub; auto. intros k [<-|[]]. cbn [fst]. rewrite HI. exact (in_map KInt _ _ Hi).
      - intros j Hj. destruct (Z.eq_dec j i) as [->|D].
        + destruct GU as [->|(q & Eq)]; [destruct (HP i Hi) as [p Hp]; exists p; now apply KEEP|exists q; auto].
        + destruct (HP j Hj) as [p Hp]. exists p. now apply OTH. }
    exists st'. split; [exact PH'|]. split.
    - split; [exact OTH|]. exists l. split; [exact EL|]. split.
      + intros [O|B]; [apply KEEP, U1, O|]. destruct (HP i Hi) as [p Hp]. destruct (eqb_spec p bg) as [->|D]; [apply KEEP, U2; auto|apply KEEP, U1; exists p; auto].
      + intros HB HO. destruct (U3 HB HO) as (q & -> & Dq & P1 & P2). exists q. split; [apply PUT; reflexivity|auto].
    - intros ds. exists (full_update (vsites [(KInt i, u)]) []).
      assert (B : batch_update st (full_update (vsites [(KInt i, u)]) []) = Ok st') by (rewrite batch_full_update, set_sites_vsites; reflexivity).
      split; [|exact B].
      unfold async_step. cbn [a_queue a_ctl a_live]. unfold ctl at 1. rewrite E. cbn [bind split_response].
      pose proof (merge_means_dict u _ _ None (KInt i) (grow_own (KInt i) u GU)) as Em. cbn [canon csites cgen] in Em.
      change (dmerge [] [(KInt i, VDict u)]) with (vsites [(KInt i, u)]) in Em. change (dmerge [] []) with (@nil (key * val)) in Em.
      rewrite Em. cbn [bind]. rewrite B. cbn [bind extend_arg mapM app a_diffs].
      rewrite (ask (S (S c)) st' PH'). reflexivity.
  Qed.

  (** The states of the run, for every number of steps. *)
  Lemma states_exist c0 init : phased ids init -> exists f : nat -> sstate, exists ds : nat -> val,
    f 0%nat = init /\ forall t, phased ids (f t) /\ batch_update (f t) (ds t) = Ok (f (S t)) /\
      visited N bg (ords (S (c0 + 2 * t))) (f t) (site (c0 + 2 * t)) (f (S t)) /\
      forall l, async_step ctl (mkA (f t) l [KInt (site (c0 + 2 * t))] (S (c0 + 2 * t))) = Ok (mkA (f (S t)) (l ++ [ds t]) [KInt (site (c0 + 2 * S t))] (S (c0 + 2 * S t))).
  Proof.
    intros PI.
    pose (stepf := fun (t : nat) (st : sstate) => match async_step ctl (mkA st [] [KInt (site (c0 + 2 * t))] (S (c0 + 2 * t))) with Ok a => a_live a | Err _ => st end).
    pose (stepd := fun (t : nat) (st : sstate) => match async_step ctl (mkA st [] [KInt (site (c0 + 2 * t))] (S (c0 + 2 * t))) with Ok a => hd VNone (a_diffs a) | Err _ => VNone end).
    pose (f := fix f (t : nat) := match t with O => init | S t => stepf t (f t) end).
    assert (STEP : forall t st, phased ids st -> phased ids (stepf t st) /\ batch_update st (stepd t st) = Ok (stepf t st) /\
      visited N bg (ords (S (c0 + 2 * t))) st (site (c0 + 2 * t)) (stepf t st) /\
      forall l, async_step ctl (mkA st l [KInt (site (c0 + 2 * t))] (S (c0 + 2 * t))) = Ok (mkA (stepf t st) (l ++ [stepd t st]) [KInt (site (c0 + 2 * S t))] (S (c0 + 2 * S t)))).
    { intros t st PH. destruct (one_visit (c0 + 2 * t) st PH) as (st' & PH' & V & A).
      destruct (A []) as (u & A0 & B0). unfold stepf, stepd. rewrite A0. cbn [a_live a_diffs app hd].
      split; auto. split; auto. split; auto. intros l. destruct (A l) as (u' & A1 & B1).
      replace (c0 + 2 * S t)%nat with (S (S (c0 + 2 * t))) by lia. rewrite A1.
      (* the recorded update does not depend on what was recorded before *)
      assert (U : u' = u); [|now rewrite U].
      unfold async_step in A0, A1. cbn [a_queue a_ctl a_live a_diffs] in A0, A1.
      destruct (c_update ctl (S (c0 + 2 * t)) (KInt (site (c0 + 2 * t))) st) as [[resp c1]|]; [|discriminate]. cbn [bind] in A0, A1.
      destruct (split_response resp) as [[ups nx]|]; [|discriminate]. cbn [bind] in A0, A1.
      destruct (merge_updates ups VNone (Some (KInt (site (c0 + 2 * t))))) as [su|]; [|discriminate]. cbn [bind] in A0, A1.
      destruct (batch_update st su) as [lv|]; [|discriminate]. cbn [bind] in A0, A1. destruct (extend_arg nx) as [ks|]; [|discriminate]. cbn [bind app] in A0, A1.
      assert (D0 : [su] = [u]). { destruct ks; [|congruence]. destruct (add_sites ctl lv [] c1) as [[q3 c2]|]; [|discriminate]. cbn [bind] in A0. congruence. }
      assert (D1 : l ++ [su] = l ++ [u']). { destruct ks; [|congruence]. destruct (add_sites ctl lv [] c1) as [[q3 c2]|]; [|discriminate]. cbn [bind] in A1. congruence. }
      apply app_inv_head in D1. congruence. }
    assert (PF : forall t, phased ids (f t)). { induction t as [|t IH]; [exact PI|]. cbn [f]. now apply STEP. }
    exists f, (fun t => stepd t (f t)). split; [reflexivity|]. intros t. split; [apply PF|]. exact (proj2 (STEP t (f t) (PF t))).
  Qed.

  Lemma run_states c0 init : phased ids init -> exists f : nat -> sstate, f 0%nat = init /\
    (forall t, phased ids (f t) /\ visited N bg (ords (S (c0 + 2 * t))) (f t) (site (c0 + 2 * t)) (f (S t))) /\
    forall n, exists o, run_async ctl c0 init n = Ok o /\ rlen (o_result o) = Z.max 0 n + 1 /\ o_output o = f (Z.to_nat n) /\
      forall t, 0 <= t <= Z.max 0 n -> get_step (o_result o) t = Ok (f (Z.to_nat t)).
  Proof.
    intros PI. destruct (states_exist c0 init PI) as (f & ds & F0 & HF). exists f. split; auto. split; [intros t; split; apply HF|]. intros n.
    assert (LOOP : forall k t l, async_loop ctl k (mkA (f t) l [KInt (site (c0 + 2 * t))] (S (c0 + 2 * t))) =
      Ok (mkA (f (t + k)%nat) (l ++ map ds (seq t k)) [KInt (site (c0 + 2 * (t + k)))] (S (c0 + 2 * (t + k))))).
    { induction k as [|k IH]; intros t l; cbn [async_loop]; [rewrite Nat.add_0_r; cbn [seq map]; now rewrite app_nil_r|].
      destruct (HF t) as (_ & _ & _ & A). rewrite A. cbn [bind a_queue]. rewrite IH. replace (S t + k)%nat with (t + S k)%nat by lia. cbn [seq map]. now rewrite <- app_assoc. }
    unfold run_async. change (c_pre_run ctl c0 init) with (@Ok nat c0). cbn [bind]. rewrite (ask c0 init PI). cbn [bind].
    pose proof (LOOP (Z.to_nat n) 0%nat []) as E. rewrite F0 in E. replace (c0 + 2 * 0)%nat with c0 in E by lia. rewrite E. cbn [bind Nat.add app].
    eexists. split; [reflexivity|]. cbn [o_result o_output a_diffs a_live]. split; [unfold rlen; cbn [r_diffs]; rewrite map_length, seq_length; lia|]. split; [reflexivity|].
    intros t Ht. assert (Et : t = Z.of_nat (Z.to_nat t)) by lia. rewrite Et at 1. rewrite get_step_fresh by (rewrite map_length, seq_length; lia).
    assert (K : forall k, (k <= Z.to_nat n)%nat -> replay init (map ds (seq 0 (Z.to_nat n))) k = Ok (f k)).
    { induction k as [|k IH]; intros L; [rewrite replay_0, F0; reflexivity|]. rewrite (replay_S _ _ _ (ds k)).
      - rewrite IH by lia. cbn [bind]. apply HF.
      - rewrite nth_error_map. rewrite (nth_error_nth' _ 0%nat) by (rewrite seq_length; lia). rewrite seq_nth by lia. reflexivity. }
    apply K. lia.
  Qed.

  Lemma visited_keep o st i st' j p : phased ids st -> In i ids -> legal o -> visited N bg o st i st' -> holds st j p -> p <> bg -> holds st' j p.
  Proof.
    intros PH Hi Lo [OTH (l & EL & K & _)] Hp D. destruct (Z.eq_dec j i) as [->|Dj]; [|now apply OTH]. apply K; auto. left. exists p. auto.
  Qed.
  Lemma visited_new o st i st' j p : phased ids st -> In i ids -> legal o -> visited N bg o st i st' -> holds st' j p ->
    holds st j p \/ (j = i /\ p <> bg /\ exists l k, neighbors_of o N i = Ok l /\ In k l /\ In k ids /\ holds st k p).
  Proof.
    intros PH Hi Lo [OTH (l & EL & K & G)] Hp. destruct (Z.eq_dec j i) as [->|Dj]; [|left; now apply OTH].
    destruct (HN o i Lo Hi) as (l' & EL' & IL). rewrite EL in EL'. injection EL' as <-. destruct (proj2 PH i Hi) as [q Hq].
    destruct (eqb_spec q bg) as [->|D]; [|left; apply K; auto; left; exists q; auto].
    destruct (existsb (fun k => negb (phase_at st k bg)) l) eqn:X.
    - apply existsb_exists in X as (k & Hk & X). destruct G as (r & Hr & Dr & P1 & _); auto.
      { exists k. split; auto. destruct (proj2 PH k (IL k Hk)) as [w Hw]. exists w. split; auto. intros ->. rewrite (holds_phase _ _ _ _ Hw), eqb_refl in X. discriminate. }
      right. assert (r = p) as -> by (eapply holds_fun; eauto). split; auto. split; auto. apply count_pos in P1 as (k' & Hk' & Hp'). exists l, k'. auto.
    - left. apply K; auto. right. intros k Hk. destruct (proj2 PH k (IL k Hk)) as [w Hw]. destruct (eqb_spec w bg) as [->|D]; auto. exfalso.
      assert (existsb (fun k => negb (phase_at st k bg)) l = true); [|congruence]. apply existsb_exists. exists k. split; auto. rewrite (holds_phase _ _ _ _ Hw), eqb_neq; auto.
  Qed.

  Lemma async_facts c0 init : phased ids init -> exists f : nat -> sstate, f 0%nat = init /\
    (forall t, phased ids (f t) /\ visited N bg (ords (S (c0 + 2 * t))) (f t) (site (c0 + 2 * t)) (f (S t))) /\
    (forall t i p, In i ids -> holds (f t) i p -> p = bg \/ exists j, In j ids /\ holds init j p) /\
    (forall t k i p, holds (f t) i p -> p <> bg -> holds (f (t + k)%nat) i p) /\
    (forall nbr, (forall o i l j, legal o -> In i ids -> neighbors_of o N i = Ok l -> (In j l <-> nbr i j)) ->
       forall t i, In i ids -> occupied bg (f t) i -> exists j, within nbr t i j /\ occupied bg init j) /\
    forall n, exists o, run_async ctl c0 init n = Ok o /\ rlen (o_result o) = Z.max 0 n + 1 /\ o_output o = f (Z.to_nat n) /\
      forall t, 0 <= t <= Z.max 0 n -> get_step (o_result o) t = Ok (f (Z.to_nat t)).
  Proof.
    intros PI. destruct (run_states c0 init PI) as (f & F0 & HF & R). exists f. split; auto. split; auto. split; [|split; [|split; [|exact R]]].
    - induction t as [|t IH]; intros i p Hi Hp; [rewrite F0 in Hp; right; exists i; auto|]. destruct (HF t) as [PH V].
      destruct (visited_new _ _ _ _ i p PH (site_In _) (LO _) V Hp) as [H|(-> & D & l & k & _ & _ & Hk & H)]; eauto.
    - intros t k i p Hp D. induction k as [|k IH]; [now rewrite Nat.add_0_r|]. rewrite Nat.add_succ_r. destruct (HF (t + k)%nat) as [PH V].
      eapply (visited_keep _ _ _ _ i p PH); eauto using site_In.
    - intros nbr HB. induction t as [|t IH]; intros i Hi (p & Hp & D); [rewrite F0 in Hp; exists i; split; [constructor|exists p; auto]|].
      destruct (HF t) as [PH V]. destruct (visited_new _ _ _ _ i p PH (site_In _) (LO _) V Hp) as [H|(-> & D' & l & k & EL & Hk & Ik & H)].
      + destruct (IH i Hi (ex_intro _ p (conj H D))) as (j & W & O). exists j. split; auto. clear -W. revert i j W. generalize t. induction 1; [constructor|econstructor; eauto].
      + destruct (IH k Ik (ex_intro _ p (conj H D))) as (j & W & O). exists j. split; auto. econstructor; [|exact W]. eapply HB; [apply LO|apply site_In|exact EL|exact Hk].
  Qed.
End AsyncGrow.

Lemma C80_lemma : forall F (N : nbhood F) bg ords rnd m c0 init n,
  (forall t, legal (ords t)) -> 0 < m -> has_neighbours (zrange 0 m) N -> phased (zrange 0 m) init ->
  exists o, run_async (growth_controller N bg ords rnd) c0 init n = Ok o /\ rlen (o_result o) = Z.max 0 n + 1 /\
   forall t, 0 <= t <= Z.max 0 n -> exists st, get_step (o_result o) t = Ok st /\ phased (zrange 0 m) st /\
     (forall i p, In i (zrange 0 m) -> holds st i p -> p = bg \/ exists j, In j (zrange 0 m) /\ holds init j p) /\
     (forall t' st' i p, t <= t' <= Z.max 0 n -> get_step (o_result o) t' = Ok st' -> holds st i p -> p <> bg -> holds st' i p) /\
     (forall nbr, (forall o i l j, legal o -> In i (zrange 0 m) -> neighbors_of o N i = Ok l -> (In j l <-> nbr i j)) ->
        forall i, In i (zrange 0 m) -> occupied bg st i -> exists j, within nbr (Z.to_nat t) i j /\ occupied bg init j) /\
     (t < Z.max 0 n -> exists st' i l, get_step (o_result o) (t + 1) = Ok st' /\ i = Z.of_nat (rnd (c0 + 2 * Z.to_nat t)%nat) mod m /\
        neighbors_of (ords (c0 + 2 * Z.to_nat t + 1)%nat) N i = Ok l /\
        (forall j p, j <> i -> (holds st' j p <-> holds st j p)) /\
        ((occupied bg st i \/ forall j, In j l -> holds st j bg) -> forall p, holds st' i p <-> holds st i p) /\
        (holds st i bg -> (exists j, In j l /\ occupied bg st j) ->
           exists q, holds st' i q /\ q <> bg /\ 0 < count_in st l q /\ forall r, r <> bg -> count_in st l r <= count_in st l q)).
Proof.
  intros F N bg ords rnd m c0 init n LO HM HN PI. destruct (async_facts N bg ords rnd m LO HM HN c0 init PI) as (f & F0 & HF & HI & HK & HW & R).
  destruct (R n) as (o & E & RL & _ & G). exists o. split; auto. split; auto. intros t Ht. exists (f (Z.to_nat t)). split; [now apply G|]. split; [apply HF|]. split; [apply HI|].
  split; [|split; [intros nbr HB; apply HW, HB|]].
  - intros t' st' i p Ht' E' Hp D. rewrite G in E' by lia. injection E' as <-. replace (Z.to_nat t') with (Z.to_nat t + (Z.to_nat t' - Z.to_nat t))%nat by lia. now apply HK.
  - intros Lt. destruct (HF (Z.to_nat t)) as (_ & OTH & l & EL & K & P). exists (f (S (Z.to_nat t))), (Z.of_nat (rnd (c0 + 2 * Z.to_nat t)%nat) mod m), l.
    split; [rewrite G by lia; do 2 f_equal; lia|]. split; [reflexivity|]. split; [rewrite <- EL; f_equal; f_equal; lia|]. auto.
Qed.

Lemma C81_lemma : forall F (N : nbhood F) bg ords rnd m c0 init nbr i j k,
  (forall t, legal (ords t)) -> 0 < m -> has_neighbours (zrange 0 m) N -> phased (zrange 0 m) init ->
  (forall o i l j, legal o -> In i (zrange 0 m) -> neighbors_of o N i = Ok l -> (In j l <-> nbr i j)) ->
  (forall a t, In a (zrange 0 m) -> exists t', (t <= t')%nat /\ Z.of_nat (rnd (c0 + 2 * t')%nat) mod m = a) ->
  In i (zrange 0 m) -> within nbr k i j -> occupied bg init j ->
  exists n0, forall n, n0 <= n -> exists o st, run_async (growth_controller N bg ords rnd) c0 init n = Ok o /\
    last_step (o_result o) = Ok st /\ occupied bg st i.
Proof.
  intros F N bg ords rnd m c0 init nbr i j k LO HM HN PI HB FAIR Hi W OJ. destruct (async_facts N bg ords rnd m LO HM HN c0 init PI) as (f & F0 & HF & HI & HK & HW & R).
  assert (X : exists T, forall d, occupied bg (f (T + d)%nat) i).
  { revert Hi. induction W as [k i|k i h j B W IH]; intros Hi.
    - exists 0%nat. intros d. destruct OJ as (p & Hp & D). exists p. split; auto. rewrite <- F0 in Hp. now apply HK.
    - assert (Ih : In h (zrange 0 m)). { destruct (HN (ords 0%nat) i (LO _) Hi) as (l & EL & IL). apply IL. eapply HB; eauto. }
      destruct (IH OJ Ih) as (T & HT). destruct (FAIR i T Hi) as (t' & Lt & Et). exists (S t'). intros d.
      assert (O1 : occupied bg (f (S t')) i).
      { destruct (HF t') as (PH & OTH & l & EL & K & P). rewrite Et in *. destruct (proj2 PH i Hi) as [p Hp]. destruct (eqb_spec p bg) as [->|D].
        - destruct P as (q & Hq & Dq & _); auto; [|exists q; auto]. exists h. split; [eapply HB; [apply LO|exact Hi|exact EL|exact B]|]. replace t' with (T + (t' - T))%nat by lia. apply HT.
        - exists p. split; auto. apply K; auto. left. exists p. auto. }
      destruct O1 as (p & Hp & D). exists p. split; [now apply HK|exact D]. }
  destruct X as (T & HT). exists (Z.of_nat T). intros n Ln. destruct (R n) as (o & E & RL & _ & G). exists o, (f (Z.to_nat n)). split; auto.
  split; [unfold last_step; rewrite RL, G by lia; do 2 f_equal; lia|]. replace (Z.to_nat n) with (T + (Z.to_nat n - T))%nat by lia. apply HT.
Qed.
