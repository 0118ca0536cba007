(** Life-like automata on any finite neighbourhood, and on grids of every size (C83). *)
From Coq Require Import Reals Permutation.
From Verif Require Import Prelude Dict Val ValFacts Arith RealArith LatticeModel StructModel StateModel ResultModel RunnerModel NbModel GridModel SimModel SetupModel RulesModel
  SpecState SpecResult SpecRunner SpecGeom SpecNb SpecGrid SpecSetup SpecRules StateFacts ResultFacts RunnerFacts SyncFacts ParFacts ParRun GenRun
  LatticeFacts StructFacts StructMore NbFacts NbMore GridFacts GridMore GridNb SetupFacts RulesFacts LifeFacts.
Local Open Scope Z_scope.

Definition graph_next (born survive : list Z) (nbs : Z -> list Z) (a : Z -> bool) (i : Z) : bool :=
  existsb (Z.eqb (Z.of_nat (length (filter a (nbs i))))) (if a i then survive else born).
Fixpoint graph_after (born survive : list Z) (nbs : Z -> list Z) (t : nat) (a : Z -> bool) : Z -> bool :=
  match t with O => a | S t => graph_next born survive nbs (graph_after born survive nbs t a) end.
Definition lives (ids : list Z) (st : sstate) (a : Z -> bool) : Prop := forall i, In i ids -> holds st i (if a i then "alive" else "dead").

Section Graph.
  Context {F : Type} (A : arith F) (s : structure F) (born survive : list Z) (ords : nat -> @nb_oracle F) (rnd : nat -> nat) (ids : list Z) (N : nbhood F) (nbs : Z -> list Z).
  Hypothesis LO : forall t, legal (ords t).
  Hypothesis NI : NoDup ids.
  Hypothesis NE : ids <> [].
  Hypothesis EP : forall c st, life_pre_run A s c st = Ok (Some N, snd c).
  Hypothesis HN : forall o i, legal o -> In i ids -> exists l, neighbors_of o N i = Ok l /\ Permutation l (nbs i).
  Hypothesis HI : forall i, In i ids -> incl (nbs i) ids.
  Let ctl := life_controller A s born survive ords rnd.
  Let Cok (c : option (nbhood F) * nat) : Prop := fst c = Some N.

  Lemma lives_phased st a : site_ids st = map KInt ids -> lives ids st a -> phased ids st.
  Proof. intros E H. split; auto. intros i Hi. eauto. Qed.
  Lemma lives_count st a l l' : lives ids st a -> incl l' ids -> Permutation l l' -> count_in st l "alive" = Z.of_nat (length (filter a l')).
  Proof.
    intros H I P. unfold count_in. rewrite (filter_len_perm _ _ _ P). clear P l.
    enough (E : filter (fun i => phase_at st i "alive") l' = filter a l') by now rewrite E. induction l' as [|j l IH]; cbn [filter]; auto.
    rewrite (holds_phase _ _ _ _ (H j ltac:(apply I; simpl; auto))). rewrite IH by (intros k Hk; apply I; simpl; auto). destruct (a j); reflexivity.
  Qed.
  Lemma graph_ans c id st : Cok c -> phased ids st -> In id (map KInt ids) -> exists u c', c_update ctl c id st = Ok (VDict u, c') /\ life_upd id u /\ Cok c'.
  Proof.
    intros EC PH Hid. apply in_map_iff in Hid as (i & <- & Hi). destruct (HN (ords (snd c)) i (LO _) Hi) as (l & El & P).
    destruct (proj2 PH i Hi) as [p Hp]. eexists. eexists. split; [apply (life_answer A s born survive ords rnd N c i st l p EC El)|]; auto.
    - intros j Hj. apply PH, (HI i Hi), (Permutation_in _ P), Hj.
    - split; [|reflexivity]. destruct (eqb p "alive"%string && _); [left; auto|]. destruct (eqb p "dead"%string && _); [left|right]; reflexivity.
  Qed.
  Lemma graph_one a st i u : lives ids st a -> In i ids -> ans_on ctl life_upd Cok st (KInt i) u ->
    u = [(KStr "DISCRETE_OCCUPANCY", VStr (if graph_next born survive nbs a i then "alive" else "dead"))].
  Proof.
    intros SH Hi (_ & c & c' & EC & E). destruct (HN (ords (snd c)) i (LO _) Hi) as (l & El & P). pose proof (SH i Hi) as Hp. unfold ctl in E.
    rewrite (life_answer A s born survive ords rnd N c i st l (if a i then "alive"%string else "dead"%string) EC El) in E; auto.
    2:{ intros j Hj. eexists. apply SH, (HI i Hi), (Permutation_in _ P), Hj. }
    injection E as <- _. rewrite (lives_count st a l (nbs i) SH (HI i Hi) P). unfold graph_next. destruct (a i).
    - change (eqb "alive" "alive")%string with true. change (eqb "alive" "dead")%string with false. cbn [andb]. destruct (existsb _ survive); reflexivity.
    - change (eqb "dead" "alive")%string with false. change (eqb "dead" "dead")%string with true. cbn [andb]. destruct (existsb _ born); reflexivity.
  Qed.
  Lemma graph_views init U n a : lives ids init a ->
    (forall t, (t < n)%nat -> NoDup (dkeys (U t)) /\ Permutation (dkeys (U t)) (map KInt ids) /\
      forall id u, In (id, u) (U t) -> exists v, view U init t v /\ phased ids v /\ ans_on ctl life_upd Cok v id u) ->
    forall t, (t <= n)%nat -> forall v, view U init t v -> lives ids v (graph_after born survive nbs t a).
  Proof.
    intros SH HU. induction t as [|t IH]; intros Lt v V.
    - inversion V; subst. exact SH.
    - assert (X : exists w, v = set_sites_t w (U t)) by (inversion V; subst; eauto). destruct X as [w ->]. destruct (HU t ltac:(lia)) as (HA & B & D).
      intros i Hi. cbn [graph_after].
      assert (Hk : In (KInt i) (dkeys (U t))) by (eapply Permutation_in; [apply Permutation_sym, B|now apply in_map]).
      apply dget_key_Some in Hk as [u Eu]. destruct (D _ _ (dget_In _ _ _ Eu)) as (v' & Vv & Pv & AN).
      rewrite (graph_one (graph_after born survive nbs t a) v' i u (IH ltac:(lia) v' Vv) Hi AN) in Eu.
      unfold holds, site_entry. rewrite get_set_sites_t by exact HA. rewrite Eu. change (dmerge ?d [(?k, ?v)]) with (dset k v d). rewrite dget_dset_same.
      now destruct (graph_next born survive nbs (graph_after born survive nbs t a) i).
  Qed.

  Lemma life_graph init a n : site_ids init = map KInt ids -> lives ids init a ->
    (exists o, run_sync ctl (None, 0%nat) init n = Ok o /\ rlen (o_result o) = Z.max 0 n + 1 /\
       forall t, 0 <= t <= Z.max 0 n -> exists st, get_step (o_result o) t = Ok st /\ site_ids st = site_ids init /\
         lives ids st (graph_after born survive nbs (Z.to_nat t) a)) /\
    (forall p sched, 1 <= p -> exists o, run_parallel ctl p sched (None, 0%nat) init n = Ok o /\ rlen (o_result o) = Z.max 0 n + 1 /\
       forall t, 0 <= t <= Z.max 0 n -> exists st, get_step (o_result o) t = Ok st /\ site_ids st = site_ids init /\
         lives ids st (graph_after born survive nbs (Z.to_nat t) a)).
  Proof.
    intros EI SH. pose proof (lives_phased init a EI SH) as PH.
    assert (NE' : map KInt ids <> []) by (destruct ids; [congruence|discriminate]).
    assert (STEP : forall st U, phased ids st -> NoDup (dkeys U) -> Permutation (dkeys U) (map KInt ids) -> (forall id u, In (id, u) U -> life_upd id u) -> phased ids (set_sites_t st U)).
    { intros st U H1 H2 H3 H4. apply step_phased; auto. intros id u H. eapply life_grow, H4; eauto. }
    assert (SHW : forall U m, (forall t, (t < m)%nat -> NoDup (dkeys (U t)) /\ Permutation (dkeys (U t)) (map KInt ids) /\
        forall id u, In (id, u) (U t) -> exists v, view U init t v /\ phased ids v /\ ans_on ctl life_upd Cok v id u) ->
        forall t, (t <= m)%nat -> site_ids (after U init t) = site_ids init /\ lives ids (after U init t) (graph_after born survive nbs t a)).
    { intros U m HU t Lt. split.
      - rewrite EI. assert (phased ids (after U init t)) as [X _]; auto. clear -HU Lt PH STEP. induction t as [|t IH]; auto. rewrite after_S. destruct (HU t ltac:(lia)) as (HA & B & D).
        apply STEP; auto; [apply IH; lia|]. intros id u H. destruct (D id u H) as (v & _ & _ & W & _). exact W.
      - eapply graph_views; eauto using after_view. }
    split.
    - destruct (own_sync ctl (map KInt ids) (phased ids) life_upd Cok (nodup_keys _ NI) NE') with (c0 := (@None (nbhood F), 0%nat)) (c1 := (Some N, 0%nat)) (init := init) (n := n) as (U & o & H1 & B & _ & E & HU); auto.
      { intros st H. apply H. } { intros c id st H1 H2 H3. now apply graph_ans. } { intros id u H. eapply grow_own, life_grow; eauto. } { apply EP. } { reflexivity. }
      exists o. split; auto. split; auto. intros t Ht. exists (after U init (Z.to_nat t)). split; [rewrite <- (E (Z.to_nat t)) by lia; f_equal; lia|].
      apply (SHW U (Z.to_nat n)); [|lia]. intros k Hk. destruct (HU k Hk) as (K1 & K2 & K3). rewrite K1. split; [now apply nodup_keys|]. split; [apply Permutation_refl|].
      intros id u H. exists (after U init k). split; [apply after_view|]. auto.
    - intros p sched P1. destruct (own_par ctl (map KInt ids) (phased ids) life_upd Cok (nodup_keys _ NI) NE') with (p := p) (sched := sched) (c0 := (@None (nbhood F), 0%nat)) (c1 := (Some N, 0%nat)) (init := init) (n := n)
        as (U & o & H1 & B & E & HU); auto.
      { intros st H. apply H. } { intros c id st H1 H2 H3. now apply graph_ans. } { intros id u H. eapply grow_own, life_grow; eauto. } { apply EP. } { reflexivity. }
      exists o. split; auto. split; auto. intros t Ht. exists (after U init (Z.to_nat t)). split; [rewrite <- (E (Z.to_nat t)) by lia; f_equal; lia|].
      apply (SHW U (Z.to_nat n)); [exact HU|lia].
  Qed.

  (** Successive states. *)
  Lemma lives_step st st' a i p l : lives ids st a -> lives ids st' (graph_next born survive nbs a) -> In i ids -> Permutation l (nbs i) -> holds st i p ->
    holds st' i (if existsb (Z.eqb (count_in st l "alive")) (if eqb p "alive"%string then survive else born) then "alive" else "dead").
  Proof.
    intros H H' Hi P Hp. rewrite (lives_count st a l (nbs i) H (HI i Hi) P). pose proof (H' i Hi) as X. unfold graph_next in X.
    rewrite (holds_fun _ _ _ _ Hp (H i Hi)). destruct (a i); exact X.
  Qed.
End Graph.

Lemma C83_lemma : forall size s variant ords rnd ctl born survive init n,
  square_grid size s -> length size = 2%nat -> (forall t, legal (ords t)) ->
  process_variant_string variant = Ok (born, survive) -> life_init RA s ords rnd variant = Ok ctl ->
  Permutation (site_ids init) (map (fun x => KInt (s_id x)) (sites s None)) ->
  (forall i x, get_site s i = Some x -> holds init i "alive" \/ holds init i "dead") ->
  (exists o, run_sync ctl (None, 0%nat) init n = Ok o /\ rlen (o_result o) = Z.max 0 n + 1 /\ get_step (o_result o) 0 = Ok init /\
     forall t, 0 <= t < Z.max 0 n -> exists st st', get_step (o_result o) t = Ok st /\ get_step (o_result o) (t + 1) = Ok st' /\
       forall x y i l, cell s [x; y] i -> NoDup l ->
         (forall j, In j l <-> j <> i /\ exists dx dy, Z.abs dx <= 1 /\ Z.abs dy <= 1 /\ cell s [x + dx; y + dy] j) ->
         exists p, holds st i p /\ (p = "alive" \/ p = "dead")%string /\
           holds st' i (if existsb (Z.eqb (count_in st l "alive")) (if eqb p "alive"%string then survive else born) then "alive" else "dead")) /\
  (forall p sched, 1 <= p -> exists o o', run_parallel ctl p sched (None, 0%nat) init n = Ok o /\ run_sync ctl (None, 0%nat) init n = Ok o' /\ rlen (o_result o) = Z.max 0 n + 1 /\
     forall t, 0 <= t <= Z.max 0 n -> exists st st', get_step (o_result o) t = Ok st /\ get_step (o_result o') t = Ok st' /\ forall i q, get_site s i <> None -> (holds st i q <-> holds st' i q)).
Proof.
  intros size s variant ords rnd ctl born survive init n SG L2 LO EV EI PI HV. unfold life_init in EI. rewrite EV in EI. cbn [bind] in EI. injection EI as <-.
  destruct (square_facts _ _ SG) as [L G]. rewrite <- map_map in PI. apply map_KInt_inv in PI as (ids & EI & PI).
  assert (NI : NoDup ids) by (apply (Permutation_NoDup (Permutation_sym PI)), dense_NoDup, (built_dense RA L s (gf_built _ _ _ G))).
  assert (NE : ids <> []).
  { pose proof (gf_count _ _ _ G) as C. pose proof (prod_pos _ (gf_pos _ _ _ G)). intros E. rewrite E in PI. apply Permutation_nil, map_eq_nil in PI. rewrite PI in C. simpl in C. lia. }
  destruct (life_nb size s SG L2) as (N & T & EP).
  assert (IDS : forall i, In i ids <-> exists x, get_site s i = Some x).
  { intros i. rewrite <- (get_site_ids RA L s i (gf_built _ _ _ G)). split; apply Permutation_in; [exact PI|apply Permutation_sym, PI]. }
  pose (nbs := fun i => match neighbors_of (ords 0%nat) N i with Ok l => l | Err _ => [] end).
  assert (NB : forall o i, legal o -> In i ids -> exists l, neighbors_of o N i = Ok l /\ Permutation l (nbs i)).
  { intros o i Lo Hi. destruct (ids_cell size s L ids G L2 PI i Hi) as (x & y & C). destruct (T [x; y] i ltac:(now rewrite L2) C o Lo) as (l & El & ND & IN).
    destruct (T [x; y] i ltac:(now rewrite L2) C (ords 0%nat) (LO _)) as (l0 & El0 & ND0 & IN0). exists l. split; auto. unfold nbs. rewrite El0.
    apply NoDup_Permutation; auto. intros j. rewrite IN, IN0. tauto. }
  assert (NIN : forall x y i, cell s [x; y] i -> NoDup (nbs i) /\ forall j, In j (nbs i) <-> j <> i /\ exists dx dy, Z.abs dx <= 1 /\ Z.abs dy <= 1 /\ cell s [x + dx; y + dy] j).
  { intros x y i C. destruct (T [x; y] i ltac:(now rewrite L2) C (ords 0%nat) (LO _)) as (l0 & El0 & ND0 & IN0). unfold nbs. rewrite El0. split; auto. intros j. rewrite IN0. split.
    - intros (D & d & Ld & W & Cj). split; auto. rewrite L2 in Ld. destruct d as [|d1 [|d2 [|]]]; try discriminate. exists d1, d2. pose proof (Forall_inv W). pose proof (Forall_inv (Forall_inv_tail W)). cbn in *. auto.
    - intros (D & dx & dy & A1 & A2 & Cj). split; auto. exists [dx; dy]. split; [now rewrite L2|]. split; [repeat constructor; auto|exact Cj]. }
  assert (HI : forall i, In i ids -> incl (nbs i) ids).
  { intros i Hi j Hj. destruct (ids_cell size s L ids G L2 PI i Hi) as (x & y & C). destruct (NIN x y i C) as [_ IN]. apply IN in Hj. destruct Hj as (_ & dx & dy & _ & _ & Cj).
    exact (cell_ids size s L ids G L2 PI [x + dx; y + dy] j eq_refl Cj). }
  pose (a := fun i => phase_at init i "alive").
  assert (LV : lives ids init a).
  { intros i Hi. apply IDS in Hi as [x Gx]. unfold a. destruct (HV i x Gx) as [H|H]; rewrite (holds_phase _ _ _ _ H); exact H. }
  destruct (life_graph RA s born survive ords rnd ids N nbs LO NI NE EP NB HI init a n EI LV) as [(o & E & RL & HS) PAR]. split.
  - exists o. split; auto. split; auto. split.
    + destruct (HS 0 ltac:(lia)) as (st & E0 & _). rewrite E0. f_equal. unfold run_sync in E. apply bind_Ok in E as (c1 & _ & E). apply bind_Ok in E as ([[live ds] c2] & _ & E). injection E as <-.
      cbn [o_result] in E0. change 0 with (Z.of_nat 0) in E0. rewrite get_step_fresh, replay_0 in E0 by lia. congruence.
    + intros t Ht. destruct (HS t ltac:(lia)) as (st & E1 & _ & L1). destruct (HS (t + 1) ltac:(lia)) as (st' & E2 & _ & L2'). exists st, st'. split; auto. split; auto.
      intros x y i l C ND IN. pose proof (cell_ids size s L ids G L2 PI [x; y] i eq_refl C) as Hi. eexists. split; [exact (L1 i Hi)|]. split; [destruct (graph_after _ _ _ _ _ i); auto|].
      replace (Z.to_nat (t + 1)) with (S (Z.to_nat t)) in L2' by lia. cbn [graph_after] in L2'.
      eapply (lives_step born survive ids nbs HI); [exact L1|exact L2'|exact Hi| |exact (L1 i Hi)].
      destruct (NIN x y i C) as [ND0 IN0]. apply NoDup_Permutation; auto. intros j. rewrite IN, IN0. tauto.
  - intros p sched Hp. destruct (PAR p sched Hp) as (op & Ep & RLp & HP). exists op, o. split; auto. split; auto. split; auto. intros t Ht.
    destruct (HP t Ht) as (st & E1 & _ & L1). destruct (HS t Ht) as (st' & E2 & _ & L2'). exists st, st'. split; auto. split; auto. intros i q Hi.
    assert (In i ids) as Hi' by (apply IDS; destruct (get_site s i); [eauto|congruence]). split; intros H.
    + rewrite (holds_fun _ _ _ _ H (L1 i Hi')). auto.
    + rewrite (holds_fun _ _ _ _ H (L2' i Hi')). auto.
Qed.

(** On two cells by two the block survives; in the periodic plane it dies of overcrowding. *)
Lemma C83_refuted_lemma : exists size s init g, square_grid size s /\ length size = 2%nat /\
  Permutation (site_ids init) (map (fun x => KInt (s_id x)) (sites s None)) /\ shows s init g /\
  forall ords rnd, (forall t, legal (ords t)) -> exists ctl o st, life_init RA s ords rnd Life = Ok ctl /\ run_sync ctl (None, 0%nat) init 1 = Ok o /\
    get_step (o_result o) 1 = Ok st /\ ~ shows s st (life_after [3] [2; 3] 1 g).
Proof.
  destruct (C67_exists_lemma [2; 2]) as [s SG]; [repeat constructor; lia|auto|]. destruct (square_facts _ _ SG) as [L G].
  pose proof (C47_solid_lemma R RA L s "alive"%string (gf_built _ _ _ G)) as (SI & _ & CF).
  assert (CL : forall p i, length p = 2%nat -> cell s p i -> i = cid [2; 2] p).
  { intros p i Lp C. pose proof (gf_cell _ _ _ G p Lp) as C'. unfold cell in C, C'. rewrite C in C'. now injection C' as ->. }
  assert (GS : forall x y i, cell s [x; y] i -> exists z, get_site s i = Some z).
  { intros x y i C. pose proof (cell_ids [2; 2] s L (map s_id (sites s None)) G eq_refl (Permutation_refl _) [x; y] i eq_refl C) as Hi. now apply (get_site_ids RA L s i (gf_built _ _ _ G)). }
  assert (AL : forall i z, get_site s i = Some z -> holds (setup_solid_phase s "alive") i "alive").
  { intros i z Gz. destruct (CF i z Gz) as (p & E & ->). unfold holds, site_entry. rewrite E. reflexivity. }
  exists [2; 2], s, (setup_solid_phase s "alive"%string), (fun _ _ => true). split; auto. split; auto. split; [rewrite SI; apply Permutation_refl|]. split.
  { intros x y i C. destruct (GS x y i C) as [z Gz]. eauto. }
  intros ords rnd LO. unfold life_init. change (process_variant_string Life) with (@Ok (list Z * list Z) ([3], [2; 3])). cbn [bind]. eexists.
  destruct (C83_lemma [2; 2] s Life ords rnd _ [3] [2; 3] (setup_solid_phase s "alive") 1 SG eq_refl LO eq_refl eq_refl) as [(o & E & RL & E0 & HS) _].
  { rewrite SI. apply Permutation_refl. } { intros i x Gx. left. eauto. }
  destruct (HS 0 ltac:(lia)) as (st & st' & E1 & E2 & H). change (0 + 1) with 1 in *. rewrite E0 in E1. injection E1 as <-.
  pose proof (gf_cell _ _ _ G [0; 0] eq_refl) as C0. fold (cid [2; 2] [0; 0]) in C0. change (cid [2; 2] [0; 0]) with 0 in C0.
  assert (CC : forall x y, cell s [x; y] (cid [2; 2] [x; y])) by (intros x y; apply (gf_cell _ _ _ G); reflexivity).
  destruct (H 0 0 0 [1; 2; 3] C0) as (p & Hp & _ & Hq).
  { repeat constructor; simpl; intuition congruence. }
  { intros j. split.
    - intros [<-|[<-|[<-|[]]]]; (split; [lia|]); [exists 1, 0|exists 0, 1|exists 1, 1]; (split; [lia|split; [lia|]]); apply CC.
    - intros (D & dx & dy & A1 & A2 & C). apply CL in C; [|reflexivity]. assert (B1 : dx = -1 \/ dx = 0 \/ dx = 1) by lia. assert (B2 : dy = -1 \/ dy = 0 \/ dy = 1) by lia.
      destruct B1 as [->|[->| ->]], B2 as [->|[->| ->]]; vm_compute in C; subst j; simpl; auto; congruence. }
  assert (A0 : forall x y, holds (setup_solid_phase s "alive") (cid [2; 2] [x; y]) "alive").
  { intros x y. destruct (GS x y _ (CC x y)) as [z Gz]. eauto. }
  pose proof (A0 0 0) as H0. pose proof (A0 1 0) as H1. pose proof (A0 0 1) as H2. pose proof (A0 1 1) as H3.
  change (cid [2; 2] [0; 0]) with 0 in H0. change (cid [2; 2] [1; 0]) with 1 in H1. change (cid [2; 2] [0; 1]) with 2 in H2. change (cid [2; 2] [1; 1]) with 3 in H3.
  rewrite (holds_fun _ _ _ _ Hp H0) in Hq. unfold count_in in Hq. cbn [filter] in Hq. rewrite (holds_phase _ _ _ _ H1), (holds_phase _ _ _ _ H2), (holds_phase _ _ _ _ H3) in Hq.
  change (holds st' 0 "alive") in Hq.
  exists o, st'. split; [reflexivity|]. split; auto. split; auto. intros SH. pose proof (SH 0 0 0 C0) as X. change (holds st' 0 "dead") in X.
  pose proof (holds_fun _ _ _ _ Hq X). discriminate.
Qed.
