(** Asynchronous runs of life-like automata (C110). *)
From Coq Require Import Reals Permutation.
From Verif Require Import Prelude Dict Val ValFacts Arith RealArith LatticeModel StructModel StateModel ResultModel RunnerModel NbModel GridModel SimModel SetupModel RulesModel
  SpecState SpecResult SpecRunner SpecGeom SpecNb SpecGrid SpecSetup SpecRules StateFacts ResultFacts RunnerFacts RunnerMore SyncFacts ParFacts ParRun GenRun
  LatticeFacts StructFacts StructMore NbFacts NbMore GridFacts GridMore GridNb SetupFacts RulesFacts LifeFacts LifeGen.
Local Open Scope Z_scope.

Section AsyncLife.
  Context {F : Type} (A : arith F) (s : structure F) (born survive : list Z) (ords : nat -> @nb_oracle F) (rnd : nat -> nat) (ids : list Z) (m : Z) (N : nbhood F) (nbs : Z -> list Z).
  Hypothesis LO : forall t, legal (ords t).
  Hypothesis HM : 0 < m.
  Hypothesis PI : Permutation ids (zrange 0 m).
  Hypothesis EP : forall c st, life_pre_run A s c st = Ok (Some N, snd c).
  Hypothesis HN : forall o i, legal o -> In i ids -> exists l, neighbors_of o N i = Ok l /\ Permutation l (nbs i).
  Hypothesis HI : forall i, In i ids -> incl (nbs i) ids.
  Let ctl := life_controller A s born survive ords rnd.
  Let site (c : nat) : Z := Z.of_nat (rnd c) mod m.
  Context (init : sstate) (a : Z -> bool).
  Hypothesis EI : site_ids init = map KInt ids.
  Hypothesis LI : lives ids init a.

  (** The patterns and the states of the run. *)
  Fixpoint pat (t : nat) : Z -> bool :=
    match t with O => a | S t => fun j => if j =? site (2 * t) then graph_next born survive nbs (pat t) j else pat t j end.
  Definition upd (t : nat) : pdict :=
    [(KStr "DISCRETE_OCCUPANCY", VStr (if graph_next born survive nbs (pat t) (site (2 * t)) then "alive" else "dead"))].
  Definition dif (t : nat) : val := full_update (vsites [(KInt (site (2 * t)), upd t)]) [].
  Fixpoint sts (t : nat) : sstate :=
    match t with O => init | S t => set_general_state (set_sites_t (sts t) [(KInt (site (2 * t)), upd t)]) [] end.

  Lemma drawn_In c : In (site c) ids.
  Proof. apply (Permutation_in _ (Permutation_sym PI)), zrange_In, Z.mod_pos_bound, HM. Qed.

  Lemma sts_shape t : site_ids (sts t) = map KInt ids /\ lives ids (sts t) (pat t) /\ (forall j q, j <> site (2 * t) -> (holds (sts (S t)) j q <-> holds (sts t) j q)).
  Proof.
    assert (OTH : forall t j q, j <> site (2 * t) -> (holds (sts (S t)) j q <-> holds (sts t) j q)).
    { clear t. intros t j q D. cbn [sts]. unfold holds, site_entry. rewrite get_site_set_general, get_set_sites_t_notin; [tauto|]. cbn [dkeys map fst In]. intros [X|[]]. apply D. now injection X. }
    enough (X : site_ids (sts t) = map KInt ids /\ lives ids (sts t) (pat t)) by (split; [|split]; [apply X|apply X|apply OTH]).
    induction t as [|t [IH1 IH2]]; [now split|]. split.
    - cbn [sts]. change (site_ids (set_general_state ?x [])) with (site_ids x). rewrite site_ids_set_sites_sub; auto. intros k [<-|[]]. rewrite IH1. exact (in_map KInt _ _ (drawn_In _)).
    - intros j Hj. cbn [pat]. destruct (Z.eqb_spec j (site (2 * t))) as [->|D].
      + cbn [sts]. unfold holds, site_entry. rewrite get_site_set_general, get_set_sites_t by (repeat constructor; simpl; tauto). cbn [dget]. rewrite eqb_refl. unfold upd.
        change (dmerge ?d [(?k, ?v)]) with (dset k v d). rewrite dget_dset_same. now destruct (graph_next born survive nbs (pat t) (site (2 * t))).
      + apply OTH; auto.
  Qed.

  Lemma asks c st : site_ids st = map KInt ids -> add_sites ctl st [] (Some N, c) = Ok ([KInt (site c)], (Some N, S c)).
  Proof.
    intros E. apply add_sites_offers. exists (VInt (site c)). split; [|constructor].
    cbn [c_random_site ctl life_controller]. unfold basic_random_site. cbn [snd fst].
    assert (E' : size st = m) by (unfold size; rewrite E, map_length, (Permutation_length PI), zrange_length; lia).
    rewrite E'. replace (m <=? 0) with false by lia. reflexivity.
  Qed.

  Lemma async_one t ds : async_step ctl (mkA (sts t) ds [KInt (site (2 * t))] (Some N, S (2 * t))) =
    Ok (mkA (sts (S t)) (ds ++ [dif t]) [KInt (site (2 * S t))] (Some N, S (2 * S t))) /\ batch_update (sts t) (dif t) = Ok (sts (S t)).
  Proof.
    destruct (sts_shape t) as (E1 & E2 & _). destruct (sts_shape (S t)) as (E3 & _).
    pose proof (drawn_In (2 * t)) as Hi. destruct (HN (ords (S (2 * t))) _ (LO _) Hi) as (l & El & P).
    assert (U : c_update ctl (Some N, S (2 * t)) (KInt (site (2 * t))) (sts t) = Ok (VDict (upd t), (Some N, S (S (2 * t))))).
    { unfold ctl. rewrite (life_answer A s born survive ords rnd N (Some N, S (2 * t)) _ (sts t) l (if pat t (site (2 * t)) then "alive"%string else "dead"%string) eq_refl El); auto.
      2:{ intros j Hj. eexists. apply E2, (HI _ Hi), (Permutation_in _ P), Hj. }
      rewrite (lives_count ids (sts t) (pat t) l (nbs (site (2 * t))) E2 (HI _ Hi) P). unfold upd, graph_next. destruct (pat t (site (2 * t))).
      - change (eqb "alive" "alive")%string with true. change (eqb "alive" "dead")%string with false. cbn [andb snd]. destruct (existsb _ survive); reflexivity.
      - change (eqb "dead" "alive")%string with false. change (eqb "dead" "dead")%string with true. cbn [andb snd]. destruct (existsb _ born); reflexivity. }
    assert (B : batch_update (sts t) (dif t) = Ok (sts (S t))) by (unfold dif; rewrite batch_full_update, set_sites_vsites; reflexivity). split; [|exact B].
    unfold async_step. cbn [a_queue a_ctl a_live]. rewrite U. cbn [bind split_response].
    assert (GU : grow_upd (KInt (site (2 * t))) (upd t)) by (right; eexists; reflexivity).
    pose proof (merge_means_dict (upd t) _ _ None (KInt (site (2 * t))) (grow_own _ _ GU)) as Em. cbn [canon csites cgen] in Em.
    change (dmerge [] [(KInt (site (2 * t)), VDict (upd t))]) with (vsites [(KInt (site (2 * t)), upd t)]) in Em. change (dmerge [] []) with (@nil (key * val)) in Em.
    rewrite Em. cbn [bind]. fold (dif t). rewrite B. cbn [bind extend_arg mapM app a_diffs]. rewrite (asks _ _ E3). cbn [bind].
    replace (2 * S t)%nat with (S (S (2 * t))) by lia. reflexivity.
  Qed.

  Lemma async_life n : exists o, run_async ctl (None, 0%nat) init n = Ok o /\ rlen (o_result o) = Z.max 0 n + 1 /\
    forall t, 0 <= t <= Z.max 0 n -> get_step (o_result o) t = Ok (sts (Z.to_nat t)).
  Proof.
    assert (LOOP : forall k t l, async_loop ctl k (mkA (sts t) l [KInt (site (2 * t))] (Some N, S (2 * t))) =
      Ok (mkA (sts (t + k)%nat) (l ++ map dif (seq t k)) [KInt (site (2 * (t + k)))] (Some N, S (2 * (t + k))))).
    { induction k as [|k IH]; intros t l; cbn [async_loop]; [rewrite Nat.add_0_r; cbn [seq map]; now rewrite app_nil_r|].
      rewrite (proj1 (async_one t l)). cbn [bind a_queue]. rewrite IH. replace (S t + k)%nat with (t + S k)%nat by lia. cbn [seq map]. now rewrite <- app_assoc. }
    unfold run_async. change (c_pre_run ctl (None, 0%nat) init) with (life_pre_run A s (None, 0%nat) init). rewrite EP. cbn [bind snd]. rewrite (asks 0%nat init EI). cbn [bind].
    pose proof (LOOP (Z.to_nat n) 0%nat []) as E. cbn [sts] in E. change (2 * 0)%nat with 0%nat in E. rewrite E. cbn [bind Nat.add app].
    eexists. split; [reflexivity|]. cbn [o_result a_diffs]. split; [unfold rlen; cbn [r_diffs]; rewrite map_length, seq_length; lia|].
    intros t Ht. assert (Et : t = Z.of_nat (Z.to_nat t)) by lia. rewrite Et at 1. rewrite get_step_fresh by (rewrite map_length, seq_length; lia).
    assert (K : forall k, (k <= Z.to_nat n)%nat -> replay init (map dif (seq 0 (Z.to_nat n))) k = Ok (sts k)).
    { induction k as [|k IH]; intros L; [now rewrite replay_0|]. rewrite (replay_S _ _ _ (dif k)).
      - rewrite IH by lia. cbn [bind]. apply (async_one k []).
      - rewrite nth_error_map. rewrite (nth_error_nth' _ 0%nat) by (rewrite seq_length; lia). rewrite seq_nth by lia. reflexivity. }
    apply K. lia.
  Qed.
End AsyncLife.

Lemma C110_lemma : forall size s variant ords rnd ctl born survive init n,
  square_grid size s -> length size = 2%nat -> (forall t, legal (ords t)) ->
  process_variant_string variant = Ok (born, survive) -> life_init RA s ords rnd variant = Ok ctl ->
  Permutation (site_ids init) (map (fun x => KInt (s_id x)) (sites s None)) ->
  (forall i x, get_site s i = Some x -> holds init i "alive" \/ holds init i "dead") ->
  exists o, run_async ctl (None, 0%nat) init n = Ok o /\ rlen (o_result o) = Z.max 0 n + 1 /\ get_step (o_result o) 0 = Ok init /\
    forall t, 0 <= t < Z.max 0 n -> exists st st', get_step (o_result o) t = Ok st /\ get_step (o_result o) (t + 1) = Ok st' /\
      (forall i x, get_site s i = Some x -> holds st i "alive" \/ holds st i "dead") /\
      let drawn := Z.of_nat (rnd (2 * Z.to_nat t)%nat) mod Z.of_nat (length (sites s None)) in
      (forall j q, j <> drawn -> (holds st' j q <-> holds st j q)) /\
      (exists x y, cell s [x; y] drawn) /\
      forall x y l, cell s [x; y] drawn -> NoDup l ->
        (forall j, In j l <-> j <> drawn /\ exists dx dy, Z.abs dx <= 1 /\ Z.abs dy <= 1 /\ cell s [x + dx; y + dy] j) ->
        exists p, holds st drawn p /\ holds st' drawn (if existsb (Z.eqb (count_in st l "alive")) (if eqb p "alive"%string then survive else born) then "alive" else "dead").
Proof.
  intros size s variant ords rnd ctl born survive init n SG L2 LO EV EI PI HV. unfold life_init in EI. rewrite EV in EI. cbn [bind] in EI. injection EI as <-.
  destruct (square_facts _ _ SG) as [L G]. rewrite <- map_map in PI. apply map_KInt_inv in PI as (ids & EI & PI).
  destruct (life_nb size s SG L2) as (N & T & EP).
  assert (IDS : forall i, In i ids <-> exists x, get_site s i = Some x).
  { intros i. rewrite <- (get_site_ids RA L s i (gf_built _ _ _ G)). split; apply Permutation_in; [exact PI|apply Permutation_sym, PI]. }
  pose (nbs := fun i => match neighbors_of (ords 0%nat) N i with Ok l => l | Err _ => [] end).
  assert (NB : forall o i, legal o -> In i ids -> exists l, neighbors_of o N i = Ok l /\ Permutation l (nbs i)).
  { intros o i Lo Hi. destruct (ids_cell size s L ids G L2 PI i Hi) as (x & y & C). destruct (T [x; y] i ltac:(now rewrite L2) C o Lo) as (l & El & ND & IN).
    destruct (T [x; y] i ltac:(now rewrite L2) C (ords 0%nat) (LO _)) as (l0 & El0 & ND0 & IN0). exists l. split; auto. unfold nbs. rewrite El0.
    apply NoDup_Permutation; auto. intros j. rewrite IN, IN0. tauto. }
  assert (NIN : forall x y i, cell s [x; y] i -> NoDup (nbs i) /\ forall j, In j (nbs i) <-> j <> i /\ exists dx dy, Z.abs dx <= 1 /\ Z.abs dy <= 1 /\ cell s [x + dx; y + dy] j).
  { intros x y i C. destruct (T [x; y] i ltac:(now rewrite L2) C (ords 0%nat) (LO _)) as (l0 & El0 & ND0 & IN0). unfold nbs. rewrite El0. split; auto. intros j. rewrite IN0. split.
    - intros (D & d & Ld & W & Cj). split; auto. rewrite L2 in Ld. destruct d as [|d1 [|d2 [|]]]; try discriminate. exists d1, d2. pose proof (Forall_inv W). pose proof (Forall_inv (Forall_inv_tail W)). cbn in *. auto.
    - intros (D & dx & dy & A1 & A2 & Cj). split; auto. exists [dx; dy]. split; [now rewrite L2|]. split; [repeat constructor; auto|exact Cj]. }
  assert (HI : forall i, In i ids -> incl (nbs i) ids).
  { intros i Hi j Hj. destruct (ids_cell size s L ids G L2 PI i Hi) as (x & y & C). destruct (NIN x y i C) as [_ IN]. apply IN in Hj. destruct Hj as (_ & dx & dy & _ & _ & Cj).
    exact (cell_ids size s L ids G L2 PI [x + dx; y + dy] j eq_refl Cj). }
  pose (a := fun i => phase_at init i "alive").
  assert (LV : lives ids init a).
  { intros i Hi. apply IDS in Hi as [x Gx]. unfold a. destruct (HV i x Gx) as [H|H]; rewrite (holds_phase _ _ _ _ H); exact H. }
  set (m := Z.of_nat (length (sites s None))).
  assert (HM : 0 < m).
  { pose proof (gf_count _ _ _ G) as C. pose proof (prod_pos _ (gf_pos _ _ _ G)). unfold m. lia. }
  assert (PZ : Permutation ids (zrange 0 m)).
  { pose proof (built_dense RA L s (gf_built _ _ _ G)) as D. unfold dense in D. rewrite D in PI. exact PI. }
  destruct (async_life RA s born survive ords rnd ids m N nbs LO HM PZ EP NB HI init a EI LV n) as (o & E & RL & GS).
  exists o. split; [exact E|]. split; [exact RL|]. split; [exact (GS 0 ltac:(lia))|]. intros t Ht.
  set (stt := sts born survive rnd m nbs init a) in *. exists (stt (Z.to_nat t)), (stt (S (Z.to_nat t))). split; [apply GS; lia|]. split; [rewrite GS by lia; do 2 f_equal; lia|].
  destruct (sts_shape born survive rnd ids m nbs HM PZ init a EI LV (Z.to_nat t)) as (_ & L1 & OTH). destruct (sts_shape born survive rnd ids m nbs HM PZ init a EI LV (S (Z.to_nat t))) as (_ & L1' & _).
  split; [intros i x Gx; assert (Hi : In i ids) by (apply IDS; eauto); pose proof (L1 i Hi) as H; fold stt in H; destruct (pat _ _ _ _ _ _ _ _); auto|].
  cbn zeta. set (d := Z.of_nat (rnd (2 * Z.to_nat t)%nat) mod m) in *. split; [exact OTH|].
  pose proof (drawn_In rnd ids m HM PZ (2 * Z.to_nat t)) as Hd. fold d in Hd. split; [exact (ids_cell size s L ids G L2 PI d Hd)|].
  intros x y l C ND IN. eexists. split; [exact (L1 d Hd)|].
  pose proof (L1' d Hd) as X. cbn [pat] in X. fold d in X. rewrite Z.eqb_refl in X. unfold graph_next in X.
  assert (P : Permutation l (nbs d)) by (destruct (NIN x y d C) as [ND0 IN0]; apply NoDup_Permutation; auto; intros j; rewrite IN, IN0; tauto).
  unfold stt. rewrite (lives_count ids _ _ l (nbs d) L1 (HI d Hd) P). destruct (pat born survive rnd m nbs a (Z.to_nat t) d); exact X.
Qed.

(** On grids with sides from 3 the visited cell takes the value of the rule on the plane. *)
Lemma C110_plane_lemma : forall size s variant ords rnd ctl born survive init g n,
  square_grid size s -> length size = 2%nat -> Forall (fun m => 3 <= m) size -> (forall t, legal (ords t)) ->
  process_variant_string variant = Ok (born, survive) -> life_init RA s ords rnd variant = Ok ctl ->
  Permutation (site_ids init) (map (fun x => KInt (s_id x)) (sites s None)) -> shows s init g ->
  exists o, run_async ctl (None, 0%nat) init n = Ok o /\ rlen (o_result o) = Z.max 0 n + 1 /\ get_step (o_result o) 0 = Ok init /\
    forall t, 0 <= t < Z.max 0 n -> exists st st' h h', get_step (o_result o) t = Ok st /\ get_step (o_result o) (t + 1) = Ok st' /\ shows s st h /\ shows s st' h' /\
      forall x y i, cell s [x; y] i ->
        h' x y = if i =? Z.of_nat (rnd (2 * Z.to_nat t)%nat) mod Z.of_nat (length (sites s None)) then life_next born survive h x y else h x y.
Proof.
  intros size s variant ords rnd ctl born survive init g n SG L2 F3 LO EV EI PI SH.
  destruct (square_facts _ _ SG) as [L G].
  assert (CELL : forall x y, cell s [x; y] (cid size [x; y])) by (intros x y; apply (gf_cell _ _ _ G); now rewrite L2).
  assert (SITE : forall i x, get_site s i = Some x -> exists a b, cell s [a; b] i).
  { intros i x Gx. destruct (site_cell _ _ _ _ _ G Gx) as (p & Lp & _ & _ & Cp & _). rewrite L2 in Lp. destruct p as [|a [|b [|]]]; try discriminate. eauto. }
  destruct (C110_lemma size s variant ords rnd ctl born survive init n SG L2 LO EV EI PI) as (o & E & RL & G0 & H).
  { intros i x Gx. destruct (SITE i x Gx) as (a & b & C). pose proof (SH _ _ _ C) as X. destruct (g a b); auto. }
  exists o. split; [exact E|]. split; [exact RL|]. split; [exact G0|]. intros t Ht. destruct (H t Ht) as (st & st' & E1 & E2 & HV & OTH & _ & DR).
  set (drawn := Z.of_nat (rnd (2 * Z.to_nat t)%nat) mod Z.of_nat (length (sites s None))) in *.
  assert (FOUND : forall x y i, cell s [x; y] i -> exists z, get_site s i = Some z).
  { intros x y i C. unfold cell, id_at in C. apply bind_Ok in C as (oz & Ez & C). destruct oz as [z|]; [|discriminate]. injection C as <-. exists z.
    pose proof (site_at_found RA L s _ z (gf_built _ _ _ G) Ez) as Hz. destruct (built_inv RA L s (gf_built _ _ _ G)) as [h0 I0]. apply (inv_get_site RA L h0 s _ z I0). auto. }
  pose (h := fun x y => phase_at st (cid size [x; y]) "alive").
  pose (h' := fun x y => if cid size [x; y] =? drawn then life_next born survive h x y else h x y).
  assert (CI : forall x y i, cell s [x; y] i -> i = cid size [x; y]) by (intros x y i C; pose proof (CELL x y) as C'; unfold cell in *; rewrite C in C'; now injection C').
  assert (S1 : shows s st h).
  { intros x y i C. destruct (FOUND _ _ _ C) as [z Gz]. rewrite (CI _ _ _ C) in *. unfold h. destruct (HV _ _ Gz) as [X|X]; rewrite (holds_phase _ _ _ _ X); exact X. }
  exists st, st', h, h'. split; [exact E1|]. split; [exact E2|]. split; [exact S1|]. split; [|intros x y i C; rewrite (CI _ _ _ C); reflexivity].
  intros x y i C. pose proof (CI _ _ _ C) as Ei. unfold h'. rewrite <- Ei. destruct (Z.eqb_spec i drawn) as [D|D].
  - rewrite <- D in DR.
    destruct (DR x y (map (fun d => cid size [x + fst d; y + snd d]) around) C) as (p & Hp & Hq).
    { apply nodup_map_in; [|apply around_NoDup]. intros a b Ha Hb. apply around_bound in Ha as (A1 & A2 & _), Hb as (B1 & B2 & _). eapply cid_inj; eauto. }
    { intros j. rewrite in_map_iff. split.
      - intros ([d1 d2] & <- & Hd). apply around_bound in Hd as (B1 & B2 & B3). cbn [fst snd] in *. split.
        + intros X. apply B3. rewrite Ei in X. apply (cid_inj size s L x y (d1, d2) (0, 0) G L2 F3); cbn [fst snd]; try lia. rewrite !Z.add_0_r. exact X.
        + exists d1, d2. split; [exact B1|]. split; [exact B2|apply CELL].
      - intros (Dj & d1 & d2 & A1 & A2 & Cj). exists (d1, d2). split; [symmetry; exact (CI _ _ _ Cj)|]. apply around_all; auto. intros X. injection X as -> ->. apply Dj. rewrite !Z.add_0_r in Cj. rewrite (CI _ _ _ Cj). now symmetry. }
    rewrite (count_alive size s L st h x y _ G L2 S1 (Permutation_refl _)) in Hq. unfold life_next. pose proof (S1 x y i C) as Hh. rewrite (holds_fun _ _ _ _ Hp Hh) in Hq. destruct (h x y); exact Hq.
  - apply (OTH i); auto.
Qed.

Lemma C110_still_lemma : forall size s variant ords rnd ctl born survive init g n,
  square_grid size s -> length size = 2%nat -> Forall (fun m => 3 <= m) size -> (forall t, legal (ords t)) ->
  process_variant_string variant = Ok (born, survive) -> life_init RA s ords rnd variant = Ok ctl ->
  Permutation (site_ids init) (map (fun x => KInt (s_id x)) (sites s None)) -> shows s init g ->
  (forall x y, life_next born survive g x y = g x y) ->
  exists o, run_async ctl (None, 0%nat) init n = Ok o /\ rlen (o_result o) = Z.max 0 n + 1 /\
    forall t, 0 <= t <= Z.max 0 n -> exists st, get_step (o_result o) t = Ok st /\ shows s st g.
Proof.
  intros size s variant ords rnd ctl born survive init g n SG L2 F3 LO EV EI PI SH FX.
  destruct (C110_plane_lemma size s variant ords rnd ctl born survive init g n SG L2 F3 LO EV EI PI SH) as (o & E & RL & G0 & H).
  exists o. split; [exact E|]. split; [exact RL|].
  assert (K : forall k : nat, Z.of_nat k <= Z.max 0 n -> exists st, get_step (o_result o) (Z.of_nat k) = Ok st /\ shows s st g).
  { induction k as [|k IH]; intros Hk; [exists init; split; [exact G0|exact SH]|]. destruct IH as (st0 & E0 & S0); [lia|].
    destruct (H (Z.of_nat k) ltac:(lia)) as (st & st' & h & h' & E1 & E2 & S1 & S2 & R). rewrite E0 in E1. injection E1 as <-. exists st'. split; [rewrite <- E2; f_equal; lia|].
    destruct (square_facts _ _ SG) as [L G].
    assert (HG : forall x y, h x y = g x y).
    { intros x y. pose proof (gf_cell _ _ _ G [x; y] ltac:(now rewrite L2)) as C. pose proof (holds_fun _ _ _ _ (S0 _ _ _ C) (S1 _ _ _ C)) as X. destruct (g x y), (h x y); congruence. }
    intros x y i C. pose proof (S2 x y i C) as X. rewrite (R x y i C) in X.
    assert (LN : life_next born survive h x y = g x y).
    { rewrite <- FX. unfold life_next, alive_around. rewrite HG. rewrite (filter_ext _ (fun d => g (x + fst d) (y + snd d))); auto. }
    rewrite LN, HG in X. destruct (i =? _); exact X. }
  intros t Ht. destruct (K (Z.to_nat t) ltac:(lia)) as (st & E1 & S1). rewrite Z2Nat.id in E1 by lia. eauto.
Qed.
