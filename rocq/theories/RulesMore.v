(** The growth model: its runs and [GrowthSetup.grow]. *)
From Coq Require Import Reals Permutation.
From Verif Require Import Prelude Dict Val ValFacts Arith RealArith LatticeModel StructModel StateModel ResultModel RunnerModel NbModel GridModel SimModel SetupModel RulesModel
  SpecState SpecResult SpecRunner SpecGeom SpecNb SpecGrid SpecSetup SpecRules StateFacts ResultFacts RunnerFacts SyncFacts ParFacts ParRun GenRun
  LatticeFacts StructFacts StructMore NbFacts NbMore GridFacts GridMore GridNb SetupFacts SetupMore NucFacts NucMore RulesFacts.
Local Open Scope Z_scope.

Lemma nodup_ids_after {F} (N : nbhood F) bg ords rnd ids init U n t t' i p : has_neighbours ids N -> (forall t, legal (ords t)) -> NoDup ids -> phased ids init ->
  (forall t, (t < n)%nat -> NoDup (dkeys (U t)) /\ Permutation (dkeys (U t)) (map KInt ids) /\ phased ids (after U init t) /\
      forall id u, In (id, u) (U t) -> ans_on (growth_controller N bg ords rnd) grow_upd (fun _ => True) (after U init t) id u) ->
  (t <= t' <= n)%nat -> In i ids -> holds (after U init t) i p -> p <> bg -> holds (after U init t') i p.
Proof.
  intros HN LO NI PI HU [L1 L2] Hi Hp Dp. induction L1 as [|t' L1 IH]; auto. specialize (IH ltac:(lia)). rewrite after_S.
  destruct (HU t' ltac:(lia)) as (A & B & PH & D).
  assert (Hk : In (KInt i) (dkeys (U t'))) by (eapply Permutation_in; [apply Permutation_sym, B|now apply in_map]).
  apply dget_key_Some in Hk as [u Eu]. destruct (D _ _ (dget_In _ _ _ Eu)) as (GU & c & c' & _ & E). destruct (HN (ords c) i (LO c) Hi) as (l & EL & IL).
  destruct (C54_lemma F N bg ords rnd c i (after U init t') l EL (proj2 PH i Hi)) as (u' & E' & U1 & _); [intros j Hj; apply PH, IL, Hj|].
  rewrite E in E'. injection E' as <- _. rewrite U1 in Eu by (exists p; auto). eapply step_keep; eauto.
Qed.

Lemma C55_lemma : forall F (N : nbhood F) bg ords rnd ids c0 init n,
  (forall t, legal (ords t)) -> NoDup ids -> ids <> [] -> has_neighbours ids N -> phased ids init ->
  exists o, run_sync (growth_controller N bg ords rnd) c0 init n = Ok o /\ rlen (o_result o) = Z.max 0 n + 1 /\
   forall t, 0 <= t <= Z.max 0 n -> exists st, get_step (o_result o) t = Ok st /\ phased ids st /\
     (forall i p, In i ids -> holds st i p -> p = bg \/ exists j, In j ids /\ holds init j p) /\
     (forall t' st' i p, t <= t' <= Z.max 0 n -> get_step (o_result o) t' = Ok st' -> In i ids -> holds st i p -> p <> bg -> holds st' i p) /\
     (forall nbr, (forall o i l j, legal o -> In i ids -> neighbors_of o N i = Ok l -> (In j l <-> nbr i j)) ->
        forall i, In i ids -> (occupied bg st i <-> exists j, within nbr (Z.to_nat t) i j /\ occupied bg init j)).
Proof.
  intros F N bg ords rnd ids c0 init n LO NI NE HN PI.
  destruct (grow_sync N bg ords rnd ids LO NI NE HN c0 init n PI) as (U & o & E & L & _ & GS & HU).
  exists o. split; auto. split; auto. intros t Ht.
  assert (HU' : forall t, (t < Z.to_nat n)%nat -> NoDup (dkeys (U t)) /\ Permutation (dkeys (U t)) (map KInt ids) /\
      forall id u, In (id, u) (U t) -> exists v, view U init t v /\ phased ids v /\ ans_on (growth_controller N bg ords rnd) grow_upd (fun _ => True) v id u).
  { intros s Hs. destruct (HU s Hs) as (A & B & D & G). split; auto. split; auto. intros id u H. exists (after U init s). split; [apply after_view|auto]. }
  exists (after U init (Z.to_nat t)). split; [|split; [|split; [|split]]].
  - rewrite <- (GS (Z.to_nat t)) by lia. f_equal. lia.
  - apply (spread_phased N bg ords rnd ids LO NI init U (Z.to_nat n) PI HU'). lia.
  - intros i p Hi Hp. apply (spread_from N bg ords rnd ids LO NI HN init U (Z.to_nat n) PI HU' (Z.to_nat t) i p); auto. lia.
  - intros t' st' i p Ht' E' Hi Hp Dp. assert (st' = after U init (Z.to_nat t')) as ->.
    { pose proof (GS (Z.to_nat t') ltac:(lia)) as X. replace (Z.of_nat (Z.to_nat t')) with t' in X by lia. congruence. }
    apply (nodup_ids_after N bg ords rnd ids init U (Z.to_nat n) (Z.to_nat t)); auto. lia.
  - intros nbr HR i Hi. apply (spread_iff N bg ords rnd ids LO NI HN init U (Z.to_nat n) PI HU' nbr HR); auto; try lia. intros a b Ha Hb. destruct (HN (ords 0%nat) a (LO _) Ha) as (l & El & Il). apply Il. apply (HR (ords 0%nat) a l b (LO _) Ha El). exact Hb.
Qed.

Lemma C56_spread_lemma : forall F (N : nbhood F) bg ords rnd ids p sched c0 init n,
  (forall t, legal (ords t)) -> NoDup ids -> ids <> [] -> has_neighbours ids N -> phased ids init -> 1 <= p ->
  exists o, run_parallel (growth_controller N bg ords rnd) p sched c0 init n = Ok o /\ rlen (o_result o) = Z.max 0 n + 1 /\
   forall t, 0 <= t <= Z.max 0 n -> exists st, get_step (o_result o) t = Ok st /\ phased ids st /\
     (forall i p, In i ids -> holds st i p -> p = bg \/ exists j, In j ids /\ holds init j p) /\
     (forall t' st' i, t <= t' <= Z.max 0 n -> get_step (o_result o) t' = Ok st' -> In i ids -> occupied bg st i -> occupied bg st' i) /\
     (forall nbr, (forall o i l j, legal o -> In i ids -> neighbors_of o N i = Ok l -> (In j l <-> nbr i j)) ->
        forall i, In i ids -> (occupied bg st i <-> exists j, within nbr (Z.to_nat t) i j /\ occupied bg init j)).
Proof.
  intros F N bg ords rnd ids p sched c0 init n LO NI NE HN PI P1.
  destruct (grow_par N bg ords rnd ids LO NI NE HN p sched c0 init n PI P1) as (U & o & E & L & GS & HU).
  exists o. split; auto. split; auto. intros t Ht.
  exists (after U init (Z.to_nat t)). split; [|split; [|split; [|split]]].
  - rewrite <- (GS (Z.to_nat t)) by lia. f_equal. lia.
  - apply (spread_phased N bg ords rnd ids LO NI init U (Z.to_nat n) PI HU). lia.
  - intros i q Hi Hq. apply (spread_from N bg ords rnd ids LO NI HN init U (Z.to_nat n) PI HU (Z.to_nat t) i q); auto. lia.
  - intros t' st' i Ht' E' Hi Hp. assert (st' = after U init (Z.to_nat t')) as ->.
    { pose proof (GS (Z.to_nat t') ltac:(lia)) as X. replace (Z.of_nat (Z.to_nat t')) with t' in X by lia. congruence. }
    assert (Lt : (Z.to_nat t <= Z.to_nat t')%nat) by lia. assert (Ln : (Z.to_nat t' <= Z.to_nat n)%nat) by lia. clear Ht' E' Ht.
    induction Lt as [|m Lt IH]; auto. apply (occupied_stays N bg ords rnd ids LO NI HN init U (Z.to_nat n) PI HU); auto; try lia. apply IH. lia.
  - intros nbr HR i Hi. apply (spread_iff N bg ords rnd ids LO NI HN init U (Z.to_nat n) PI HU nbr HR); auto; try lia. intros a b Ha Hb. destruct (HN (ords 0%nat) a (LO _) Ha) as (l & El & Il). apply Il. apply (HR (ords 0%nat) a l b (LO _) Ha El). exact Hb.
Qed.

(** * The whole grid is reached *)
Lemma within_S nbr k i j : within nbr k i j -> within nbr (S k) i j.
Proof. induction 1 as [|k i m j H W IH]; [constructor|]. now apply within_hop with m. Qed.
Lemma cell_fun s p i j : cell s p i -> cell s p j -> i = j.
Proof. unfold cell. congruence. Qed.
Definition toward (p q : list Z) : list Z := zipwith (fun a b => Z.sgn (b - a)) p q.
Lemma toward_facts p q (k : nat) : Forall2 (fun a b => Z.abs (b - a) <= Z.of_nat (S k)) p q ->
  length (toward p q) = length p /\ within_moore 1 (toward p q) /\ Forall2 (fun a b => Z.abs (b - a) <= Z.of_nat k) (shift p (toward p q)) q.
Proof.
  induction 1 as [|a b p q B H (I1 & I2 & I3)]; unfold toward, shift in *; cbn [zipwith].
  - split; auto. split; constructor.
  - split; [simpl; auto|]. split; constructor; auto; lia.
Qed.
Lemma moore_reach size s L r k : grid_facts size s L -> 1 <= r -> forall p q i j, length p = length size ->
  Forall2 (fun a b => Z.abs (b - a) <= Z.of_nat k) p q -> cell s p i -> cell s q j -> within (moore_rel s (length size) r) k i j.
Proof.
  intros G Hr. induction k as [|k IH]; intros p q i j Lp H Ci Cj.
  - assert (p = q) as -> by (clear -H; induction H as [|a b p q B H IH]; [auto|f_equal; auto; lia]). rewrite (cell_fun _ _ _ _ Ci Cj). constructor.
  - destruct (toward_facts p q k H) as (T1 & T2 & T3). assert (Ls : length (shift p (toward p q)) = length size) by (rewrite shift_length; auto).
    pose proof (gf_cell _ _ _ G _ Ls) as Cm. set (m := rank _ _) in Cm. pose proof (IH _ q m j Ls T3 Cm Cj) as W.
    destruct (Z.eq_dec m i) as [Em|D]; [rewrite Em in W; now apply within_S|]. apply within_hop with m; auto. split; auto.
    exists p, (toward p q). split; auto. split; [congruence|]. split; auto. unfold within_moore in *. eapply Forall_impl; [|exact T2]. simpl. intros; lia.
Qed.
Lemma extents_repeat k d : extents (repeat k d) = repeat k d.
Proof. destruct d as [|[|d]]; reflexivity. Qed.
Lemma square_reach size dim s L r i j : grid_facts (repeat size dim) s L -> 1 <= r -> In i (map s_id (sites s None)) -> In j (map s_id (sites s None)) ->
  within (moore_rel s dim r) (Z.to_nat size) i j.
Proof.
  intros G Hr Hi Hj. apply (get_site_ids RA L s i (gf_built _ _ _ G)) in Hi as [x Gx]. apply (get_site_ids RA L s j (gf_built _ _ _ G)) in Hj as [y Gy].
  destruct (site_cell _ _ _ _ _ G Gx) as (p & Lp & Bp & _ & Cp & _). destruct (site_cell _ _ _ _ _ G Gy) as (q & Lq & Bq & _ & Cq & _).
  rewrite extents_repeat in *. rewrite repeat_length in *. pose proof (moore_reach _ s L r (Z.to_nat size) G Hr p q i j) as M. rewrite repeat_length in M. apply M; auto.
  clear - Bp Bq. revert p q Bp Bq. induction dim as [|dim IH]; cbn [repeat]; intros p q Bp Bq; inversion Bp as [|a ? p' ? B1 B2]; inversion Bq as [|b ? q' ? B3 B4]; subst; constructor; [lia|auto].
Qed.

Lemma square_dim size s : square_grid size s -> p_dim s = length size.
Proof.
  intros SG. destruct (setup_grid (length size) (SzTuple size)) as (s' & L & E & SG' & _ & PD & _).
  - split; [|split; [auto|apply SG]]. destruct SG as [_ [[D _]|[D _]]]; auto.
  - assert (s = s'); [|congruence]. destruct SG as [P [[D (b & Eb & Es)]|[D (b & Eb & Es)]]]; unfold build_structure, setup_builder in E; rewrite D in E;
      cbn [Z.of_nat Z.eqb Pos.of_succ_nat Pos.succ Pos.eqb] in E; rewrite Eb in E; cbn [bind] in E; congruence.
Qed.

Lemma config_phased {F} (s : structure F) st P L A : built A L s -> configuration s st P -> phased (map s_id (sites s None)) st /\
  forall i p, In i (map s_id (sites s None)) -> holds st i p -> P i p.
Proof.
  intros HB (C1 & C2 & C3). split; [split|].
  - rewrite C1, map_map. reflexivity.
  - intros i Hi. apply (get_site_ids A L s i HB) in Hi as [x Gx]. destruct (C3 i x Gx) as (p & E & _). exists p. unfold holds, site_entry. rewrite E. reflexivity.
  - intros i p Hi Hp. apply (get_site_ids A L s i HB) in Hi as [x Gx]. destruct (C3 i x Gx) as (q & E & Pq). unfold holds, site_entry in Hp. rewrite E in Hp.
    cbn in Hp. congruence.
Qed.

Lemma last_is r k st : rlen r = k + 1 -> get_step r k = Ok st -> last_step r = Ok st.
Proof. intros L E. unfold last_step. rewrite L. replace (k + 1 - 1) with k by lia. exact E. Qed.

Lemma C51_lemma : forall dim size n bg amts buffer b rnd ords ords' rnd' p sched np_sum,
  good_size dim (SzInt size) -> 1 <= n -> amounts_ok bg amts -> (forall t, legal (ords t)) -> (forall t, legal (ords' t)) -> summation RA np_sum -> 1 <= p ->
  (b = None \/ exists r b', 1 <= r /\ MooreNbHoodBuilder RA r dim = Ok b' /\ b = Some b') ->
  exists r, (forall f1 f2, (n + 1) * Z.of_nat (length amts) <= Z.of_nat f1 -> 1000 * n + 2 <= Z.of_nat f2 ->
      grow RA f1 f2 np_sum rnd ords ords' rnd' p sched (Z.of_nat dim) size n bg amts b buffer = Some r) /\
    (r = Err RuntimeError \/ exists s st, r = Ok (mkSim st s) /\ square_grid (repeat size dim) s /\
       site_ids st = map (fun x => KInt (s_id x)) (sites s None) /\
       forall i x, get_site s i = Some x -> exists q, holds st i q /\ q <> bg /\ In q (dkeys amts)).
Proof.
  intros dim size n bg amts buffer b rnd ords ords' rnd' p sched np_sum GS N1 AO LO LO' SM P1 HB.
  destruct (random_run dim (SzInt size) n bg amts buffer rnd ords np_sum GS ltac:(lia) AO LO SM) as (r & Er & [->|(s & st & -> & SG & CF & CN & _)]).
  { exists (Err RuntimeError). split; auto. intros f1 f2 H1 H2. unfold grow. rewrite (Er f1 f2 H1 H2). reflexivity. }
  destruct (square_facts _ _ SG) as [L G]. cbn [grid_size] in *.
  assert (Ld : length (repeat size dim) = dim) by apply repeat_length.
  assert (NBH : exists r N, 1 <= r /\ growth_nbhood RA s b = Ok N /\ torus_nb (repeat size dim) s (within_moore r) N).
  { unfold growth_nbhood. destruct HB as [->|(r & b' & Hr & Eb & ->)].
    - destruct (C41_moore_lemma _ s 1 SG) as (b & N & Eb & EN & T & _). exists 1, N. split; [lia|]. rewrite (square_dim _ _ SG). rewrite Eb. cbn [bind]. auto.
    - destruct (C41_moore_lemma _ s r SG) as (b & N & Eb' & EN & T & _). exists r, N. split; auto. rewrite Ld in Eb'. rewrite Eb in Eb'. injection Eb' as <-. cbn [bind]. auto. }
  destruct NBH as (r & N & Hr & EN & T). set (ids := map s_id (sites s None)) in *.
  assert (NI : NoDup ids) by (apply dense_NoDup, (built_dense RA L s (gf_built _ _ _ G))).
  assert (NE : ids <> []).
  { pose proof (gf_count _ _ _ G) as C. pose proof (prod_pos _ (gf_pos _ _ _ G)). intros E. apply map_eq_nil in E. rewrite E in C. simpl in C. lia. }
  destruct (config_phased s st _ L RA (gf_built _ _ _ G) CF) as [PH PP]. fold ids in PH, PP.
  assert (HN : has_neighbours ids N).
  { intros o i Lo Hi. destruct (moore_rel_nb _ s L r N o i G T Lo Hi) as (l & El & HL). exists l. split; auto. intros j Hj. apply HL in Hj. eapply moore_rel_in; eauto. }
  destruct (C56_spread_lemma R N bg ords' rnd' ids p sched 0%nat st size LO' NI NE HN PH P1) as (o & Eo & Lo & HS).
  assert (S0 : 0 < size).
  { destruct GS as ([->| ->] & _ & F); cbn in F; now apply Forall_inv in F. }
  destruct (HS size ltac:(lia)) as (st' & Es & PH' & FR & _ & SP).
  exists (Ok (mkSim st' s)). split.
  - intros f1 f2 H1 H2. unfold grow. rewrite (Er f1 f2 H1 H2). cbn [bind sim_struct sim_state]. rewrite EN. cbn [bind]. rewrite Eo. cbn [bind].
    rewrite (last_is _ size st'); auto. rewrite Lo. lia.
  - right. exists s, st'. split; auto. split; auto. split; [rewrite (proj1 PH'); unfold ids; now rewrite map_map|]. intros i x Gx.
    assert (Hi : In i ids) by (apply (get_site_ids RA L s i (gf_built _ _ _ G)); eauto).
    assert (O : occupied bg st' i).
    { apply (SP (moore_rel s dim r)); auto.
      - intros o' a l c Lo' Ha El. destruct (moore_rel_nb _ s L r N o' a G T Lo' Ha) as (l' & El' & HL). rewrite Ld in HL. rewrite El in El'. injection El' as <-. apply HL.
      - destruct (without_phase s st bg) as [|j t] eqn:W; [cbn in CN; lia|]. exists j. assert (Hj : In j (without_phase s st bg)) by (rewrite W; simpl; auto).
        unfold without_phase in Hj. apply filter_In in Hj as [Hj Nj]. split; [eapply square_reach; eauto|].
        destruct (proj2 PH j Hj) as [q Hq]. exists q. split; auto. intros ->. rewrite (holds_phase _ _ _ _ Hq), eqb_refl in Nj. discriminate. }
    destruct O as (q & Hq & Dq). exists q. split; auto. split; auto. destruct (FR i q Hi Hq) as [?|(j & Hj & Hq')]; [contradiction|].
    destruct (PP j q Hj Hq') as [?|?]; [contradiction|auto].
Qed.

(** * A stale worker repaints an occupied cell: five cells in a row, nuclei at both ends *)
Definition row_graph : graph Z := mkGraph [0; 1; 2; 3; 4] (map (fun e => (fst e, snd e, None)) [(0, 1); (1, 2); (1, 0); (2, 3); (2, 1); (3, 4); (3, 2); (4, 3)]).
Definition row_state (l : list string) : sstate :=
  mkS (map (fun ip => (KInt (fst ip), [(KStr "_site_id", VInt (fst ip)); (KStr "DISCRETE_OCCUPANCY", VStr (snd ip))])) (combine [0; 1; 2; 3; 4] l)) [].
Definition list_oracle : @nb_oracle Z := mkOracle (fun l => l) (fun _ => 0%nat).
Lemma list_legal : legal list_oracle.
Proof. split; [intros l; apply Permutation_refl|]. intros l H. destruct l; simpl; [congruence|lia]. Qed.
Definition late (t b : nat) : nat := if Nat.eqb t 2 then 1%nat else 0%nat.
Lemma row_phased l : length l = 5%nat -> phased [0; 1; 2; 3; 4] (row_state l).
Proof.
  destruct l as [|a [|b [|c [|d [|e [|]]]]]]; try discriminate. intros _. split; [reflexivity|]. intros i Hi.
  repeat (destruct Hi as [<-|Hi]; [eexists; reflexivity|]). destruct Hi.
Qed.
Lemma row_neighbours : has_neighbours [0; 1; 2; 3; 4] (NGraph row_graph).
Proof.
  intros o i [PO _] Hi. eexists. split; [reflexivity|]. intros j Hj. unfold g_neighbors in Hj. apply (Permutation_in j (Permutation_sym (PO (dedup (g_successors row_graph i))))) in Hj.
  destruct Hi as [<-|[<-|[<-|[<-|[<-|[]]]]]]; vm_compute in Hj; cbn [In]; intuition (subst; auto 10).
Qed.

Lemma C56_refuted_lemma : exists (N : nbhood Z) bg ords rnd ids p sched init n o t t' st st' i a,
  (forall t, legal (ords t)) /\ NoDup ids /\ ids <> [] /\ has_neighbours ids N /\ phased ids init /\ 1 <= p /\
  run_parallel (growth_controller N bg ords rnd) p sched 0%nat init n = Ok o /\
  get_step (o_result o) t = Ok st /\ get_step (o_result o) t' = Ok st' /\ 0 <= t <= t' /\
  In i ids /\ holds st i a /\ a <> bg /\ ~ holds st' i a.
Proof.
  exists (NGraph row_graph), "bg"%string, (fun _ => list_oracle), (fun _ => 0%nat), [0; 1; 2; 3; 4], 2, late, (row_state ["a"; "bg"; "bg"; "bg"; "b"]%string), 3.
  eexists. exists 1, 3. do 2 eexists. exists 1, "a"%string.
  split; [intros _; exact list_legal|]. split; [repeat constructor; simpl; intuition lia|]. split; [discriminate|]. split; [exact row_neighbours|].
  split; [now apply row_phased|]. split; [lia|]. split; [vm_compute; reflexivity|]. split; [vm_compute; reflexivity|]. split; [vm_compute; reflexivity|]. split; [lia|].
  split; [simpl; auto|]. split; [reflexivity|]. split; [discriminate|]. vm_compute. discriminate.
Qed.

(** * The default random site *)
Lemma C69_lemma : forall rnd c st n, site_ids st = map KInt (zrange 0 n) ->
  (n <= 0 -> basic_random_site rnd c st = Err ValueError) /\
  (0 < n -> exists i, basic_random_site rnd c st = Ok (VInt i, S c) /\ In (KInt i) (site_ids st)) /\
  (forall i, 0 <= i < n -> exists rnd', basic_random_site rnd' c st = Ok (VInt i, S c)).
Proof.
  intros rnd c st n E. assert (SZ : size st = Z.max 0 n) by (unfold size; rewrite E, map_length, zrange_length; lia). unfold basic_random_site. rewrite SZ. split; [|split].
  - intros H. replace (Z.max 0 n) with 0 by lia. reflexivity.
  - intros H. replace (Z.max 0 n) with n by lia. replace (n <=? 0) with false by lia. eexists. split; [reflexivity|]. rewrite E. apply in_map, zrange_In.
    apply Z.mod_pos_bound. lia.
  - intros i Hi. exists (fun _ => Z.to_nat i). replace (Z.max 0 n) with n by lia. replace (n <=? 0) with false by lia. rewrite Z2Nat.id by lia. rewrite Z.mod_small by lia. reflexivity.
Qed.
Lemma C69_refuted_lemma : exists rnd c st i c', basic_random_site rnd c st = Ok (VInt i, c') /\ ~ In (KInt i) (site_ids st).
Proof. exists (fun _ => 0%nat), 0%nat, (mkS [(KInt 5, [])] []), 0, 1%nat. split; [reflexivity|]. intros [H|[]]. discriminate. Qed.
