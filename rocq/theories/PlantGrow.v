(** Exactly where nuclei are planted: in binary64, and in [grow] (C113). *)
From Coq Require Import Reals Lra Permutation.
From Flocq Require Import Core BinarySingleNaN.
From Verif Require Import Prelude Dict Val ValFacts Arith RealArith LatticeModel StructModel StateModel ResultModel RunnerModel NbModel GridModel SimModel SetupModel RulesModel
  SpecState SpecResult SpecRunner SpecGeom SpecNb SpecGrid SpecSetup SpecRules SpecPlant StateFacts ResultFacts RunnerFacts SyncFacts ParFacts ParRun GenRun
  LatticeFacts StructFacts StructMore NbFacts NbMore GridFacts GridMore GridNb SetupFacts SetupMore NucFacts NucMore RulesFacts RulesMore LifeFacts LifeGen GrowBall
  FloatArith SpecFloat64 SpecNuc SpecPlantFl FloatFacts FloatCoord FloatGrid FloatMore FloatNb FloatTorus FloatNuc FloatOpen Planting GrowAll.
Local Open Scope Z_scope.

Lemma fl_turns n amts np_sum fuel ids bg : 0 <= n -> fl_amounts bg amts -> (n + 1) * (Z.of_nat (length amts) + 2) <= 2 ^ 44 -> summation FA np_sum ->
  nucleus_identities FA fuel n (map fst amts) (map fst amts) (ideal_num_sites FA np_sum amts n) (dict_of (map (fun p => (p, 0)) (map fst amts))) [] = Some (Ok ids) ->
  Z.of_nat (length ids) = n -> ids = in_turn n (computed_shares n amts np_sum).
Proof.
  intros N0 (UQ & NB & NN & TP) SMALL SM E L. unfold computed_shares. set (f := fun a => B2R (a_mul FA (a_div FA a (np_sum (map snd amts))) (a_ofZ FA n))).
  destruct (shares_snd f amts) as [S1 S2].
  assert (Q : forall p a, In (p, a) amts -> exists v, dget p (ideal_num_sites FA np_sum amts n) = Some (Fin v) /\ denotes v (f a) /\ fquota n amts np_sum p = f a).
  { intros p a H. assert (Hp : In p (map fst amts)) by (apply (in_map fst) in H; auto).
    destruct (ideal_fl n amts np_sum NN TP N0 SMALL SM p Hp) as (v & Ev & D). exists v. split; auto.
    assert (v = a_mul FA (a_div FA a (np_sum (map snd amts))) (a_ofZ FA n)) as ->.
    { destruct (total_ok n amts np_sum NN TP N0 SMALL SM) as [DT _]. pose proof (T_pos n amts np_sum NN TP N0 SMALL SM) as T0.
      assert (E' : forall r, np_mul FA (np_div FA r (np_sum (map snd amts))) (a_ofZ FA n) = Fin (a_mul FA (a_div FA r (np_sum (map snd amts))) (a_ofZ FA n))).
      { intros r. unfold np_div. cbn [a_eqb FA a_ofZ]. rewrite (denotes_eqb _ _ _ _ DT den_0), Req_bool_false by lra. reflexivity. }
      unfold ideal_num_sites in Ev. rewrite (map_ext _ _ E'), map_map in Ev. pose proof (In_dget p a amts UQ H) as G. revert Ev G. generalize (np_sum (map snd amts)) as tt. clear. intros tt.
      induction amts as [|[k w] l IH]; [discriminate|]. cbn [map fst snd combine dget]. destruct (eqb p k); auto. congruence. }
    destruct D as [Fi D]. split; [split; auto|]. symmetry. exact D. }
  apply (turns_start FA n (map (fun pa => (fst pa, f (snd pa))) amts) (ideal_num_sites FA np_sum amts n)) with (fuel := fuel); auto; rewrite ?S1; auto.
  - intros p q H. apply in_map_iff in H as ([p' a] & E' & H). cbn [fst snd] in E'. injection E' as <- <-. destruct (Q p' a H) as (v & Ev & D & _). exists (Fin v). split; auto.
    intros k Hk. cbn [np_below a_ltb a_ofZ FA]. rewrite (denotes_ltb _ _ (IZR k) _ (denotes_ofZ k ltac:(assert (n <= 2 ^ 44) by nia; lia)) D). split.
    + intros X. destruct (Rlt_bool_spec (IZR k) (f a)); auto; discriminate.
    + intros X. now apply Rlt_bool_true.
  - rewrite S2. assert (X : map (fun pa => f (snd pa)) amts = map (fquota n amts np_sum) (map fst amts)).
    { rewrite map_map. apply map_ext_in. intros [p a] H. cbn [fst snd]. destruct (Q p a H) as (_ & _ & _ & ->). reflexivity. }
    rewrite X. apply (fquota_sum n amts np_sum UQ NN TP N0 SMALL SM).
Qed.

Lemma C113_float_lemma : forall dim sz s n bg amts buffer rnd ords np_sum, fl_setup dim sz s -> 0 <= n ->
  fl_amounts bg amts -> (n + 1) * (Z.of_nat (length amts) + 2) <= 2 ^ 44 -> (forall t, legal (ords t)) -> summation FA np_sum -> fl_buffer (grid_size dim sz) buffer ->
  exists l r, greedy (fl_too_near (grid_size dim sz) s buffer) (candidates rnd (Z.of_nat (length (sites s None))) (1000 * n + 1)) l /\
    (forall f1 f2, (n + 1) * Z.of_nat (length amts) <= Z.of_nat f1 -> 1000 * n + 2 <= Z.of_nat f2 ->
      setup_random_sites FA f1 f2 np_sum rnd ords (Z.of_nat dim) sz n bg amts buffer = Some r) /\
    (Z.of_nat (length l) < n -> r = Err RuntimeError) /\
    (n <= Z.of_nat (length l) -> exists st, r = Ok (mkSim st s) /\ nucleated s st bg (firstn (Z.to_nat n) l) (in_turn n (computed_shares n amts np_sum))).
Proof.
  intros dim sz s n bg amts buffer rnd ords np_sum FG N0 AM SMALL LO SM HB. pose proof AM as (UQ & NB & NN & TP).
  destruct (fl_prepared dim sz s bg buffer FG HB) as (L & nbg & BU & EP & HN). set (F1 := Z.to_nat ((n + 1) * Z.of_nat (length amts))).
  destruct (fl_identities n amts np_sum UQ NN TP N0 SMALL SM F1 ltac:(lia)) as (ids & EI & LI & II & CI).
  destruct (setup_facts dim sz s FG) as (Hk & FS & Lg & _). set (size := grid_size dim sz) in *.
  set (rel := fun i j => match buffer with None => False | Some r => fl_rel size s r i j end).
  assert (RI : forall i j, In i (map s_id (sites s None)) -> rel i j -> In j (map s_id (sites s None))).
  { intros i j _ H. unfold rel in H. destruct buffer as [b|]; [|destruct H]. destruct H as (_ & p & d & Lp & Ld & _ & _ & Cj). apply (torus_ids size s Hk FS).
    exists (shift p d). split; auto. rewrite shift_length; congruence. }
  assert (RS : forall i j, rel i j -> rel j i).
  { intros i j H. unfold rel in *. destruct buffer; auto. now apply fl_rel_sym. }
  destruct (random_exact FA (Z.of_nat dim) sz n bg amts buffer rnd ords np_sum s L nbg rel ids F1 BU (fl_nonempty dim sz s FG) N0 LO EP HN RI RS NB ltac:(lia) EI LI II)
    as (l & r & GR & U & P1 & P2).
  exists l, r. split; [|split; [auto|split; [auto|]]].
  - refine (proj1 (greedy_iff _ _ _ _ _ GR)). intros i j _ _. unfold rel, fl_rel, fl_too_near. destruct buffer as [b|].
    + split; [intros (D & p & d & H)|intros (D & b' & p & d & E & H)]; (split; [congruence|]); [exists b, p, d; auto|injection E as <-; exists p, d; auto].
    + split; [tauto|]. intros (_ & b & x & y & E & _). discriminate.
  - rewrite <- (fl_turns n amts np_sum F1 ids bg N0 AM SMALL SM EI LI). exact P2.
Qed.

(** ** [grow] *)
Lemma in_turn_in n shares : incl (in_turn n shares) (map fst shares).
Proof. intros p H. unfold in_turn in H. apply (rounds_in shares (Z.to_nat n)). rewrite <- (firstn_skipn (Z.to_nat n)). apply in_or_app. left. exact H. Qed.
Lemma nucleated_config {F} (s : structure F) st bg l phases (keys : list string) : nucleated s st bg l phases -> incl phases keys -> configuration s st (fun _ q => q = bg \/ In q keys).
Proof.
  intros (C1 & C2 & C3) I. split; auto. split; auto. intros i x Gx. destruct (C3 i x Gx) as (p & E & [(m & _ & H)|(_ & H)]); exists p; split; auto. right. apply I. eapply nth_error_In; eauto.
Qed.
Lemma nucleated_occ {F} (A : arith F) L (s : structure F) st bg l phases j : built A L s -> nucleated s st bg l phases -> ~ In bg phases -> In j (map s_id (sites s None)) ->
  (occupied bg st j <-> In j l).
Proof.
  intros BU NU NB Hj. destruct (config_phased s st _ L A BU NU) as [PH PP]. split.
  - intros (p & Hp & Np). destruct (PP j p Hj Hp) as [(m & H & _)|(_ & E)]; [eapply nth_error_In; eauto|contradiction].
  - intros I. destruct (proj2 PH j Hj) as [p Hp]. exists p. split; auto. intros ->. destruct (PP j bg Hj Hp) as [(m & _ & H)|(N & _)]; [|contradiction]. apply NB. eapply nth_error_In; eauto.
Qed.

Lemma real_finish dim size n bg amts buffer r P b rnd rnd' ords ords' p sched np_sum s st0 : good_size dim (SzInt size) -> 0 <= r -> grow_builder dim r P b -> (forall t, legal (ords' t)) -> 1 <= p ->
  square_grid (repeat size dim) s -> configuration s st0 (fun _ q => q = bg \/ In q (dkeys amts)) ->
  (forall f1 f2, (n + 1) * Z.of_nat (length amts) <= Z.of_nat f1 -> 1000 * n + 2 <= Z.of_nat f2 ->
    setup_random_sites RA f1 f2 np_sum rnd ords (Z.of_nat dim) (SzInt size) n bg amts buffer = Some (Ok (mkSim st0 s))) ->
  exists L, built RA L s /\
  (forall i, In i (map s_id (sites s None)) <-> exists x, length x = dim /\ cell s x i) /\
  exists st, (forall f1 f2, (n + 1) * Z.of_nat (length amts) <= Z.of_nat f1 -> 1000 * n + 2 <= Z.of_nat f2 ->
      grow RA f1 f2 np_sum rnd ords ords' rnd' p sched (Z.of_nat dim) size n bg amts b buffer = Some (Ok (mkSim st s))) /\
    site_ids st = map (fun x => KInt (s_id x)) (sites s None) /\
    (forall i x, get_site s i = Some x -> exists q, holds st i q /\ (q = bg \/ In q (dkeys amts))) /\
    forall x i, length x = dim -> cell s x i -> (occupied bg st i <-> exists d j, length d = dim /\ P (r * size) d /\ cell s (shift x d) j /\ occupied bg st0 j).
Proof.
  intros GS Hr HB LO' P1 SG CF Er. destruct (square_facts _ _ SG) as [L G]. assert (Ld : length (repeat size dim) = dim) by apply repeat_length.
  assert (S0 : 0 < size) by (destruct GS as ([->| ->] & _ & Q); cbn in Q; now apply Forall_inv in Q). pose proof (gf_built _ _ _ G) as BU.
  assert (TOT : forall x, length x = dim -> exists i, cell s x i) by (intros x Lx; eexists; apply (gf_cell _ _ _ G x); congruence).
  assert (SAME : forall x y i j, length x = dim -> length y = dim -> cell s x i -> cell s y j -> (i = j <-> same_cell (repeat size dim) x y)).
  { intros x y i j Lx Ly Cx Cy. rewrite <- (cube_extents dim size) at 1. apply (cell_iff (repeat size dim) s L); auto; congruence. }
  assert (IDS : forall i, In i (map s_id (sites s None)) <-> exists x, length x = dim /\ cell s x i).
  { intros i. split.
    - intros Hi. apply (get_site_ids RA L s i BU) in Hi as [z Gz]. destruct (site_cell _ _ _ _ _ G Gz) as (x & Lx & _ & _ & Cx & _). exists x. split; auto. congruence.
    - intros (x & Lx & Cx). apply (get_site_ids RA L s i BU). unfold cell, id_at in Cx.
      apply bind_Ok in Cx as (o & E & Cx). destruct o as [y|]; [|discriminate]. injection Cx as <-. exists y.
      pose proof (site_at_found RA L s _ y BU E) as H. destruct (built_inv RA L s BU) as [h I]. apply (inv_get_site RA L h s _ y I). auto. }
  assert (NBH : exists N, growth_nbhood RA s b = Ok N /\ torus_nb (repeat size dim) s (P r) N /\ balls dim (fun k => P (r * Z.of_nat k))).
  { unfold growth_nbhood. destruct HB as [(-> & [(-> & ->)|(b' & Eb & ->)])|(-> & b' & HB & ->)]; cbn [bind].
    - destruct (C41_moore_lemma _ s 1 SG) as (b & N & Eb & EN & T & _). exists N. rewrite (square_dim _ _ SG), Eb. cbn [bind]. auto using moore_balls.
    - destruct (C41_moore_lemma _ s r SG) as (b & N & Eb' & EN & T & _). exists N. rewrite Ld in Eb'. assert (b = b') by congruence. subst b. auto using moore_balls.
    - destruct (C41_von_neumann_lemma _ s r SG) as [H2 H3]. rewrite Ld in *. destruct HB as [[D Eb]|[D Eb]].
      + destruct (H2 D) as (b1 & N1 & Eb1 & EN' & T & _). assert (b' = b1) by congruence. subst b1. exists N1. auto using vn_balls.
      + destruct (H3 D) as (b1 & N1 & Eb1 & EN' & T & _). assert (b' = b1) by congruence. subst b1. exists N1. auto using vn_balls. }
  destruct NBH as (N & EN & T & BA). exists L. split; auto. split; auto.
  destruct (finish RA s L dim size n bg amts buffer b rnd rnd' ords ords' p sched np_sum st0 N (fun x i => length x = dim /\ cell s x i) (fun k => P (r * Z.of_nat k))) as (st & Eg & SI & HO & OC); auto.
  - intros x Lx. destruct (TOT x Lx) as (i & Ci). eauto.
  - intros x i H. apply H.
  - intros x y i j [Lx Cx] [Ly Cy]. now apply SAME.
  - intros i. rewrite IDS. split; intros (x & Lx & Cx); exists x; tauto.
  - intros x i Lx [_ Cx] o Lo. destruct (T x i ltac:(congruence) Cx o Lo) as (l & El & ND & IN). exists l. split; auto. split; auto. intros j. rewrite IN, Z.mul_1_r, Ld.
    split; intros (Nj & d & Ldd & W & Cd); (split; [auto|]); exists d; (split; [auto|split; [auto|]]); [split; auto; rewrite shift_length; congruence|apply Cd].
  - exists st. split; auto. split; auto. split; auto. intros x i Lx Cx. rewrite (OC x i Lx (conj Lx Cx)), Z2Nat.id by lia.
    split; intros (d & j & Ldd & W & Cd & O); exists d, j; (split; [auto|split; [auto|split; auto]]); [apply Cd|split; auto; rewrite shift_length; congruence].
Qed.

Lemma C113_grow_lemma : forall dim size n bg amts buffer r P b rnd ords ords' rnd' p sched np_sum,
  good_size dim (SzInt size) -> 0 <= n -> amounts_ok bg amts -> (forall t, legal (ords t)) -> (forall t, legal (ords' t)) -> summation RA np_sum -> 1 <= p ->
  0 <= r -> grow_builder dim r P b ->
  exists s l g, square_grid (repeat size dim) s /\
    greedy (too_near s dim buffer) (candidates rnd (Z.of_nat (length (sites s None))) (1000 * n + 1)) l /\
    (forall f1 f2, (n + 1) * Z.of_nat (length amts) <= Z.of_nat f1 -> 1000 * n + 2 <= Z.of_nat f2 ->
      grow RA f1 f2 np_sum rnd ords ords' rnd' p sched (Z.of_nat dim) size n bg amts b buffer = Some g) /\
    (Z.of_nat (length l) < n -> g = Err RuntimeError) /\
    (n <= Z.of_nat (length l) -> exists st, g = Ok (mkSim st s) /\ site_ids st = map (fun x => KInt (s_id x)) (sites s None) /\
       (forall i x, get_site s i = Some x -> exists q, holds st i q /\ (q = bg \/ In q (dkeys amts))) /\
       forall x i, length x = dim -> cell s x i ->
         (occupied bg st i <-> exists d j, length d = dim /\ P (r * size) d /\ cell s (shift x d) j /\ In j (firstn (Z.to_nat n) l))).
Proof.
  intros dim size n bg amts buffer r P b rnd ords ords' rnd' p sched np_sum GS N0 AO LO LO' SM P1 Hr HB.
  destruct (C113_lemma dim (SzInt size) n bg amts buffer rnd ords np_sum GS N0 AO LO SM) as (s & l & g0 & SG & GR & U & F1 & F2). cbn [grid_size] in SG.
  exists s, l. destruct (Z_lt_ge_dec (Z.of_nat (length l)) n) as [LT|GE].
  - exists (Err RuntimeError). split; auto. split; auto. split; [|split; [auto|lia]]. intros f1 f2 B1 B2. unfold grow. rewrite (U f1 f2 B1 B2), (F1 LT). reflexivity.
  - destruct (F2 ltac:(lia)) as (st0 & -> & NU). set (sh := map (fun pa => (fst pa, (IZR n * snd pa / sum (map snd amts))%R)) amts) in *.
    assert (IK : incl (in_turn n sh) (dkeys amts)). { intros q H. apply in_turn_in in H. unfold sh in H. rewrite map_map in H. exact H. }
    destruct (real_finish dim size n bg amts buffer r P b rnd rnd' ords ords' p sched np_sum s st0 GS Hr HB LO' P1 SG (nucleated_config _ _ _ _ _ _ NU IK) U) as (L & BU & IDS & st & Eg & SI & HO & OC).
    exists (Ok (mkSim st s)). split; auto. split; auto. split; auto. split; [lia|]. intros _. exists st. split; auto. split; auto. split; auto.
    intros x i Lx Cx. rewrite (OC x i Lx Cx).
    assert (NB : ~ In bg (in_turn n sh)) by (intros H; apply IK in H; destruct AO as (_ & X & _); contradiction).
    split; intros (d & j & Ld & W & Cd & O); exists d, j; (split; [auto|split; [auto|split; auto]]);
      apply (nucleated_occ RA L s st0 bg _ _ j BU NU NB); auto; apply IDS; exists (shift x d); (split; [rewrite shift_length; congruence|auto]).
Qed.

Lemma C113_grow_float_lemma : forall dim size s n bg amts buffer r P b b' rnd ords ords' rnd' p sched np_sum,
  fl_setup dim (SzInt size) s -> 0 <= n -> fl_amounts bg amts -> (n + 1) * (Z.of_nat (length amts) + 2) <= 2 ^ 44 ->
  (forall t, legal (ords t)) -> (forall t, legal (ords' t)) -> summation FA np_sum -> 1 <= p -> 0 <= r <= 2 ^ 20 ->
  fl_builder dim r P b -> b' = Some b \/ (b' = None /\ r = 1 /\ P = within_moore) -> fl_buffer (repeat size dim) buffer ->
  exists l g, greedy (fl_too_near (repeat size dim) s buffer) (candidates rnd (Z.of_nat (length (sites s None))) (1000 * n + 1)) l /\
    (forall f1 f2, (n + 1) * Z.of_nat (length amts) <= Z.of_nat f1 -> 1000 * n + 2 <= Z.of_nat f2 ->
      grow FA f1 f2 np_sum rnd ords ords' rnd' p sched (Z.of_nat dim) size n bg amts b' buffer = Some g) /\
    (Z.of_nat (length l) < n -> g = Err RuntimeError) /\
    (n <= Z.of_nat (length l) -> lost size r -> g = Err TypeError) /\
    (n <= Z.of_nat (length l) -> ~ lost size r -> exists st, g = Ok (mkSim st s) /\ site_ids st = map (fun x => KInt (s_id x)) (sites s None) /\
       (forall i x, get_site s i = Some x -> exists q, holds st i q /\ (q = bg \/ In q (dkeys amts))) /\
       forall x i, length x = dim -> fl_cell (repeat size dim) s x i ->
         (occupied bg st i <-> exists d j, length d = dim /\ P (r * size) d /\ fl_cell (repeat size dim) s (shift x d) j /\ In j (firstn (Z.to_nat n) l))).
Proof.
  intros dim size s n bg amts buffer r P b b' rnd ords ords' rnd' p sched np_sum FG N0 AM SMALL LO LO' SM P1 Hr HB HB' FB.
  destruct (C113_float_lemma dim (SzInt size) s n bg amts buffer rnd ords np_sum FG N0 AM SMALL LO SM FB) as (l & g0 & GR & U & F1 & F2).
  destruct (setup_facts dim (SzInt size) s FG) as (Hk & FS & Ld & _ & L & BU). cbn [grid_size] in *.
  assert (D0 : (0 < dim)%nat) by (destruct FG as (([->| ->] & _) & _); lia).
  assert (S0 : 0 < size). { rewrite Forall_forall in Hk. specialize (Hk size). assert (In size (repeat size dim)) by (destruct dim; [lia|simpl; auto]). specialize (Hk H). lia. }
  assert (HB1 : fl_builder (length (repeat size dim)) r P b) by (now rewrite Ld).
  pose proof (growth_builder _ s r P b b' Hk FS HB1 HB') as GN. destruct (torus_builder _ s Hk FS r P b Hr HB1) as [BO BL].
  exists l. destruct (Z_lt_ge_dec (Z.of_nat (length l)) n) as [LT|GE].
  { exists (Err RuntimeError). split; auto. split; [|split; [auto|split; lia]]. intros f1 f2 B1 B2. unfold grow. rewrite (U f1 f2 B1 B2), (F1 LT). reflexivity. }
  destruct (F2 ltac:(lia)) as (st0 & -> & NU).
  destruct (growth_nbhood FA s b') as [N|e] eqn:EN.
  - assert (NL : ~ lost size r).
    { intros LL. rewrite BL in GN; [discriminate|]. apply Exists_exists. exists size. split; auto. destruct dim; [lia|simpl; auto]. }
    destruct BO as (N' & EN' & HN). { apply Forall_forall. intros m Hm. apply repeat_spec in Hm. now subst. }
    assert (N' = N) by congruence. subst N'.
    assert (IK : incl (in_turn n (computed_shares n amts np_sum)) (dkeys amts)). { intros q H. apply in_turn_in in H. unfold computed_shares in H. rewrite map_map in H. exact H. }
    assert (NB : ~ In bg (in_turn n (computed_shares n amts np_sum))) by (intros H; apply IK in H; destruct AM as (_ & X & _); contradiction).
    pose proof (nucleated_config _ _ _ _ _ _ NU IK) as CF.
    destruct (finish FA s L dim size n bg amts buffer b' rnd rnd' ords ords' p sched np_sum st0 N (fl_cell (repeat size dim) s) (fun k => P (r * Z.of_nat k))) as (st & Eg & SI & HO & OC); auto.
    + intros x Lx. apply torus_total; auto. congruence.
    + intros x i (c & (Lx & _) & _). rewrite extents_length in Lx. congruence.
    + intros x y i j Cx Cy. rewrite <- (cube_extents dim size) at 1. now apply (torus_same _ s Hk FS).
    + intros i. rewrite (torus_ids _ s Hk FS), Ld. reflexivity.
    + rewrite <- Ld. apply (builder_balls _ r P b); auto. lia.
    + intros x i Lx Cx. rewrite Z.mul_1_r. specialize (HN x i ltac:(congruence) Cx). rewrite Ld in HN. exact HN.
    + exists (Ok (mkSim st s)). split; auto. split; auto. split; [lia|]. split; [intros; contradiction|]. intros _ _. exists st. do 3 (split; auto).
      intros x i Lx Cx. rewrite (OC x i Lx Cx), Z2Nat.id by lia.
      split; intros (d & j & Ldd & W & Cd & O); exists d, j; (split; [auto|split; [auto|split; auto]]);
        apply (nucleated_occ FA L s st0 bg _ _ j BU NU NB); auto; apply (torus_ids _ s Hk FS); exists (shift x d); (split; [rewrite shift_length; congruence|auto]).
  - exists (Err e). split; auto. split; [intros f1 f2 H1 H2; unfold grow; rewrite (U f1 f2 H1 H2); cbn [bind sim_struct]; rewrite EN; reflexivity|]. split; [lia|]. split.
    + intros _ LL. rewrite BL in GN; [injection GN as ->; auto|]. apply Exists_exists. exists size. split; auto. destruct dim; [lia|simpl; auto].
    + intros _ NL. destruct BO as (N' & EN' & _); [|congruence]. apply Forall_forall. intros m Hm. apply repeat_spec in Hm. now subst.
Qed.
