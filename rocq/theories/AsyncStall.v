(** Pseudo-pentagonal neighbourhoods under asynchronous growth: bounds, and runs in which nothing grows (C125). *)
From Coq Require Import Reals Permutation.
From Flocq Require Import Core BinarySingleNaN.
From Verif Require Import Prelude Dict Val ValFacts Arith RealArith FloatArith LatticeModel StructModel StateModel ResultModel RunnerModel NbModel GridModel SimModel SetupModel RulesModel
  SpecState SpecResult SpecRunner SpecGeom SpecNb SpecGrid SpecSetup SpecRules SpecFloat64 SpecDraw SpecVisit StateFacts ResultFacts RunnerFacts StructFacts StructMore NbFacts GridFacts GridMore GridNb NbShapes
  SetupFacts RulesFacts RulesMore AsyncGrow AsyncPath FloatFacts FloatCoord FloatNb FloatMotif FloatTorus DrawFloat AsyncDrawn.
Local Open Scope Z_scope.

(** * Pseudo-pentagonal neighbourhoods *)
Lemma half_lies u d : half_moore u d -> within_moore 1 d.
Proof. now intros [H _]. Qed.

(** The first oracle under which [z] is not a neighbour of [i]. *)
Definition avoiding {F} (N : nbhood F) (z i : Z) (os : list nb_oracle) (dflt : nb_oracle) : nb_oracle :=
  match find (fun o => match neighbors_of o N i with Ok l => negb (existsb (Z.eqb z) l) | Err _ => false end) os with Some o => o | None => dflt end.
Lemma avoiding_legal {F} (N : nbhood F) z i os dflt : Forall legal os -> legal dflt -> legal (avoiding N z i os dflt).
Proof. intros H H0. unfold avoiding. destruct (find _ os) as [o|] eqn:E; auto. apply find_some in E as [E _]. rewrite Forall_forall in H. auto. Qed.
Lemma avoiding_not {F} (N : nbhood F) z i os dflt o l : In o os -> neighbors_of o N i = Ok l -> ~ In z l ->
  exists l', neighbors_of (avoiding N z i os dflt) N i = Ok l' /\ ~ In z l'.
Proof.
  intros Ho El Nz. unfold avoiding. destruct (find _ os) as [o'|] eqn:E.
  - apply find_some in E as [_ E]. destruct (neighbors_of o' N i) as [l'|]; [|discriminate]. exists l'. split; auto. intros X. apply negb_true_iff in E.
    assert (existsb (Z.eqb z) l' = true) by (apply existsb_exists; exists z; split; auto; apply Z.eqb_refl). congruence.
  - exfalso. eapply find_none in E; [|exact Ho]. rewrite El in E. apply negb_false_iff in E. apply existsb_exists in E as (x & Hx & E). apply Z.eqb_eq in E. now subst x.
Qed.

Section Stall.
  Context {F : Type} (C : list Z -> Z -> Prop) (m : Z) (w : list Z).
  Hypothesis SAME : forall p q i j, length p = 2%nat -> length q = 2%nat -> C p i -> C q j -> (i = j <-> same_cell w p q).
  Hypothesis LW : length w = 2%nat.
  Hypothesis W3 : Forall (fun k => 3 <= k) w.
  Hypothesis IDS : forall i, In i (zrange 0 m) <-> exists p, length p = 2%nat /\ C p i.

  Lemma next_unique p d d' z : length p = 2%nat -> length d = 2%nat -> length d' = 2%nat -> within_moore 1 d -> within_moore 1 d' -> C (shift p d) z -> C (shift p d') z -> d = d'.
  Proof.
    intros Lp Ld Ld' M M' Cd Cd'.
    assert (S : same_cell w (shift p d) (shift p d')) by (apply (SAME _ _ z z); auto; rewrite shift_length; congruence).
    assert (DIV : forall k a, 3 <= k -> (k | a) -> Z.abs a <= 2 -> a = 0).
    { intros k a Hk [c ->] Ha. destruct (Z.eq_dec c 0) as [->|NZ]; [lia|]. exfalso. assert (k <= Z.abs (c * k)) by (rewrite Z.abs_mul; nia). lia. }
    clear Cd Cd'. destruct p as [|p0 [|p1 []]]; try discriminate. destruct d as [|d0 [|d1 []]]; try discriminate. destruct d' as [|e0 [|e1 []]]; try discriminate.
    destruct w as [|w0 [|w1 []]]; try discriminate. inversion W3 as [|? ? W0 W3']; subst. inversion W3' as [|? ? W1 _]; subst.
    inversion M as [|? ? A0 M1]; subst. inversion M1 as [|? ? A1 _]; subst. inversion M' as [|? ? B0 M1']; subst. inversion M1' as [|? ? B1 _]; subst.
    destruct S as (_ & _ & S). pose proof (S 0%nat _ _ _ eq_refl eq_refl eq_refl) as S0. pose proof (S 1%nat _ _ _ eq_refl eq_refl eq_refl) as S1.
    apply DIV in S0; [|lia|lia]. apply DIV in S1; [|lia|lia]. f_equal; [lia|f_equal; lia].
  Qed.

  Lemma some_way (N : nbhood F) : draws 2 C (direction_of 2) half_moore N ->
    exists os, Forall legal os /\ os <> [] /\ forall i z, In i (zrange 0 m) -> i <> z -> exists o l, In o os /\ neighbors_of o N i = Ok l /\ ~ In z l.
  Proof.
    intros [_ DS].
    destruct (DS [1; 0]) as (o1 & L1 & A1); [split; reflexivity|]. destruct (DS [-1; 0]) as (o2 & L2 & A2); [split; reflexivity|].
    destruct (DS [0; 1]) as (o3 & L3 & A3); [split; reflexivity|]. destruct (DS [0; -1]) as (o4 & L4 & A4); [split; reflexivity|].
    exists [o1; o2; o3; o4]. split; [repeat (apply Forall_cons; [assumption|]); apply Forall_nil|split; [discriminate|]]. intros i z Hi NE. apply IDS in Hi as (p & Lp & Cp).
    destruct (A1 p i Lp Cp) as (l1 & E1 & _ & I1). destruct (A2 p i Lp Cp) as (l2 & E2 & _ & I2). destruct (A3 p i Lp Cp) as (l3 & E3 & _ & I3). destruct (A4 p i Lp Cp) as (l4 & E4 & _ & I4).
    destruct (in_dec Z.eq_dec z l1) as [H1|H1]; [|exists o1, l1; split; [now left|auto]].
    destruct (in_dec Z.eq_dec z l2) as [H2|H2]; [|exists o2, l2; split; [right; now left|auto]].
    destruct (in_dec Z.eq_dec z l3) as [H3|H3]; [|exists o3, l3; split; [right; right; now left|auto]].
    destruct (in_dec Z.eq_dec z l4) as [H4|H4]; [|exists o4, l4; split; [do 3 right; now left|auto]].
    exfalso. apply I1 in H1 as (_ & d1 & D1 & [M1 P1] & C1). apply I2 in H2 as (_ & d2 & D2 & [M2 P2] & C2). apply I3 in H3 as (_ & d3 & D3 & [M3 P3] & C3). apply I4 in H4 as (_ & d4 & D4 & [M4 P4] & C4).
    rewrite (next_unique p d2 d1 z) in P2 by auto. rewrite (next_unique p d3 d1 z) in P3 by auto. rewrite (next_unique p d4 d1 z) in P4 by auto.
    destruct p as [|p0 [|p1 []]]; try discriminate. destruct d1 as [|a [|b []]]; try discriminate. change (0 <= 1 * a + (0 * b + 0)) in P1. change (0 <= -1 * a + (0 * b + 0)) in P2. change (0 <= 0 * a + (1 * b + 0)) in P3. change (0 <= 0 * a + (-1 * b + 0)) in P4. assert (a = 0) by lia. assert (b = 0) by lia. subst.
    apply NE. apply (proj2 (SAME [p0; p1] (shift [p0; p1] [0; 0]) i z eq_refl eq_refl Cp C1)). cbn. rewrite !Z.add_0_r. split; [cbn; congruence|]. split; [cbn; congruence|].
    intros k x y y' _ Ey Ey'. assert (y = y') by congruence. subst. exists 0. lia.
  Qed.

  Lemma stalls (N : nbhood F) bg rnd c0 z init n : 0 < m -> draws 2 C (direction_of 2) half_moore N -> has_neighbours (zrange 0 m) N -> phased (zrange 0 m) init ->
    (forall i, In i (zrange 0 m) -> (occupied bg init i <-> i = z)) ->
    exists ords, (forall t, legal (ords t)) /\ exists o, run_async (growth_controller N bg ords rnd) c0 init n = Ok o /\ rlen (o_result o) = Z.max 0 n + 1 /\
      forall t, 0 <= t <= Z.max 0 n -> exists st, get_step (o_result o) t = Ok st /\ phased (zrange 0 m) st /\ forall i, In i (zrange 0 m) -> (occupied bg st i <-> i = z).
  Proof.
    intros MP DR HN PI ONE. destruct (some_way N DR) as (os & LO & NE & WAY). destruct os as [|o0 os']; [congruence|]. set (os := o0 :: os') in *. assert (L0 : legal o0) by (inversion LO; auto).
    set (ords := fun c => avoiding N z (Z.of_nat (rnd (c - 1)%nat) mod m) os o0).
    assert (LA : forall t, legal (ords t)) by (intros t; now apply avoiding_legal). exists ords. split; auto.
    destruct (C124_lemma F N bg ords rnd m c0 init n LA MP HN PI) as (o & Eo & RL & GS). exists o. split; auto. split; auto.
    intros t Ht. destruct (GS t Ht) as (st & Est & PS & OC). exists st. split; auto. split; auto. intros i Hi. rewrite (OC i Hi). clear OC.
    split; [|intros ->; constructor; now apply ONE].
    assert (G : forall T i, reached (occupied bg init) (fun k => Z.of_nat (rnd (c0 + 2 * k)%nat) mod m) (fun k i j => exists l, neighbors_of (ords (S (c0 + 2 * k))) N i = Ok l /\ In j l) T i -> In i (zrange 0 m) -> i = z).
    { clear i Hi st Est PS t Ht. intros T i R. induction R as [t i H|t k j Hk B R IH]; intros Hi; [now apply ONE|].
      destruct B as (l & El & Hj). destruct (Z.eq_dec (Z.of_nat (rnd (c0 + 2 * k)%nat) mod m) z) as [E|NZ]; auto. exfalso.
      assert (Hj' : In j (zrange 0 m)) by (destruct (HN (ords (S (c0 + 2 * k))) _ (LA _) Hi) as (l' & El' & IN); rewrite El in El'; injection El' as <-; auto).
      assert (j = z) by auto. subst j. destruct (WAY _ z Hi NZ) as (o1 & l1 & Ho1 & El1 & N1). destruct (avoiding_not N z _ os o0 o1 l1 Ho1 El1 N1) as (l' & El' & N').
      unfold ords in El. replace (S (c0 + 2 * k) - 1)%nat with (c0 + 2 * k)%nat in El by lia. rewrite El in El'. injection El' as <-. now apply N'. }
    intros R. now apply (G _ _ R).
  Qed.
End Stall.

Lemma square_cells size s : square_grid size s -> let m := Z.of_nat (length (sites s None)) in 0 < m /\
  (forall i, In i (zrange 0 m) <-> exists p, length p = length size /\ cell s p i) /\
  (forall p q d i j, length p = length size -> length q = length size -> length d = length size -> cell s p i -> cell s q i -> cell s (shift p d) j -> cell s (shift q d) j).
Proof.
  intros SG m. destruct (square_facts _ _ SG) as [L G].
  assert (ID0 : map s_id (sites s None) = zrange 0 m) by apply (built_dense RA L s (gf_built _ _ _ G)). split; [|split].
  - pose proof (gf_count _ _ _ G) as CT; pose proof (prod_pos _ (gf_pos _ _ _ G)); unfold m; lia.
  - intros i. rewrite <- ID0. split.
    + intros Hi. apply (get_site_ids RA L s i (gf_built _ _ _ G)) in Hi as [z Gz]. destruct (site_cell _ _ _ _ _ G Gz) as (p & Lp & _ & _ & Cp & _). eauto.
    + intros (p & Lp & Cp). apply (get_site_ids RA L s i (gf_built _ _ _ G)). unfold cell, id_at in Cp.
      apply bind_Ok in Cp as (o & X & Cp). destruct o as [y|]; [|discriminate]. injection Cp as <-. exists y.
      pose proof (site_at_found RA L s _ y (gf_built _ _ _ G) X) as H. destruct (built_inv RA L s (gf_built _ _ _ G)) as [h I]. apply (inv_get_site RA L h s _ y I). auto.
  - intros p q d i j Lp Lq Ld Cp Cq Cs. apply (cell_same size s L (shift p d)); auto; [rewrite shift_length; congruence|]. apply same_shift; [now rewrite extents_length|].
    apply (cell_iff size s L p q i i); auto.
Qed.

Lemma pent_square size s b N : square_grid size s -> length size = 2%nat -> PseudoPentagonalNeighborhoodBuilder RA = Ok b -> growth_nbhood RA s (Some b) = Ok N ->
  draws 2 (cell s) (direction_of 2) half_moore N.
Proof.
  intros SG D Eb EN. unfold growth_nbhood in EN. cbn [bind] in EN. destruct (C42_shapes_lemma size s SG) as [H2 _]. destruct (proj2 (H2 D)) as (b1 & N1 & Eb1 & EN' & T).
  assert (b = b1) by congruence. subst. assert (N = N1) by congruence. subst. unfold draws_shape in T. rewrite D in T. exact T.
Qed.
Lemma pent_float size s b : Forall (fun m => 1 <= m <= 2 ^ 20) size -> fl_square size s -> Forall (fun m => ~ falls_short m m) size -> length size = 2%nat -> PseudoPentagonalNeighborhoodBuilder FA = Ok b ->
  exists N, growth_nbhood FA s (Some b) = Ok N /\ draws 2 (fl_cell size s) (direction_of 2) half_moore N.
Proof.
  intros Hk FS NL D Eb. unfold growth_nbhood. cbn [bind]. destruct (C123_lemma size s Hk FS) as [H2 _]. destruct (proj2 (H2 D)) as (b1 & Eb1 & T & _). assert (b = b1) by congruence. subst.
  destruct (T NL) as (N & EN & T'). exists N. split; auto. unfold fl_draws_shape in T'. rewrite D in T'. exact T'.
Qed.

Lemma kept_between {F} C m (N : nbhood F) bg ords rnd c0 init n : (forall t, legal (ords t)) -> 0 < m -> (forall i, In i (zrange 0 m) <-> exists p, length p = 2%nat /\ C p i) ->
  (forall p q d i j, length p = 2%nat -> length q = 2%nat -> length d = 2%nat -> C p i -> C q i -> C (shift p d) j -> C (shift q d) j) ->
  draws 2 C (direction_of 2) half_moore N -> phased (zrange 0 m) init ->
  exists o, run_async (growth_controller N bg ords rnd) c0 init n = Ok o /\ rlen (o_result o) = Z.max 0 n + 1 /\
    forall t, 0 <= t <= Z.max 0 n -> exists st, get_step (o_result o) t = Ok st /\ phased (zrange 0 m) st /\
      forall i, In i (zrange 0 m) -> (occupied bg init i -> occupied bg st i) /\
        (occupied bg st i -> exists j l, occupied bg init j /\ walk (offset_by C 2 (within_moore 1)) j l i /\ in_order l (map (fun k => Z.of_nat (rnd (c0 + 2 * k)%nat) mod m) (seq 0 (Z.to_nat t)))).
Proof.
  intros LO MP IDS SHI DR PH.
  destruct (C124_between_lemma _ N bg ords rnd m c0 init n (fun _ _ => False) (offset_by C 2 (within_moore 1)) LO MP) as (o & Eo & RL & GS); auto.
  - exact (drawn_has 2 C m IDS _ _ N DR).
  - intros o i l j Lo Hi El. split; [intros []|]. apply (drawn_between 2 C m SHI IDS _ _ N (fun _ => False) (within_moore 1) DR) with (o := o); auto. intros e d _ _. split; [intros []|apply half_lies].
  - exists o. split; auto. split; auto. intros t Ht. destruct (GS t Ht) as (st & Est & PS & OC). exists st. split; auto. split; auto. intros i Hi. destruct (OC i Hi) as [A B]. split; auto.
    intros H. apply A. exists i, []. split; auto. split; [reflexivity|apply in_order_nil_l].
Qed.

Lemma C125_lemma : forall size s b N bg rnd c0 init n, square_grid size s -> length size = 2%nat -> PseudoPentagonalNeighborhoodBuilder RA = Ok b -> growth_nbhood RA s (Some b) = Ok N ->
  let m := Z.of_nat (length (sites s None)) in phased (zrange 0 m) init ->
  (forall ords, (forall t, legal (ords t)) ->
     exists o, run_async (growth_controller N bg ords rnd) c0 init n = Ok o /\ rlen (o_result o) = Z.max 0 n + 1 /\
       forall t, 0 <= t <= Z.max 0 n -> exists st, get_step (o_result o) t = Ok st /\ phased (zrange 0 m) st /\
         forall i, In i (zrange 0 m) -> (occupied bg init i -> occupied bg st i) /\
           (occupied bg st i -> exists j l, occupied bg init j /\ walk (offset_by (cell s) 2 (within_moore 1)) j l i /\ in_order l (map (fun k => Z.of_nat (rnd (c0 + 2 * k)%nat) mod m) (seq 0 (Z.to_nat t))))) /\
  (forall z, Forall (fun k => 3 <= k) size -> (forall i, In i (zrange 0 m) -> (occupied bg init i <-> i = z)) ->
     exists ords, (forall t, legal (ords t)) /\ exists o, run_async (growth_controller N bg ords rnd) c0 init n = Ok o /\ rlen (o_result o) = Z.max 0 n + 1 /\
       forall t, 0 <= t <= Z.max 0 n -> exists st, get_step (o_result o) t = Ok st /\ phased (zrange 0 m) st /\ forall i, In i (zrange 0 m) -> (occupied bg st i <-> i = z)).
Proof.
  intros size s b N bg rnd c0 init n SG D Eb EN m PH. destruct (square_cells size s SG) as (MP & IDS & SHI). rewrite D in *. pose proof (pent_square size s b N SG D Eb EN) as DR. split.
  - intros ords LO. now apply (kept_between (cell s) m).
  - intros z W3 ONE. apply (stalls (cell s) m (extents size)); auto.
    + intros p q i j Lp Lq Cp Cq. destruct (square_facts _ _ SG) as [L G]. apply (cell_iff size s L); congruence || auto.
    + now rewrite extents_length.
    + rewrite Forall_forall in *. intros k Hk. apply W3. now apply extents_In.
    + exact (drawn_has 2 (cell s) m IDS _ _ N DR).
Qed.

Lemma C125_float_lemma : forall size s b bg rnd c0 init n, Forall (fun m => 1 <= m <= 2 ^ 20) size -> fl_square size s -> Forall (fun m => ~ falls_short m m) size ->
  length size = 2%nat -> PseudoPentagonalNeighborhoodBuilder FA = Ok b ->
  let m := Z.of_nat (length (sites s None)) in phased (zrange 0 m) init ->
  exists N, growth_nbhood FA s (Some b) = Ok N /\
  (forall ords, (forall t, legal (ords t)) ->
     exists o, run_async (growth_controller N bg ords rnd) c0 init n = Ok o /\ rlen (o_result o) = Z.max 0 n + 1 /\
       forall t, 0 <= t <= Z.max 0 n -> exists st, get_step (o_result o) t = Ok st /\ phased (zrange 0 m) st /\
         forall i, In i (zrange 0 m) -> (occupied bg init i -> occupied bg st i) /\
           (occupied bg st i -> exists j l, occupied bg init j /\ walk (offset_by (fl_cell size s) 2 (within_moore 1)) j l i /\ in_order l (map (fun k => Z.of_nat (rnd (c0 + 2 * k)%nat) mod m) (seq 0 (Z.to_nat t))))) /\
  (forall z, Forall (fun k => 3 <= k) size -> (forall i, In i (zrange 0 m) -> (occupied bg init i <-> i = z)) ->
     exists ords, (forall t, legal (ords t)) /\ exists o, run_async (growth_controller N bg ords rnd) c0 init n = Ok o /\ rlen (o_result o) = Z.max 0 n + 1 /\
       forall t, 0 <= t <= Z.max 0 n -> exists st, get_step (o_result o) t = Ok st /\ phased (zrange 0 m) st /\ forall i, In i (zrange 0 m) -> (occupied bg st i <-> i = z)).
Proof.
  intros size s b bg rnd c0 init n Hk FS NL D Eb m PH. destruct (pent_float size s b Hk FS NL D Eb) as (N & EN & DR). exists N. split; auto.
  pose proof (torus_dense size s Hk FS : map s_id (sites s None) = zrange 0 m) as ID0.
  assert (IDS : forall i, In i (zrange 0 m) <-> exists p, length p = 2%nat /\ fl_cell size s p i) by (intros i; rewrite <- ID0, <- D; now apply torus_ids).
  assert (SHI : forall p q d i j, length p = 2%nat -> length q = 2%nat -> length d = 2%nat -> fl_cell size s p i -> fl_cell size s q i -> fl_cell size s (shift p d) j -> fl_cell size s (shift q d) j) by (rewrite <- D; now apply torus_shift).
  assert (MP : 0 < m). { destruct (torus_total size s Hk FS (repeat 0 (length size)) (repeat_length _ _)) as (i & Ci). assert (X : In i (zrange 0 m)) by (apply IDS; exists (repeat 0 (length size)); split; auto; now rewrite repeat_length). apply zrange_In in X. lia. }
  split.
  - intros ords LO. now apply (kept_between (fl_cell size s) m).
  - intros z W3 ONE. apply (stalls (fl_cell size s) m (extents size)); auto.
    + intros p q i j _ _ Cp Cq. now apply (torus_same size s).
    + now rewrite extents_length.
    + rewrite Forall_forall in *. intros k Hk'. apply W3. now apply extents_In.
    + exact (drawn_has 2 (fl_cell size s) m IDS _ _ N DR).
Qed.

(** * A state with one nucleus, for the examples *)
Definition seed_state (m z : Z) : sstate :=
  mkS (map (fun i => (KInt i, [(KStr "_site_id", VInt i); (KStr "DISCRETE_OCCUPANCY", VStr (if i =? z then "a" else "bg"))])) (zrange 0 m)) [].
Lemma seed_facts m z : phased (zrange 0 m) (seed_state m z) /\ swf (seed_state m z) /\ forall i, In i (zrange 0 m) -> (occupied "bg" (seed_state m z) i <-> i = z).
Proof.
  assert (G : forall i, In i (zrange 0 m) -> get_site_state (seed_state m z) (KInt i) = Some [(KStr "_site_id", VInt i); (KStr "DISCRETE_OCCUPANCY", VStr (if i =? z then "a" else "bg"))]).
  { intros i Hi. unfold get_site_state, seed_state. cbn [s_sites]. induction (zrange 0 m) as [|a l IH]; [destruct Hi|]. cbn [map dget]. destruct (eqb_spec (KInt i) (KInt a)) as [E|E].
    - injection E as ->. reflexivity.
    - destruct Hi as [->|Hi]; [congruence|]. auto. }
  assert (H : forall i, In i (zrange 0 m) -> holds (seed_state m z) i (if i =? z then "a" else "bg")) by (intros i Hi; unfold holds, site_entry; rewrite G by auto; reflexivity).
  assert (IDS : dkeys (s_sites (seed_state m z)) = map KInt (zrange 0 m)) by (unfold seed_state, dkeys; cbn [s_sites]; rewrite map_map; reflexivity).
  split; [|split].
  - split; [exact IDS|eauto].
  - split; [|split; [|constructor]].
    + unfold uniq. rewrite IDS. apply nodup_keys, zrange_NoDup.
    + intros i d Hd. assert (Hi : In i (map KInt (zrange 0 m))) by (rewrite <- IDS; apply dget_In in Hd; apply in_map_iff; exists (i, d); auto).
      apply in_map_iff in Hi as (a & <- & Ha). rewrite G in Hd by auto. injection Hd as <-. repeat constructor; cbn; intuition discriminate.
  - intros i Hi. split.
    + intros (p & Hp & NB). pose proof (H i Hi) as H'. unfold holds in *. rewrite Hp in H'. injection H' as ->. destruct (Z.eqb_spec i z); auto. congruence.
    + intros ->. exists "a"%string. split; [|discriminate]. pose proof (H z Hi) as H'. now rewrite Z.eqb_refl in H'.
Qed.
