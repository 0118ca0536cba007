(** Serial growth with neighbourhoods that are drawn anew: which draw is used where (C126). *)
From Coq Require Import Reals Permutation.
From Flocq Require Import Core BinarySingleNaN.
From Verif Require Import Prelude Dict Val ValFacts Arith RealArith FloatArith LatticeModel StructModel StateModel ResultModel RunnerModel NbModel GridModel SimModel SetupModel RulesModel
  SpecState SpecResult SpecRunner SpecCalls SpecGeom SpecNb SpecGrid SpecSetup SpecRules SpecFloat64 SpecDraw SpecVisit StateFacts ResultFacts RunnerFacts CallFacts StructFacts StructMore NbFacts GridFacts GridMore GridNb NbShapes
  SetupFacts RulesFacts RulesMore AsyncGrow AsyncPath FloatFacts FloatCoord FloatNb FloatMotif FloatTorus DrawFloat AsyncDrawn AsyncStall.
Local Open Scope Z_scope.

(** * Counting calls *)
Lemma calls_at (ctl : controller nat) : (forall c id s v c', c_update ctl c id s = Ok (v, c') -> c' = S c) ->
  forall l c c', calls ctl c l c' -> Forall (fun x => exists id s v, x = CUpdate id s v) l ->
  forall k id s v, nth_error l k = Some (CUpdate id s v) -> c_update ctl (c + k)%nat id s = Ok (v, S (c + k)).
Proof.
  intros INC l c c' H. induction H as [c|c s c1 l c2 E H IH|c s v c1 l c2 E H IH|c id s v c1 l c2 E H IH]; intros FA k id0 s0 v0 Ek.
  - destruct k; discriminate.
  - inversion FA as [|? ? (i & x & y & X) _]; discriminate.
  - inversion FA as [|? ? (i & x & y & X) _]; discriminate.
  - inversion FA; subst. pose proof (INC _ _ _ _ _ E) as ->. destruct k as [|k]; cbn [nth_error] in Ek.
    + injection Ek as <- <- <-. now rewrite Nat.add_0_r.
    + replace (c + S k)%nat with (S c + k)%nat by lia. auto.
Qed.
Lemma flat_map_nth {A B} (f : A -> list B) L : forall tr t x k, (forall y, In y tr -> length (f y) = L) -> nth_error tr t = Some x -> (k < L)%nat ->
  nth_error (flat_map f tr) (t * L + k) = nth_error (f x) k.
Proof.
  induction tr as [|a tr IH]; intros [|t] x k HL Et Hk; try discriminate; cbn [flat_map nth_error] in *.
  - injection Et as ->. cbn. apply nth_error_app1. rewrite HL; [auto|now left].
  - assert (LA : length (f a) = L) by (apply HL; now left). rewrite nth_error_app2 by (cbn; lia). replace (S t * L + k - length (f a))%nat with (t * L + k)%nat by (cbn; lia). apply IH; auto. intros y Hy. apply HL. now right.
Qed.

Section Serial.
  Context {F : Type} (N : nbhood F) (bg : string) (ords : nat -> @nb_oracle F) (rnd : nat -> nat) (ids : list Z).
  Notation ctl := (growth_controller N bg ords rnd).

  Lemma grow_step c id s v c' : c_update ctl c id s = Ok (v, c') -> c' = S c.
  Proof.
    cbn [c_update growth_controller]. unfold growth_update. intros E. apply bind_Ok in E as (cur & _ & E). destruct (val_eqb cur (VStr bg)); [|now injection E].
    apply bind_Ok in E as (nbs & _ & E). apply bind_Ok in E as (counts & _ & E). destruct counts; now injection E.
  Qed.
  Lemma grow_rule : own_rule ctl.
  Proof.
    intros c id s v c' E. cbn [c_update growth_controller] in E. unfold growth_update in E. apply bind_Ok in E as (cur & _ & E).
    assert (NIL : exists u, own_answer id (VDict []) u /\ uniq u).
    { exists []. split; [right; split; [discriminate|]; apply means_site; [split; reflexivity|intros [H _]; congruence]|constructor]. }
    destruct (val_eqb cur (VStr bg)); [|injection E as <- _; exact NIL].
    apply bind_Ok in E as (nbs & _ & E). apply bind_Ok in E as (counts & _ & E). destruct counts as [|kc counts]; injection E as <- _; [exact NIL|].
    eexists. split; [right; split; [discriminate|]; apply means_site; [split; reflexivity|]|].
    - intros [_ H]. destruct (H (KStr "DISCRETE_OCCUPANCY")) as [z E]; [simpl; auto|discriminate].
    - constructor; [intros []|constructor].
  Qed.
  Lemma own_exact id u0 u : grow_upd id u0 -> own_answer id (VDict u0) u -> u = u0.
  Proof.
    intros G [[X _]|[_ M]]; [discriminate|]. inversion M as [|x A B|x A B|b S G' A B]; subst; auto.
    - exfalso. destruct G as [G|(q & G)]; discriminate.
    - exfalso. destruct G as [->|(q & ->)]; cbn in A; destruct A as [A|[_ A]]; discriminate.
  Qed.

  Lemma serial_draws c0 init n : (forall t, legal (ords t)) -> NoDup ids -> ids <> [] -> has_neighbours ids N -> phased ids init -> swf init ->
    exists o, run_sync ctl c0 init n = Ok o /\ rlen (o_result o) = Z.max 0 n + 1 /\
      forall t, 0 <= t <= Z.max 0 n -> exists st, get_step (o_result o) t = Ok st /\ phased ids st /\
        (t < Z.max 0 n -> exists st', get_step (o_result o) (t + 1) = Ok st' /\
           forall k i, nth_error ids k = Some i -> exists l, neighbors_of (ords (c0 + Z.to_nat t * length ids + k)%nat) N i = Ok l /\
             (forall p, holds st i p -> p <> bg -> holds st' i p) /\
             (holds st i bg -> (forall j, In j l -> holds st j bg) -> holds st' i bg) /\
             (holds st i bg -> (exists j, In j l /\ occupied bg st j) ->
                exists q, holds st' i q /\ q <> bg /\ 0 < count_in st l q /\ forall r, r <> bg -> count_in st l r <= count_in st l q)).
  Proof.
    intros LO NI NE HN PI W. destruct (C55_lemma F N bg ords rnd ids c0 init n LO NI NE HN PI) as (o & Eo & RL & GS). exists o. split; auto. split; auto.
    destruct (C109_sync_lemma _ _ _ _ _ _ Eo) as (tr & c' & LT & CA & TR).
    assert (ST : forall t s vs, nth_error tr t = Some (s, vs) -> phased ids s /\ length vs = length ids /\ site_ids s = map KInt ids).
    { intros t s vs Et. destruct (TR t s vs Et) as (G & LV & _). assert (LL : (t < length tr)%nat) by (apply nth_error_Some; congruence).
      destruct (GS (Z.of_nat t)) as (st & G' & PS & _); [lia|]. rewrite G in G'. injection G' as <-. split; auto. destruct PS as [SI _]. rewrite SI in LV. now rewrite map_length in LV. }
    intros t Ht. destruct (GS t Ht) as (st & Est & PS & _). exists st. split; auto. split; auto. intros Hn.
    assert (LL : (Z.to_nat t < length tr)%nat) by lia. destruct (nth_error tr (Z.to_nat t)) as [[s vs]|] eqn:Et; [|apply nth_error_None in Et; lia].
    destruct (TR _ _ _ Et) as (G & LV & OWN). rewrite Z2Nat.id in G, OWN by lia. rewrite Est in G. injection G as <-. destruct (OWN grow_rule W) as (st' & Est' & EF). exists st'. split; auto.
    destruct (ST _ _ _ Et) as (_ & LV' & SI). intros k i Ek. assert (Hi : In i ids) by (eapply nth_error_In; eauto). assert (Hk : (k < length ids)%nat) by (apply nth_error_Some; congruence).
    set (c := (c0 + Z.to_nat t * length ids + k)%nat). destruct (HN (ords c) i (LO c) Hi) as (l & El & IL). exists l. split; auto.
    destruct (nth_error vs k) as [v|] eqn:Ev; [|apply nth_error_None in Ev; lia].
    assert (Ek' : nth_error (site_ids st) k = Some (KInt i)) by (rewrite SI; now apply map_nth_error).
    destruct (EF k (KInt i) v Ek' Ev) as (u & OA & UE).
    inversion CA as [|? ? c1 ? ? P CA'| |]; subst. cbn in P. injection P as <-.
    assert (CALL : nth_error (flat_map (fun sv => asked (fst sv) (site_ids (fst sv)) (snd sv)) tr) (Z.to_nat t * length ids + k) = Some (CUpdate (KInt i) st v)).
    { rewrite (flat_map_nth _ (length ids) tr (Z.to_nat t) (st, vs) k); auto.
      - cbn [fst snd]. unfold asked. rewrite nth_error_map. assert (X : nth_error (combine (site_ids st) vs) k = Some (KInt i, v)).
        { clear -Ek' Ev. revert vs k Ek' Ev. induction (site_ids st) as [|a q IH]; intros [|b vs] [|k] E1 E2; cbn in *; try discriminate; [congruence|auto]. }
        now rewrite X.
      - intros [s' vs'] Hs. apply In_nth_error in Hs as [t' Et']. destruct (ST _ _ _ Et') as (_ & L1 & L2). cbn [fst snd]. unfold asked. rewrite map_length, combine_length, L2, map_length, L1. lia. }
    assert (CU : c_update ctl c (KInt i) st = Ok (v, S c)).
    { unfold c. rewrite <- Nat.add_assoc. refine (calls_at ctl grow_step _ _ _ CA' _ _ _ _ _ CALL). apply Forall_forall. intros x Hx. apply in_flat_map in Hx as (sv & _ & Hx). unfold asked in Hx. apply in_map_iff in Hx as (iv & <- & _). eauto. }
    destruct (C54_lemma F N bg ords rnd c i st l El (proj2 PS i Hi)) as (u0 & CU0 & U1 & U2 & U3); [intros j Hj; apply PS, IL, Hj|].
    rewrite CU in CU0. injection CU0 as ->.
    assert (GU : grow_upd (KInt i) u0).
    { destruct (proj2 PS i Hi) as (p & Hp). destruct (eqb_spec p bg) as [->|NB].
      - destruct (forallb (fun j => match site_entry st (KInt j) (KStr "DISCRETE_OCCUPANCY") with Some (VStr q) => String.eqb q bg | _ => false end) l) eqn:FB.
        + left. apply U2; auto. intros j Hj. rewrite forallb_forall in FB. specialize (FB j Hj). destruct (proj2 PS j (IL j Hj)) as (q & Hq). unfold holds in Hq. rewrite Hq in FB. apply String.eqb_eq in FB. subst q. exact Hq.
        + right. assert (EX : exists j, In j l /\ occupied bg st j).
          { apply Bool.not_true_iff_false in FB. destruct (existsb (fun j => negb (match site_entry st (KInt j) (KStr "DISCRETE_OCCUPANCY") with Some (VStr q) => String.eqb q bg | _ => false end)) l) eqn:EB.
            - apply existsb_exists in EB as (j & Hj & EB). exists j. split; auto. destruct (proj2 PS j (IL j Hj)) as (q & Hq). exists q. split; auto. unfold holds in Hq. rewrite Hq in EB. intros ->. now rewrite String.eqb_refl in EB.
            - exfalso. apply FB. apply forallb_forall. intros j Hj. destruct (match site_entry st (KInt j) (KStr "DISCRETE_OCCUPANCY") with Some (VStr q) => String.eqb q bg | _ => false end) eqn:X; auto.
              exfalso. apply Bool.not_true_iff_false in EB. apply EB. apply existsb_exists. exists j. split; auto. now rewrite X. }
          destruct (U3 Hp EX) as (q & -> & _). eauto.
      - left. apply U1. exists p. auto. }
    pose proof (own_exact _ _ _ GU OA) as ->.
    assert (KEEP : u0 = [] -> forall p, holds st i p -> holds st' i p). { intros -> p Hp. unfold holds in *. rewrite UE. exact Hp. }
    split; [|split].
    - intros p Hp NB. apply KEEP; auto. apply U1. exists p. auto.
    - intros Hb HL. apply KEEP; auto.
    - intros Hb EX. destruct (U3 Hb EX) as (q & -> & NQ & CQ & MQ). exists q. split; [|auto]. unfold holds. rewrite UE. reflexivity.
  Qed.
End Serial.

Lemma C126_lemma : forall F (N : nbhood F) bg ords rnd ids c0 init n,
  (forall t, legal (ords t)) -> NoDup ids -> ids <> [] -> has_neighbours ids N -> phased ids init -> swf init ->
  exists o, run_sync (growth_controller N bg ords rnd) c0 init n = Ok o /\ rlen (o_result o) = Z.max 0 n + 1 /\
    forall t, 0 <= t <= Z.max 0 n -> exists st, get_step (o_result o) t = Ok st /\ phased ids st /\
      (t < Z.max 0 n -> exists st', get_step (o_result o) (t + 1) = Ok st' /\
         forall k i, nth_error ids k = Some i -> exists l, neighbors_of (ords (c0 + Z.to_nat t * length ids + k)%nat) N i = Ok l /\
           (forall p, holds st i p -> p <> bg -> holds st' i p) /\
           (holds st i bg -> (forall j, In j l -> holds st j bg) -> holds st' i bg) /\
           (holds st i bg -> (exists j, In j l /\ occupied bg st j) ->
              exists q, holds st' i q /\ q <> bg /\ 0 < count_in st l q /\ forall r, r <> bg -> count_in st l r <= count_in st l q)).
Proof. intros F N bg ords rnd ids c0 init n. apply serial_draws. Qed.

Section SerialStall.
  Context {F : Type} (C : list Z -> Z -> Prop) (m : Z) (w : list Z).
  Hypothesis SAME : forall p q i j, length p = 2%nat -> length q = 2%nat -> C p i -> C q j -> (i = j <-> same_cell w p q).
  Hypothesis LW : length w = 2%nat.
  Hypothesis W3 : Forall (fun k => 3 <= k) w.
  Hypothesis IDS : forall i, In i (zrange 0 m) <-> exists p, length p = 2%nat /\ C p i.

  Lemma serial_stalls (N : nbhood F) bg rnd c0 z ids init n : 0 < m -> Permutation ids (zrange 0 m) -> draws 2 C (direction_of 2) half_moore N -> phased ids init -> swf init ->
    (forall i, In i ids -> (occupied bg init i <-> i = z)) ->
    exists ords, (forall t, legal (ords t)) /\ exists o, run_sync (growth_controller N bg ords rnd) c0 init n = Ok o /\ rlen (o_result o) = Z.max 0 n + 1 /\
      forall t, 0 <= t <= Z.max 0 n -> exists st, get_step (o_result o) t = Ok st /\ phased ids st /\ forall i, In i ids -> (occupied bg st i <-> i = z).
  Proof.
    intros MP PM DR PI W ONE. destruct (some_way C m w SAME LW W3 IDS N DR) as (os & LO & NE & WAY). destruct os as [|o0 os']; [congruence|]. set (os := o0 :: os') in *. assert (L0 : legal o0) by (inversion LO; auto).
    assert (HIN : forall i, In i ids <-> In i (zrange 0 m)) by (intros i; split; apply Permutation_in; auto using Permutation_sym).
    assert (HN : has_neighbours ids N).
    { intros o i Lo Hi. apply HIN in Hi. destruct (drawn_has 2 C m IDS _ _ N DR o i Lo Hi) as (l & El & IL). exists l. split; auto. intros j Hj. apply HIN, IL, Hj. }
    assert (ND : NoDup ids) by (eapply Permutation_NoDup; [apply Permutation_sym, PM|apply zrange_NoDup]).
    assert (NI : ids <> []). { intros ->. apply Permutation_nil in PM. assert (X : In 0 (zrange 0 m)) by (apply zrange_In; lia). now rewrite PM in X. }
    set (ords := fun c => avoiding N z (nth ((c - c0) mod length ids) ids 0) os o0).
    assert (LA : forall t, legal (ords t)) by (intros t; now apply avoiding_legal). exists ords. split; auto.
    destruct (C126_lemma F N bg ords rnd ids c0 init n LA ND NI HN PI W) as (o & Eo & RL & GS). exists o. split; auto. split; auto.
    assert (ALL : forall T, Z.of_nat T <= Z.max 0 n -> exists st, get_step (o_result o) (Z.of_nat T) = Ok st /\ phased ids st /\ forall i, In i ids -> (occupied bg st i <-> i = z)).
    { induction T as [|T IH]; intros HT.
      - destruct (GS 0) as (st & Est & PS & _); [lia|]. exists st. split; auto. split; auto.
        assert (st = init); [|now subst]. destruct (C55_lemma F N bg ords rnd ids c0 init 0 LA ND NI HN PI) as (o1 & Eo1 & _). unfold run_sync in Eo. cbn in Eo. apply bind_Ok in Eo as ([[lv ds] c1] & _ & Eo). injection Eo as <-. cbn [o_result] in Est. cbn in Est. now injection Est.
      - destruct IH as (st & Est & PS & OC); [lia|]. destruct (GS (Z.of_nat T)) as (st1 & Est1 & _ & NX); [lia|]. rewrite Est in Est1. injection Est1 as <-. destruct NX as (st' & Est' & ST); [lia|].
        exists st'. replace (Z.of_nat (S T)) with (Z.of_nat T + 1) by lia. split; auto.
        destruct (GS (Z.of_nat T + 1)) as (st2 & Est2 & PS2 & _); [lia|]. rewrite Est' in Est2. injection Est2 as <-. split; auto.
        intros i Hi. destruct (In_nth_error _ _ Hi) as [k Ek]. destruct (ST k i Ek) as (l & El & K1 & K2 & _). split.
        + intros (q & Hq & NQ). destruct (Z.eq_dec i z) as [|NZ]; auto. exfalso.
          assert (B : holds st i bg). { destruct (proj2 PS i Hi) as (p & Hp). destruct (eqb_spec p bg) as [->|NB]; auto. exfalso. apply NZ, OC; auto. exists p. auto. }
          assert (HK : (k < length ids)%nat) by (apply nth_error_Some; congruence).
          unfold ords in El. replace (nth ((c0 + Z.to_nat (Z.of_nat T) * length ids + k - c0) mod length ids) ids 0) with i in El.
          2:{ replace (c0 + Z.to_nat (Z.of_nat T) * length ids + k - c0)%nat with (k + Z.to_nat (Z.of_nat T) * length ids)%nat by lia. rewrite Nat.mod_add by lia. rewrite Nat.mod_small by lia. symmetry. now apply nth_error_nth. }
          destruct (WAY i z (proj1 (HIN i) Hi) NZ) as (o1 & l1 & Ho1 & El1 & N1). destruct (avoiding_not N z i os o0 o1 l1 Ho1 El1 N1) as (l' & El' & N'). rewrite El in El'. injection El' as <-.
          assert (B' : holds st' i bg).
          { apply K2; auto. intros j Hj. destruct (HN (ords (c0 + Z.to_nat (Z.of_nat T) * length ids + k)%nat) i (LA _) Hi) as (l2 & El2 & IL). 
            unfold ords in El2. replace (nth ((c0 + Z.to_nat (Z.of_nat T) * length ids + k - c0) mod length ids) ids 0) with i in El2.
            2:{ replace (c0 + Z.to_nat (Z.of_nat T) * length ids + k - c0)%nat with (k + Z.to_nat (Z.of_nat T) * length ids)%nat by lia. rewrite Nat.mod_add by lia. rewrite Nat.mod_small by lia. symmetry. now apply nth_error_nth. }
            rewrite El in El2. injection El2 as <-. destruct (proj2 PS j (IL j Hj)) as (p & Hp). destruct (eqb_spec p bg) as [->|NB]; auto. exfalso. apply N'. replace z with j; auto. apply OC; [now apply IL|]. exists p. auto. }
          unfold holds in *. rewrite B' in Hq. injection Hq as <-. now apply NQ.
        + intros ->. destruct (proj2 (OC z Hi) eq_refl) as (q & Hq & NQ). exists q. auto. }
    intros t Ht. destruct (ALL (Z.to_nat t)) as (st & Est & H); [lia|]. rewrite Z2Nat.id in Est by lia. eauto.
  Qed.
End SerialStall.

Lemma C126_stalls_lemma : forall size s b N bg rnd c0 z ids init n, square_grid size s -> length size = 2%nat -> Forall (fun k => 3 <= k) size ->
  PseudoPentagonalNeighborhoodBuilder RA = Ok b -> growth_nbhood RA s (Some b) = Ok N ->
  Permutation ids (map s_id (sites s None)) -> phased ids init -> swf init -> (forall i, In i ids -> (occupied bg init i <-> i = z)) ->
  exists ords, (forall t, legal (ords t)) /\ exists o, run_sync (growth_controller N bg ords rnd) c0 init n = Ok o /\ rlen (o_result o) = Z.max 0 n + 1 /\
    forall t, 0 <= t <= Z.max 0 n -> exists st, get_step (o_result o) t = Ok st /\ phased ids st /\ forall i, In i ids -> (occupied bg st i <-> i = z).
Proof.
  intros size s b N bg rnd c0 z ids init n SG D W3 Eb EN PM PH W ONE. destruct (square_cells size s SG) as (MP & IDS & SHI). rewrite D in *. pose proof (pent_square size s b N SG D Eb EN) as DR.
  destruct (square_facts _ _ SG) as [L G]. rewrite (built_dense RA L s (gf_built _ _ _ G) : _ = _) in PM.
  apply (serial_stalls (cell s) (Z.of_nat (length (sites s None))) (extents size)); auto.
  - intros p q i j Lp Lq Cp Cq. apply (cell_iff size s L); congruence || auto.
  - now rewrite extents_length.
  - rewrite Forall_forall in *. intros k Hk. apply W3. now apply extents_In.
Qed.

Lemma C126_stalls_float_lemma : forall size s b bg rnd c0 z ids init n, Forall (fun m => 3 <= m <= 2 ^ 20) size -> fl_square size s -> Forall (fun m => ~ falls_short m m) size -> length size = 2%nat ->
  PseudoPentagonalNeighborhoodBuilder FA = Ok b ->
  Permutation ids (map s_id (sites s None)) -> phased ids init -> swf init -> (forall i, In i ids -> (occupied bg init i <-> i = z)) ->
  exists N ords, growth_nbhood FA s (Some b) = Ok N /\ (forall t, legal (ords t)) /\ exists o, run_sync (growth_controller N bg ords rnd) c0 init n = Ok o /\ rlen (o_result o) = Z.max 0 n + 1 /\
    forall t, 0 <= t <= Z.max 0 n -> exists st, get_step (o_result o) t = Ok st /\ phased ids st /\ forall i, In i ids -> (occupied bg st i <-> i = z).
Proof.
  intros size s b bg rnd c0 z ids init n H3 FS NL D Eb PM PH W ONE. assert (Hk : Forall (fun m => 1 <= m <= 2 ^ 20) size) by (eapply Forall_impl; [|exact H3]; cbn; intros; lia).
  destruct (pent_float size s b Hk FS NL D Eb) as (N & EN & DR). exists N. set (m := Z.of_nat (length (sites s None))).
  pose proof (torus_dense size s Hk FS : map s_id (sites s None) = zrange 0 m) as ID0. rewrite ID0 in PM.
  assert (IDS : forall i, In i (zrange 0 m) <-> exists p, length p = 2%nat /\ fl_cell size s p i) by (intros i; rewrite <- ID0, <- D; now apply torus_ids).
  assert (MP : 0 < m). { destruct (torus_total size s Hk FS (repeat 0 (length size)) (repeat_length _ _)) as (i & Ci). assert (X : In i (zrange 0 m)) by (apply IDS; exists (repeat 0 (length size)); split; auto; now rewrite repeat_length). apply zrange_In in X. lia. }
  destruct (serial_stalls (F := b64) (fl_cell size s) m (extents size)) with (N := N) (bg := bg) (rnd := rnd) (c0 := c0) (z := z) (ids := ids) (init := init) (n := n) as (ords & H); auto.
  - intros p q i j _ _ Cp Cq. now apply (torus_same size s).
  - now rewrite extents_length.
  - rewrite Forall_forall in *. intros k Hk'. apply H3. now apply extents_In.
  - exists ords. auto.
Qed.
