(** How the nuclei are shared out among the phases (C50, C95). *)
From Coq Require Import Reals Lra Permutation.
From Flocq Require Import Core BinarySingleNaN.
From Verif Require Import Prelude Dict Val ValFacts Arith RealArith LatticeModel StructModel StateModel ResultModel RunnerModel NbModel GridModel SimModel SetupModel RulesModel SpecResult SpecRunner SpecRules StateFacts RulesFacts RulesMore LifeFacts LifeGen GrowBall
  SpecState SpecGeom SpecNb SpecGrid SpecSetup SpecPlant StructFacts NbFacts GridFacts GridMore SetupFacts NucFacts NucMore
  FloatArith SpecFloat64 SpecNuc SpecPlantFl FloatFacts FloatNuc Planting PlantGrow GrowAll.
Local Open Scope Z_scope.

Notation cnt := (count_occ string_dec).

Lemma cnt_one l p : NoDup l -> (cnt l p <= 1)%nat.
Proof. intros N. exact (proj1 (NoDup_count_occ string_dec l) N p). Qed.
Lemma round_nodup shares k : NoDup (map fst shares) -> NoDup (round shares k).
Proof.
  unfold round. induction shares as [|[p a] t IH]; cbn [map filter]; intros N; [constructor|]. inversion N as [|? ? N1 N2]; subst. destruct (turn k (p, a)); [|auto].
  cbn [map fst]. constructor; auto. intros H. apply N1. apply in_map_iff in H as (x & E & H). apply filter_In in H as [H _]. rewrite <- E. now apply in_map.
Qed.
Lemma round_in shares k p a : In (p, a) shares -> (IZR (Z.of_nat k) < a)%R -> In p (round shares k).
Proof. intros I L. unfold round. apply in_map_iff. exists (p, a). split; auto. apply filter_In. split; auto. unfold turn. cbn [snd]. now destruct (Rlt_dec _ _). Qed.
Lemma cnt_rounds shares q : NoDup (map fst shares) -> forall m k, (cnt (flat_map (round shares) (seq k m)) q <= m)%nat.
Proof.
  intros N. induction m as [|m IH]; intros k; cbn [seq flat_map]; [simpl; lia|]. rewrite count_occ_app. specialize (IH (S k)). pose proof (cnt_one _ q (round_nodup shares k N)). lia.
Qed.
Lemma cnt_own shares p a m : In (p, a) shares -> (IZR (Z.of_nat m) <= a)%R -> forall n k, (n + k <= m)%nat -> (n <= cnt (flat_map (round shares) (seq k n)) p)%nat.
Proof.
  intros I L. induction n as [|n IH]; intros k H; [lia|]. cbn [seq flat_map]. rewrite count_occ_app. specialize (IH (S k) ltac:(lia)).
  assert (In p (round shares k)) as J. { apply (round_in shares k p a I). apply Rlt_le_trans with (IZR (Z.of_nat m)); auto. apply IZR_lt. lia. }
  apply (count_occ_In string_dec) in J. lia.
Qed.

Lemma fair n shares p a q : NoDup (map fst shares) -> In (p, a) shares -> (IZR (Z.of_nat (cnt (in_turn n shares) p)) < a)%R ->
  (cnt (in_turn n shares) q <= S (cnt (in_turn n shares) p))%nat.
Proof.
  intros N I L. set (ids := in_turn n shares) in *. set (c := cnt ids p) in *. assert (LI : (length ids <= Z.to_nat n)%nat) by (unfold ids, in_turn; apply firstn_le_length).
  destruct (le_lt_dec (Z.to_nat n) c) as [G|G]; [pose proof (count_occ_bound string_dec q ids); lia|].
  assert (J := round_in shares c p a I L). apply in_split in J as (A & B & EA).
  assert (E : exists T, flat_map (round shares) (seq 0 (Z.to_nat n)) = (flat_map (round shares) (seq 0 c) ++ A) ++ p :: T).
  { replace (Z.to_nat n) with (c + S (Z.to_nat n - S c))%nat by lia. rewrite seq_app, flat_map_app. cbn [seq flat_map]. rewrite Nat.add_0_l, EA. exists (B ++ flat_map (round shares) (seq (S c) (Z.to_nat n - S c))). now rewrite <- !app_assoc. }
  destruct E as (T & E). set (W := flat_map (round shares) (seq 0 c) ++ A) in *.
  assert (NA : (cnt A q <= 1)%nat). { pose proof (cnt_one _ q (round_nodup shares c N)) as NR. rewrite EA, count_occ_app in NR. lia. }
  assert (CW : (cnt W q <= S c)%nat). { unfold W. rewrite count_occ_app. pose proof (cnt_rounds shares q N c 0). lia. }
  destruct (le_lt_dec (Z.to_nat n) (length W)) as [H|H].
  - assert (X : W = ids ++ skipn (Z.to_nat n) W).
    { unfold ids, in_turn. rewrite E, firstn_app. replace (Z.to_nat n - length W)%nat with 0%nat by lia. cbn [firstn]. now rewrite app_nil_r, firstn_skipn. }
    rewrite X, count_occ_app in CW. lia.
  - exfalso. assert (X : exists V, ids = W ++ p :: V).
    { unfold ids, in_turn. rewrite E, firstn_app. rewrite firstn_all2 by lia. replace (Z.to_nat n - length W)%nat with (S (Z.to_nat n - S (length W)))%nat by lia. cbn [firstn]. eauto. }
    destruct X as (V & X). assert (c = cnt (W ++ p :: V) p) as C by (unfold c; now rewrite X). rewrite count_occ_app in C. cbn [count_occ] in C. destruct (string_dec p p); [|congruence].
    assert (c <= cnt W p)%nat. { unfold W. rewrite count_occ_app. pose proof (cnt_own shares p a c I (Rlt_le _ _ L) c 0 ltac:(lia)). lia. }
    lia.
Qed.

(** sites and turns *)
Lemma places {A B} (dec : forall x y : B, {x = y} + {x <> y}) (l : list A) (ps : list B) p : length l = length ps -> length (map fst (filter (fun x => if dec (snd x) p then true else false) (combine l ps))) = count_occ dec ps p.
Proof.
  revert ps. induction l as [|x l IH]; intros [|q ps] E; try discriminate; [reflexivity|]. cbn [combine filter snd count_occ]. destruct (dec q p); cbn [map length]; rewrite IH; auto.
Qed.
Lemma same_length (l l' : list Z) : NoDup l -> NoDup l' -> (forall x, In x l <-> In x l') -> length l = length l'.
Proof. intros N N' H. apply Nat.le_antisymm; apply NoDup_incl_length; auto; intros x; apply H. Qed.
Lemma combine_nth_error {A B} (l : list A) (ps : list B) x p : In (x, p) (combine l ps) <-> exists m, nth_error l m = Some x /\ nth_error ps m = Some p.
Proof.
  revert ps. induction l as [|y l IH]; intros ps; [split; [intros []|intros ([|m] & H & _); discriminate]|]. destruct ps as [|q ps]; [split; [intros []|intros ([|m] & _ & H); discriminate]|]. cbn [combine In]. rewrite IH. split.
  - intros [E|(m & H)]; [injection E as -> ->; exists 0%nat; auto|exists (S m); auto].
  - intros ([|m] & H1 & H2); [injection H1 as ->; injection H2 as ->; auto|right; eauto].
Qed.
Lemma combine_fst_nodup {A B} (f : A * B -> bool) (l : list A) (ps : list B) : NoDup l -> NoDup (map fst (filter f (combine l ps))).
Proof.
  revert ps. induction l as [|x l IH]; intros [|q ps] N; cbn [combine filter map]; try constructor. inversion N as [|? ? N1 N2]; subst. destruct (f (x, q)); cbn [map fst]; auto. constructor; auto.
  intros H. apply N1. apply in_map_iff in H as ([y z] & E & H). apply filter_In in H as [H _]. cbn [fst] in E. subst y. now apply in_combine_l in H.
Qed.
Lemma planted_count {F} (A : arith F) L (s : structure F) st bg l phases p : built A L s -> nucleated s st bg l phases -> NoDup l -> incl l (map s_id (sites s None)) -> length l = length phases ->
  p <> bg -> length (with_phase s st p) = cnt phases p.
Proof.
  intros BU NU ND IN LL NP. destruct (config_phased s st _ L A BU NU) as [PH PP]. rewrite <- (places string_dec l phases p LL).
  apply same_length; [apply NoDup_filter, dense_NoDup, (built_dense A L s BU)|now apply combine_fst_nodup|].
  assert (K : forall i, In i (map s_id (sites s None)) -> (phase_at st i p = true <-> holds st i p)).
  { intros i Hi. destruct (proj2 PH i Hi) as [q Hq]. rewrite (holds_phase _ _ _ _ Hq). destruct (eqb_spec q p) as [->|D]; [tauto|]. split; [discriminate|]. intros H. exfalso. apply D. unfold holds, site_entry in *. rewrite H in Hq. congruence. }
  intros i. unfold with_phase. rewrite filter_In, (in_map_iff fst). split.
  - intros [Hi H]. apply (K i Hi) in H. destruct (PP i p Hi H) as [(m & H1 & H2)|(_ & E)]; [|contradiction].
    exists (i, p). split; auto. apply filter_In. split; [apply combine_nth_error; eauto|]. cbn [snd]. destruct (string_dec p p); congruence.
  - intros ([i' q] & E & H). cbn [fst] in E. subst i'. apply filter_In in H as [H H']. cbn [snd] in H'. destruct (string_dec q p) as [->|]; [|discriminate].
    pose proof H as H0. apply in_combine_l in H0. specialize (IN i H0). split; auto. apply (K i IN). destruct (proj2 PH i IN) as [q Hq]. destruct (PP i q IN Hq) as [(m & H1 & H2)|(N & _)]; [|contradiction].
    apply combine_nth_error in H as (m' & H1' & H2'). assert (m = m'); [|subst m'; congruence].
    eapply (proj1 (NoDup_nth_error l) ND); [|congruence]. apply nth_error_Some. congruence.
Qed.
Lemma candidates_in {F} (A : arith F) L (s : structure F) rnd n : built A L s -> sites s None <> [] -> incl (candidates rnd (Z.of_nat (length (sites s None))) n) (map s_id (sites s None)).
Proof.
  intros BU NE i H. unfold candidates in H. apply in_map_iff in H as (t & <- & _). rewrite (built_dense A L s BU). apply zrange_In.
  destruct (sites s None) as [|x l]; [congruence|]. apply Z.mod_pos_bound. cbn [length]. lia.
Qed.
Lemma greedy_incl near ds l : greedy near ds l -> incl l ds.
Proof. induction 1; intros x Hx; [destruct Hx|apply in_or_app; auto|]. apply in_app_iff in Hx as [Hx|Hx]; apply in_or_app; auto. Qed.

Lemma nodup_firstn {A} (l : list A) : forall n, NoDup l -> NoDup (firstn n l).
Proof.
  induction l as [|x l IH]; intros [|n] N; cbn [firstn]; try constructor; inversion N as [|? ? N1 N2]; subst; auto.
  intros H. apply N1. rewrite <- (firstn_skipn n l). apply in_or_app. auto.
Qed.

Lemma C50_fair_lemma : forall dim sz n bg amts buffer rnd ords np_sum s st, good_size dim sz -> 0 <= n -> amounts_ok bg amts -> (forall t, legal (ords t)) -> summation RA np_sum ->
  forall f1 f2, (n + 1) * Z.of_nat (length amts) <= Z.of_nat f1 -> 1000 * n + 2 <= Z.of_nat f2 ->
  setup_random_sites RA f1 f2 np_sum rnd ords (Z.of_nat dim) sz n bg amts buffer = Some (Ok (mkSim st s)) ->
  forall p a q b, In (p, a) amts -> In (q, b) amts ->
    (IZR n * a / sum (map snd amts) <= IZR (Z.of_nat (length (with_phase s st p))))%R \/
    (length (with_phase s st q) <= length (with_phase s st p) + 1)%nat.
Proof.
  intros dim sz n bg amts buffer rnd ords np_sum s st GS N0 AO LO SM f1 f2 B1 B2 E p a q b Hp Hq.
  destruct (C113_lemma dim sz n bg amts buffer rnd ords np_sum GS N0 AO LO SM) as (s' & l & r & SG & GR & U & P1 & P2).
  rewrite (U f1 f2 B1 B2) in E. injection E as ->. destruct (Z_lt_ge_dec (Z.of_nat (length l)) n) as [LT|GE]; [specialize (P1 LT); discriminate|].
  destruct (P2 ltac:(lia)) as (st' & E & NU). injection E as <- <-. destruct (square_facts _ _ SG) as [L G]. pose proof (gf_built _ _ _ G) as BU. pose proof AO as (UQ & NB & _).
  set (shares := map _ amts) in NU. assert (KS : map fst shares = map fst amts) by (unfold shares; rewrite map_map; reflexivity).
  assert (NE : sites s None <> []).
  { pose proof (gf_count _ _ _ G) as C. pose proof (prod_pos _ (gf_pos _ _ _ G)). intros X. rewrite X in C. simpl in C. lia. }
  assert (LT : length (in_turn n shares) = Z.to_nat n).
  { destruct (identities_start n amts np_sum UQ ltac:(apply AO) ltac:(apply AO) N0 SM (Z.to_nat ((n + 1) * Z.of_nat (length amts))) ltac:(lia)) as (ids & EI & LI & _).
    unfold shares. rewrite <- (real_turns n amts np_sum _ ids bg N0 AO SM EI LI). lia. }
  assert (ND : NoDup (firstn (Z.to_nat n) l)). { apply nodup_firstn. now apply (greedy_NoDup _ _ _ GR). }
  assert (IN : incl (firstn (Z.to_nat n) l) (map s_id (sites s None))).
  { intros x Hx. apply (candidates_in RA L s rnd (1000 * n + 1) BU NE). apply (greedy_incl _ _ _ GR). rewrite <- (firstn_skipn (Z.to_nat n) l). apply in_or_app. auto. }
  assert (LL : length (firstn (Z.to_nat n) l) = length (in_turn n shares)) by (rewrite firstn_length, LT; lia).
  assert (NK : forall x c, In (x, c) amts -> x <> bg) by (intros x c Hx ->; apply NB; apply in_map_iff; exists (bg, c); auto).
  rewrite (planted_count RA L s st bg _ _ p BU NU ND IN LL (NK _ _ Hp)), (planted_count RA L s st bg _ _ q BU NU ND IN LL (NK _ _ Hq)).
  destruct (Rle_lt_dec (IZR n * a / sum (map snd amts)) (IZR (Z.of_nat (cnt (in_turn n shares) p)))) as [|LS]; [auto|]. right.
  rewrite Nat.add_1_r. apply (fair n shares p (IZR n * a / sum (map snd amts))%R q); auto.
  - rewrite KS. exact UQ.
  - unfold shares. apply in_map_iff. exists (p, a). auto.
Qed.

Lemma C95_fair_lemma : forall dim sz s0 s n bg amts buffer rnd ords np_sum st, fl_setup dim sz s0 -> 0 <= n ->
  fl_amounts bg amts -> (n + 1) * (Z.of_nat (length amts) + 2) <= 2 ^ 44 -> (forall t, legal (ords t)) -> summation FA np_sum -> fl_buffer (grid_size dim sz) buffer ->
  forall f1 f2, (n + 1) * Z.of_nat (length amts) <= Z.of_nat f1 -> 1000 * n + 2 <= Z.of_nat f2 ->
  setup_random_sites FA f1 f2 np_sum rnd ords (Z.of_nat dim) sz n bg amts buffer = Some (Ok (mkSim st s)) ->
  forall p c q d, In (p, c) (computed_shares n amts np_sum) -> In (q, d) (computed_shares n amts np_sum) ->
    (c <= IZR (Z.of_nat (length (with_phase s st p))))%R \/ (length (with_phase s st q) <= length (with_phase s st p) + 1)%nat.
Proof.
  intros dim sz s0 s n bg amts buffer rnd ords np_sum st FG N0 AM SMALL LO SM HB f1 f2 B1 B2 E p c q d Hp Hq.
  destruct (C113_float_lemma dim sz s0 n bg amts buffer rnd ords np_sum FG N0 AM SMALL LO SM HB) as (l & r & GR & U & P1 & P2).
  rewrite (U f1 f2 B1 B2) in E. injection E as ->. destruct (Z_lt_ge_dec (Z.of_nat (length l)) n) as [LT|GE]; [specialize (P1 LT); discriminate|].
  destruct (P2 ltac:(lia)) as (st' & E & NU). injection E as <- <-. destruct (fl_prepared dim sz s bg buffer FG HB) as (L & _ & BU & _). pose proof AM as (UQ & NB & NN & TP).
  set (shares := computed_shares n amts np_sum) in *. assert (KS : map fst shares = map fst amts) by (unfold shares, computed_shares; rewrite map_map; reflexivity).
  pose proof (fl_nonempty dim sz s FG) as NE.
  assert (LT : length (in_turn n shares) = Z.to_nat n).
  { destruct (fl_identities n amts np_sum UQ NN TP N0 SMALL SM (Z.to_nat ((n + 1) * Z.of_nat (length amts))) ltac:(lia)) as (ids & EI & LI & _).
    unfold shares. rewrite <- (fl_turns n amts np_sum _ ids bg N0 AM SMALL SM EI LI). lia. }
  assert (ND : NoDup (firstn (Z.to_nat n) l)). { apply nodup_firstn. now apply (greedy_NoDup _ _ _ GR). }
  assert (IN : incl (firstn (Z.to_nat n) l) (map s_id (sites s None))).
  { intros x Hx. apply (candidates_in FA L s rnd (1000 * n + 1) BU NE). apply (greedy_incl _ _ _ GR). rewrite <- (firstn_skipn (Z.to_nat n) l). apply in_or_app. auto. }
  assert (LL : length (firstn (Z.to_nat n) l) = length (in_turn n shares)) by (rewrite firstn_length, LT; lia).
  assert (NK : forall x e, In (x, e) shares -> x <> bg) by (intros x e Hx ->; apply NB; unfold dkeys; rewrite <- KS; apply in_map_iff; exists (bg, e); auto).
  rewrite (planted_count FA L s st bg _ _ p BU NU ND IN LL (NK _ _ Hp)), (planted_count FA L s st bg _ _ q BU NU ND IN LL (NK _ _ Hq)).
  destruct (Rle_lt_dec c (IZR (Z.of_nat (cnt (in_turn n shares) p)))) as [|LS]; [auto|]. right.
  rewrite Nat.add_1_r. apply (fair n shares p c q); auto. rewrite KS. exact UQ.
Qed.
