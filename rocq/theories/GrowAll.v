(** The whole of [grow] with every neighbourhood of the library: in binary64 (C97) and with von Neumann neighbourhoods (C98). *)
From Coq Require Import Reals Lra Permutation.
From Flocq Require Import Core BinarySingleNaN.
From Verif Require Import Prelude Dict Val ValFacts Arith RealArith LatticeModel StructModel StateModel ResultModel RunnerModel NbModel GridModel SimModel SetupModel RulesModel
  SpecState SpecResult SpecRunner SpecGeom SpecNb SpecGrid SpecSetup SpecRules StateFacts ResultFacts RunnerFacts SyncFacts ParFacts ParRun GenRun
  LatticeFacts StructFacts StructMore NbFacts NbMore GridFacts GridMore GridNb SetupFacts SetupMore NucFacts NucMore RulesFacts RulesMore LifeFacts LifeGen GrowBall
  FloatArith SpecFloat64 SpecNuc FloatFacts FloatCoord FloatGrid FloatMore FloatNb FloatTorus FloatNuc FloatOpen.
Local Open Scope Z_scope.

(** * Offsets on a torus with equal sides *)
Lemma cube_extents D m : extents (repeat m D) = repeat m D.
Proof. destruct D as [|[|D]]; reflexivity. Qed.
Lemma vn_bound h d : Forall (fun a => Z.abs a <= h) d -> within_vn (Z.of_nat (length d) * h) d.
Proof.
  unfold within_vn. intros H. induction H as [|a d Ha _ IH]; cbn [fold_right length]; [lia|]. lia.
Qed.
Lemma vn_far h d : Forall (fun a => h <= Z.abs a) d -> Z.of_nat (length d) * h <= fold_right (fun a t => Z.abs a + t) 0 d.
Proof. intros H. induction H as [|a d Ha _ IH]; cbn [fold_right length]; lia. Qed.
(** A shortest offset between two points. *)
Definition centred (m x : Z) : Z := if x mod m <=? m / 2 then x mod m else x mod m - m.
Lemma centred_ok m x : 0 < m -> Z.abs (centred m x) <= m / 2 /\ (m | centred m x - x).
Proof.
  intros Hm. unfold centred. pose proof (Z.mod_pos_bound x m Hm) as B. pose proof (Z.div_mod x m ltac:(lia)) as E. pose proof (Z.div_mod m 2 ltac:(lia)) as E2. pose proof (Z.mod_pos_bound m 2 ltac:(lia)).
  destruct (Z.leb_spec (x mod m) (m / 2)); split; try lia; [exists (- (x / m)); lia|exists (- (x / m) - 1); lia].
Qed.
Lemma near_offset D m p q : 0 < m -> length p = D -> length q = D -> exists d, length d = D /\ Forall (fun a => Z.abs a <= m / 2) d /\ same_cell (repeat m D) (shift p d) q.
Proof.
  intros Hm Lp Lq. exists (zipwith (fun a b => centred m (b - a)) p q). assert (L : length (zipwith (fun a b => centred m (b - a)) p q) = D).
  { revert D q Lp Lq. induction p as [|a p IH]; intros D [|b q] Lp Lq; simpl in *; try lia. destruct D; [lia|]. f_equal. apply IH; lia. }
  split; auto. split.
  - clear L Lp Lq. revert q. induction p as [|a p IH]; intros [|b q]; simpl; constructor; auto. now apply centred_ok.
  - apply (same_nth D); [apply repeat_length|]. split; [rewrite shift_length; congruence|]. split; auto. intros a Ha. rewrite FloatBox.nth_repeat' by auto. unfold shift.
    rewrite (FloatVec.nth_zipwith _ 0 0) by lia. rewrite (FloatVec.nth_zipwith _ 0 0) by lia. destruct (centred_ok m (nth a q 0 - nth a p 0) Hm) as [_ [z Hz]]. exists z. lia.
Qed.
Lemma far_offset D m p d : 0 < m -> length p = D -> length d = D -> same_cell (repeat m D) (shift (shift p (repeat (m / 2) D)) d) p -> Z.of_nat D * (m / 2) <= fold_right (fun a t => Z.abs a + t) 0 d.
Proof.
  intros Hm Lp Ld S. rewrite <- Ld. apply vn_far. apply Forall_forall. intros x Hx. apply (In_nth _ _ 0) in Hx as (a & Ha & <-). rewrite Ld in Ha.
  apply (same_nth D) in S as (_ & _ & S); [|apply repeat_length]. specialize (S a Ha). rewrite FloatBox.nth_repeat' in S by auto. unfold shift in S.
  assert (L1 : length (zipwith Z.add p (repeat (m / 2) D)) = D) by (rewrite FloatVec.zipwith_length; [auto|now rewrite repeat_length]).
  rewrite (FloatVec.nth_zipwith _ 0 0) in S by lia. rewrite (FloatVec.nth_zipwith _ 0 0) in S by (rewrite ?repeat_length; lia). rewrite FloatBox.nth_repeat' in S by auto. destruct S as [z Hz].
  pose proof (Z.div_mod m 2 ltac:(lia)) as E2. pose proof (Z.mod_pos_bound m 2 ltac:(lia)). destruct (Z_lt_le_dec z 1); [assert (z * m <= 0) by nia; lia|assert (m <= z * m) by nia; lia].
Qed.

(** * The run after a successful setup *)
Section Finish.
  Context {F : Type} (A : arith F).
  Variables (s : structure F) (L : lattice F) (dim : nat) (size n : Z) (bg : string) (amts : dict string F).
  Variables (buffer : option Z) (b : option (nb_builder F)) (rnd rnd' : nat -> nat) (ords ords' : nat -> @nb_oracle F) (p : Z) (sched : nat -> nat -> nat) (np_sum : list F -> F) (st0 : sstate).
  Variables (N : nbhood F) (C : list Z -> Z -> Prop) (B : nat -> list Z -> Prop).
  Hypothesis BU : built A L s.
  Hypothesis S0 : 0 < size.
  Hypothesis P1 : 1 <= p.
  Hypothesis LO' : forall t, legal (ords' t).
  Hypothesis CF : configuration s st0 (fun _ q => q = bg \/ In q (dkeys amts)).
  Hypothesis EN : growth_nbhood A s b = Ok N.
  Hypothesis TOT : forall p, length p = dim -> exists i, C p i.
  Hypothesis LEN : forall p i, C p i -> length p = dim.
  Hypothesis SAME : forall p q i j, C p i -> C q j -> (i = j <-> same_cell (repeat size dim) p q).
  Hypothesis IDS : forall i, In i (map s_id (sites s None)) <-> exists p, length p = dim /\ C p i.
  Hypothesis BB : balls dim B.
  Hypothesis NB : forall p i, length p = dim -> C p i -> neighbours N i (fun j => j <> i /\ exists d, length d = dim /\ B 1%nat d /\ C (shift p d) j).
  Hypothesis Er : forall f1 f2, (n + 1) * Z.of_nat (length amts) <= Z.of_nat f1 -> 1000 * n + 2 <= Z.of_nat f2 ->
    setup_random_sites A f1 f2 np_sum rnd ords (Z.of_nat dim) (SzInt size) n bg amts buffer = Some (Ok (mkSim st0 s)).

  Lemma C_eq x y i : C x i -> same_cell (repeat size dim) x y -> C y i.
  Proof.
    intros Cx S. destruct (TOT y) as (j & Cy); [destruct S as (_ & Ly & _); now rewrite repeat_length in Ly|]. assert (i = j) as -> by (now apply (SAME x y)). exact Cy.
  Qed.
  Lemma finish : exists st, (forall f1 f2, (n + 1) * Z.of_nat (length amts) <= Z.of_nat f1 -> 1000 * n + 2 <= Z.of_nat f2 ->
      grow A f1 f2 np_sum rnd ords ords' rnd' p sched (Z.of_nat dim) size n bg amts b buffer = Some (Ok (mkSim st s))) /\
    site_ids st = map (fun x => KInt (s_id x)) (sites s None) /\
    (forall i x, get_site s i = Some x -> exists q, holds st i q /\ (q = bg \/ In q (dkeys amts))) /\
    forall x i, length x = dim -> C x i -> (occupied bg st i <-> exists d j, length d = dim /\ B (Z.to_nat size) d /\ C (shift x d) j /\ occupied bg st0 j).
  Proof.
    set (ids := map s_id (sites s None)) in *. destruct (config_phased s st0 _ L A BU CF) as [PH PP]. fold ids in PH, PP.
    assert (NI : NoDup ids) by (apply dense_NoDup, (built_dense A L s BU)).
    assert (NE : ids <> []).
    { destruct (TOT (repeat 0 dim) (repeat_length _ _)) as (i & Ci). assert (X : In i ids) by (apply IDS; exists (repeat 0 dim); split; auto using repeat_length). intros E. rewrite E in X. destruct X. }
    assert (HN : has_neighbours ids N).
    { intros o i Lo Hi. pose proof Hi as Hi'. apply IDS in Hi' as (x & Lx & Cx). destruct (NB x i Lx Cx o Lo) as (l & El & _ & IN). exists l. split; auto.
      intros j Hj. apply IN in Hj as (_ & d & Ld & _ & Cd). apply IDS. exists (shift x d). split; auto. rewrite shift_length; congruence. }
    destruct (C56_spread_lemma F N bg ords' rnd' ids p sched 0%nat st0 size LO' NI NE HN PH P1) as (o & Eo & Lo & HS).
    destruct (HS size ltac:(lia)) as (st & Es & PH' & FR & _ & _).
    destruct (grow_ball N bg ords' rnd' ids C dim B 0%nat st0 size TOT) as [_ PAR]; auto.
    { intros x i j Ci Cj. apply (SAME x x i j Ci Cj). apply same_cell_refl. rewrite repeat_length. now apply (LEN x i). }
    { intros x y d i j Lx Ly Ld Cx Cy Cs. apply (C_eq (shift x d)); auto. apply same_shift; [now rewrite repeat_length|]. now apply (SAME x y i i). }
    destruct (PAR p sched P1) as (o' & Eo' & _ & K). assert (o' = o) by congruence. subst o'. destruct (K size ltac:(lia)) as (st' & Es' & OC). assert (st' = st) by congruence. subst st'.
    exists st. split; [|split; [|split]].
    - intros f1 f2 H1 H2. unfold grow. rewrite (Er f1 f2 H1 H2). cbn [bind sim_struct sim_state]. rewrite EN. cbn [bind]. rewrite Eo. cbn [bind].
      rewrite (last_is _ size st); auto. rewrite Lo. lia.
    - rewrite (proj1 PH'). unfold ids. now rewrite map_map.
    - intros i x Gx. assert (Hi : In i ids) by (apply (get_site_ids A L s i BU); eauto). destruct (proj2 PH' i Hi) as (q & Hq). exists q. split; auto.
      destruct (FR i q Hi Hq) as [->|(j & Hj & Hq')]; auto. apply (PP j q Hj Hq').
    - exact OC.
  Qed.
  Lemma nuclei j : In j (without_phase s st0 bg) <-> In j (map s_id (sites s None)) /\ occupied bg st0 j.
  Proof.
    destruct (config_phased s st0 _ L A BU CF) as [PH PP]. unfold without_phase. rewrite filter_In. split; intros [Hj H]; (split; [auto|]).
    - destruct (proj2 PH j Hj) as [q Hq]. exists q. split; auto. intros ->. rewrite (holds_phase _ _ _ _ Hq), eqb_refl in H. discriminate.
    - destruct H as (q & Hq & Nq). rewrite (holds_phase _ _ _ _ Hq). apply Bool.negb_true_iff. now apply eqb_neq.
  Qed.
  (** Every cell is within reach of every other. *)
  Lemma covered x i j : 1 <= n -> Z.of_nat (length (without_phase s st0 bg)) = n -> (forall d, length d = dim -> Forall (fun a => Z.abs a <= size / 2) d -> B (Z.to_nat size) d) ->
    length x = dim -> C x i -> In j (without_phase s st0 bg) -> exists d j, length d = dim /\ B (Z.to_nat size) d /\ C (shift x d) j /\ occupied bg st0 j.
  Proof.
    intros N1 CN COV Lx Cx Hj. apply nuclei in Hj as [Hj O]. apply IDS in Hj as (y & Ly & Cy). destruct (near_offset dim size x y S0 Lx Ly) as (d & Ld & Fd & SC).
    exists d, j. split; auto. split; auto. split; auto. apply (C_eq y); auto. now apply same_cell_sym.
  Qed.
End Finish.

Lemma moore_covers dim r size : 1 <= r -> 0 < size -> forall d, length d = dim -> Forall (fun a => Z.abs a <= size / 2) d -> within_moore (r * Z.of_nat (Z.to_nat size)) d.
Proof.
  intros Hr Hs d Ld. unfold within_moore. apply Forall_impl. intros a Ha. rewrite Z2Nat.id by lia. pose proof (Z.div_mod size 2 ltac:(lia)). pose proof (Z.mod_pos_bound size 2 ltac:(lia)). nia.
Qed.
Lemma vn_covers dim r size : Z.of_nat dim * (size / 2) <= r * size -> 0 < size -> forall d, length d = dim -> Forall (fun a => Z.abs a <= size / 2) d -> within_vn (r * Z.of_nat (Z.to_nat size)) d.
Proof. intros Hr Hs d Ld H. apply vn_bound in H. rewrite Z2Nat.id by lia. rewrite Ld in H. unfold within_vn in *. lia. Qed.

(** * C98: von Neumann neighbourhoods in exact arithmetic *)
Definition vn_builder (dim : nat) (r : Z) (b : nb_builder R) : Prop :=
  dim = 2%nat /\ VonNeumannNbHood2DBuilder RA r = Ok b \/ dim = 3%nat /\ VonNeumannNbHood3DBuilder RA r = Ok b.

Lemma vn_finish dim size n bg amts buffer r b rnd rnd' ords ords' p sched np_sum s st0 : good_size dim (SzInt size) -> 0 <= r -> vn_builder dim r b -> (forall t, legal (ords' t)) -> 1 <= p ->
  square_grid (repeat size dim) s -> configuration s st0 (fun _ q => q = bg \/ In q (dkeys amts)) ->
  (forall f1 f2, (n + 1) * Z.of_nat (length amts) <= Z.of_nat f1 -> 1000 * n + 2 <= Z.of_nat f2 ->
    setup_random_sites RA f1 f2 np_sum rnd ords (Z.of_nat dim) (SzInt size) n bg amts buffer = Some (Ok (mkSim st0 s))) ->
  exists L, built RA L s /\ 0 < size /\
  (forall x, length x = dim -> exists i, cell s x i) /\
  (forall x y i j, length x = dim -> length y = dim -> cell s x i -> cell s y j -> (i = j <-> same_cell (repeat size dim) x y)) /\
  (forall i, In i (map s_id (sites s None)) <-> exists x, length x = dim /\ cell s x i) /\
  exists st, (forall f1 f2, (n + 1) * Z.of_nat (length amts) <= Z.of_nat f1 -> 1000 * n + 2 <= Z.of_nat f2 ->
      grow RA f1 f2 np_sum rnd ords ords' rnd' p sched (Z.of_nat dim) size n bg amts (Some b) buffer = Some (Ok (mkSim st s))) /\
    site_ids st = map (fun x => KInt (s_id x)) (sites s None) /\
    (forall i x, get_site s i = Some x -> exists q, holds st i q /\ (q = bg \/ In q (dkeys amts))) /\
    forall x i, length x = dim -> cell s x i -> (occupied bg st i <-> exists d j, length d = dim /\ within_vn (r * size) d /\ cell s (shift x d) j /\ occupied bg st0 j).
Proof.
  intros GS Hr HB LO' P1 SG CF Er. destruct (square_facts _ _ SG) as [L G]. assert (Ld : length (repeat size dim) = dim) by apply repeat_length.
  assert (S0 : 0 < size) by (destruct GS as ([->| ->] & _ & Q); cbn in Q; now apply Forall_inv in Q). pose proof (gf_built _ _ _ G) as BU.
  assert (TOT : forall x, length x = dim -> exists i, cell s x i) by (intros x Lx; eexists; apply (gf_cell _ _ _ G x); congruence).
  assert (SAME : forall x y i j, length x = dim -> length y = dim -> cell s x i -> cell s y j -> (i = j <-> same_cell (repeat size dim) x y)).
  { intros x y i j Lx Ly Cx Cy. rewrite <- (cube_extents dim size) at 1. apply (cell_iff (repeat size dim) s L); auto; congruence. }
  assert (IDS : forall i, In i (map s_id (sites s None)) <-> exists x, length x = dim /\ cell s x i).
  { intros i. split.
    - intros Hi. apply (get_site_ids RA L s i BU) in Hi as [z Gz]. destruct (site_cell _ _ _ _ _ G Gz) as (x & Lx & _ & _ & Cx & _). exists x. split; auto. congruence.
    - intros (x & Lx & Cx). apply (get_site_ids RA L s i BU). unfold cell, id_at in Cx.
      apply bind_Ok in Cx as (o & E & Cx). destruct o as [y|]; [|discriminate]. injection Cx as <-. exists y.
      pose proof (site_at_found RA L s _ y BU E) as H. destruct (built_inv RA L s BU) as [h I]. apply (inv_get_site RA L h s _ y I). auto. }
  assert (NBH : exists N, growth_nbhood RA s (Some b) = Ok N /\ torus_nb (repeat size dim) s (within_vn r) N).
  { unfold growth_nbhood. cbn [bind]. destruct (C41_von_neumann_lemma _ s r SG) as [H2 H3]. rewrite Ld in *. destruct HB as [[D Eb]|[D Eb]].
    - destruct (H2 D) as (b1 & N1 & Eb1 & EN' & T & _). assert (b = b1) by congruence. subst b1. eauto.
    - destruct (H3 D) as (b1 & N1 & Eb1 & EN' & T & _). assert (b = b1) by congruence. subst b1. eauto. }
  destruct NBH as (N & EN & T). exists L. split; auto. split; auto. split; auto. split; auto. split; auto.
  destruct (finish RA s L dim size n bg amts buffer (Some b) rnd rnd' ords ords' p sched np_sum st0 N (fun x i => length x = dim /\ cell s x i) (fun k => within_vn (r * Z.of_nat k))) as (st & Eg & SI & HO & OC); auto.
  - intros x Lx. destruct (TOT x Lx) as (i & Ci). eauto.
  - intros x i H. apply H.
  - intros x y i j [Lx Cx] [Ly Cy]. now apply SAME.
  - intros i. rewrite IDS. split; intros (x & Lx & Cx); exists x; tauto.
  - now apply vn_balls.
  - intros x i Lx [_ Cx] o Lo. destruct (T x i ltac:(congruence) Cx o Lo) as (l & El & ND & IN). exists l. split; auto. split; auto. intros j. rewrite IN, Z.mul_1_r, Ld.
    split; intros (Nj & d & Ldd & W & Cd); (split; [auto|]); exists d; (split; [auto|split; [auto|]]); [split; auto; rewrite shift_length; congruence|apply Cd].
  - exists st. split; auto. split; auto. split; auto. intros x i Lx Cx. rewrite (OC x i Lx (conj Lx Cx)), Z2Nat.id by lia.
    split; intros (d & j & Ldd & W & Cd & O); exists d, j; (split; [auto|split; [auto|split; auto]]); [apply Cd|split; auto; rewrite shift_length; congruence].
Qed.

Lemma C98_fills_lemma : forall dim size n bg amts buffer r b rnd ords ords' rnd' p sched np_sum,
  good_size dim (SzInt size) -> 1 <= n -> amounts_ok bg amts -> (forall t, legal (ords t)) -> (forall t, legal (ords' t)) -> summation RA np_sum -> 1 <= p ->
  (dim = 2%nat /\ VonNeumannNbHood2DBuilder RA r = Ok b \/ dim = 3%nat /\ VonNeumannNbHood3DBuilder RA r = Ok b) -> 0 <= r -> Z.of_nat dim * (size / 2) <= r * size ->
  exists g, (forall f1 f2, (n + 1) * Z.of_nat (length amts) <= Z.of_nat f1 -> 1000 * n + 2 <= Z.of_nat f2 ->
      grow RA f1 f2 np_sum rnd ords ords' rnd' p sched (Z.of_nat dim) size n bg amts (Some b) buffer = Some g) /\
    (g = Err RuntimeError \/ exists s st, g = Ok (mkSim st s) /\ square_grid (repeat size dim) s /\
       site_ids st = map (fun x => KInt (s_id x)) (sites s None) /\
       forall i x, get_site s i = Some x -> exists q, holds st i q /\ q <> bg /\ In q (dkeys amts)).
Proof.
  intros dim size n bg amts buffer r b rnd ords ords' rnd' p sched np_sum GS N1 AO LO LO' SM P1 HB Hr COV.
  destruct (random_run dim (SzInt size) n bg amts buffer rnd ords np_sum GS ltac:(lia) AO LO SM) as (g & Er & [->|(s & st0 & -> & SG & CF & CN & _)]).
  { exists (Err RuntimeError). split; auto. intros f1 f2 H1 H2. unfold grow. rewrite (Er f1 f2 H1 H2). reflexivity. }
  cbn [grid_size] in SG. destruct (vn_finish dim size n bg amts buffer r b rnd rnd' ords ords' p sched np_sum s st0 GS Hr HB LO' P1 SG CF Er) as (L & BU & S0 & TOT & SAME & IDS & st & Eg & SI & HO & OC).
  exists (Ok (mkSim st s)). split; auto. right. exists s, st. split; auto. split; auto. split; auto. intros i x Gx. destruct (HO i x Gx) as (q & Hq & Pq).
  assert (O : occupied bg st i).
  { assert (Hi : In i (map s_id (sites s None))) by (apply (get_site_ids RA L s i BU); eauto). apply IDS in Hi as (y & Ly & Cy). apply (OC y i Ly Cy).
    destruct (without_phase s st0 bg) as [|j t] eqn:W; [cbn in CN; lia|]. assert (Hj : In j (without_phase s st0 bg)) by (rewrite W; simpl; auto).
    apply (nuclei RA s L bg amts st0 BU CF) in Hj as [Hj O]. apply IDS in Hj as (z & Lz & Cz). destruct (near_offset dim size y z S0 Ly Lz) as (d & Ld & Fd & SC).
    exists d, j. split; auto. split; [pose proof (vn_covers dim r size COV S0 d Ld Fd) as V; rewrite Z2Nat.id in V by lia; exact V|]. split; auto.
    assert (Ls : length (shift y d) = dim) by (rewrite shift_length; congruence). destruct (TOT (shift y d) Ls) as (j' & Cj'). apply (SAME _ _ j' j Ls Lz Cj' Cz) in SC. now subst. }
  destruct O as (q' & Hq' & Dq). assert (q' = q) by (unfold holds in *; congruence). subst q'. exists q. split; auto. split; auto. destruct Pq; [contradiction|auto].
Qed.


Lemma C98_ball_lemma : forall dim size n bg amts buffer r b rnd ords ords' rnd' p sched np_sum,
  good_size dim (SzInt size) -> 0 <= n -> amounts_ok bg amts -> (forall t, legal (ords t)) -> (forall t, legal (ords' t)) -> summation RA np_sum -> 1 <= p ->
  (dim = 2%nat /\ VonNeumannNbHood2DBuilder RA r = Ok b \/ dim = 3%nat /\ VonNeumannNbHood3DBuilder RA r = Ok b) -> 0 <= r ->
  exists g, (forall f1 f2, (n + 1) * Z.of_nat (length amts) <= Z.of_nat f1 -> 1000 * n + 2 <= Z.of_nat f2 ->
      grow RA f1 f2 np_sum rnd ords ords' rnd' p sched (Z.of_nat dim) size n bg amts (Some b) buffer = Some g) /\
    (g = Err RuntimeError \/ exists s st l, g = Ok (mkSim st s) /\ square_grid (repeat size dim) s /\
       site_ids st = map (fun x => KInt (s_id x)) (sites s None) /\
       (forall i x, get_site s i = Some x -> exists q, holds st i q /\ (q = bg \/ In q (dkeys amts))) /\
       NoDup l /\ Z.of_nat (length l) = n /\ (forall j, In j l -> exists x, get_site s j = Some x) /\ (forall c, buffer = Some c -> separated s dim c l) /\
       forall x i, length x = dim -> cell s x i -> (occupied bg st i <-> exists d j, length d = dim /\ within_vn (r * size) d /\ cell s (shift x d) j /\ In j l)).
Proof.
  intros dim size n bg amts buffer r b rnd ords ords' rnd' p sched np_sum GS N0 AO LO LO' SM P1 HB Hr.
  destruct (random_run dim (SzInt size) n bg amts buffer rnd ords np_sum GS N0 AO LO SM) as (g & Er & [->|(s & st0 & -> & SG & CF & CN & SE & _)]).
  { exists (Err RuntimeError). split; auto. intros f1 f2 H1 H2. unfold grow. rewrite (Er f1 f2 H1 H2). reflexivity. }
  cbn [grid_size] in SG. destruct (vn_finish dim size n bg amts buffer r b rnd rnd' ords ords' p sched np_sum s st0 GS Hr HB LO' P1 SG CF Er) as (L & BU & S0 & TOT & SAME & IDS & st & Eg & SI & HO & OC).
  exists (Ok (mkSim st s)). split; auto. right. exists s, st, (without_phase s st0 bg). do 4 (split; auto).
  split; [apply NoDup_filter, dense_NoDup, (built_dense RA L s BU)|]. split; auto. split; [intros j Hj; apply (nuclei RA s L bg amts st0 BU CF) in Hj as [Hj _]; now apply (get_site_ids RA L s j BU)|]. split; auto.
  intros x i Lx Cx. rewrite (OC x i Lx Cx). split; intros (d & j & Ld & W & Cd & O); exists d, j; (split; [auto|split; [auto|split; auto]]).
  - apply (nuclei RA s L bg amts st0 BU CF). split; auto. apply IDS. exists (shift x d). split; auto. rewrite shift_length; congruence.
  - now apply (nuclei RA s L bg amts st0 BU CF) in O.
Qed.

(** * One nucleus can always be placed *)
Lemma plant_one {F} (A : arith F) s L bg q rnd ords fuel : built A L s -> sites s None <> [] ->
  exists g, plant (F := F) (S (S fuel)) rnd ords 1 bg None (sites s None) [q] 0 0 (layout (sites s None) (fun _ => VStr bg)) = Some (Ok (layout (sites s None) (fun i => VStr (g i)))).
Proof.
  intros BU NE. pose proof (dense_NoDup s None (built_dense A L s BU)) as ND. cbn [plant]. change (0 <? 1) with true. change (0 >? 1000 * 1) with false. cbv iota.
  unfold choice. set (m := (rnd (Z.to_nat 0) mod length (sites s None))%nat).
  assert (LT : (m < length (sites s None))%nat) by (apply Nat.mod_upper_bound; destruct (sites s None); simpl; [congruence|lia]).
  destruct (nth_error (sites s None) m) as [x|] eqn:Ex; [|apply nth_error_None in Ex; lia].
  assert (Hi : In (s_id x) (map s_id (sites s None))) by (apply in_map; eapply nth_error_In; eauto).
  unfold occupancy. rewrite layout_get by auto. change (dgetE DISCRETE_OCCUPANCY (entry (s_id x) (VStr bg))) with (Ok (VStr bg)).
  cbv iota beta. cbn [val_eqb]. rewrite String.eqb_refl. cbn [negb nucleus_nearby]. change (list_getE [q] 0) with (Ok q). cbv iota beta. change (0 + 1 <? 1) with false. cbv iota.
  rewrite set_layout by auto. exists (fun j => if j =? s_id x then q else bg). f_equal. f_equal. apply layout_ext. intros j _. unfold upd. destruct (j =? s_id x); auto.
Qed.

Lemma C98_refuted_lemma : forall dim size r b bg q a rnd ords ords' rnd' p sched np_sum,
  good_size dim (SzInt size) -> q <> bg -> (0 < a)%R -> (forall t, legal (ords t)) -> (forall t, legal (ords' t)) -> summation RA np_sum -> 1 <= p ->
  (dim = 2%nat /\ VonNeumannNbHood2DBuilder RA r = Ok b \/ dim = 3%nat /\ VonNeumannNbHood3DBuilder RA r = Ok b) -> 0 <= r -> r * size < Z.of_nat dim * (size / 2) ->
  exists s st i x, (forall f1 f2, 2 <= Z.of_nat f1 -> 1002 <= Z.of_nat f2 ->
      grow RA f1 f2 np_sum rnd ords ords' rnd' p sched (Z.of_nat dim) size 1 bg [(q, a)] (Some b) None = Some (Ok (mkSim st s))) /\
    square_grid (repeat size dim) s /\ get_site s i = Some x /\ holds st i bg.
Proof.
  intros dim size r b bg q a rnd ords ords' rnd' p sched np_sum GS NQ PA LO LO' SM P1 HB Hr FAR.
  assert (AO : amounts_ok bg [(q, a)]).
  { split; [repeat constructor; auto|]. split; [intros [E|[]]; cbn in E; congruence|]. split; [intros x y [E|[]]; injection E as _ <-; lra|]. cbn. lra. }
  destruct (C98_ball_lemma dim size 1 bg [(q, a)] None r b rnd ords ords' rnd' p sched np_sum GS ltac:(lia) AO LO LO' SM P1 HB Hr) as (g & Eg & HG).
  destruct AO as (UQ & NB & NN & TP).
  assert (OKS : exists sim, setup_random_sites RA 2 1002 np_sum rnd ords (Z.of_nat dim) (SzInt size) 1 bg [(q, a)] None = Some (Ok sim)).
  { destruct (random_prepared dim (SzInt size) bg None GS) as (s & L & nbg & G & SG & NN0 & EP & HN). rewrite NN0 in * by auto.
    assert (NE : sites s None <> []). { pose proof (gf_count _ _ _ G) as C. pose proof (prod_pos _ (gf_pos _ _ _ G)). intros E. rewrite E in C. cbn [length] in C. change (Z.of_nat 0) with 0 in C. lia. }
    destruct (identities_start 1 [(q, a)] np_sum UQ NN TP ltac:(lia) SM 2%nat ltac:(cbn; lia)) as (ids & EI & LI & II & _). destruct ids as [|q' [|]]; try (cbn in LI; lia).
    prep EP. rewrite EI. change 1002%nat with (S (S 1000)). destruct (plant_one RA s L bg q' rnd ords 1000 (gf_built _ _ _ G) NE) as (g' & X). rewrite X. eauto. }
  destruct OKS as (sim & OKS).
  assert (GE : g <> Err RuntimeError).
  { intros ->. destruct HG as [_|(s & st & l & E & _)]; [|discriminate]. specialize (Eg 2%nat 1002%nat ltac:(cbn; lia) ltac:(lia)).
    destruct (random_run dim (SzInt size) 1 bg [(q, a)] None rnd ords np_sum GS ltac:(lia) (conj UQ (conj NB (conj NN TP))) LO SM) as (g' & Er & [->|(s & st0 & -> & SG & CF & _)]).
    - rewrite (Er 2%nat 1002%nat) in OKS by (cbn; lia). discriminate.
    - destruct (vn_finish dim size 1 bg [(q, a)] None r b rnd rnd' ords ords' p sched np_sum s st0 GS Hr HB LO' P1 SG CF Er) as (L & BU & S0 & TOT & SAME & IDS & st & Eg' & _).
      rewrite (Eg' 2%nat 1002%nat) in Eg by (cbn; lia). discriminate. }
  destruct HG as [E|(s & st & l & -> & SG & SI & HO & ND & LL & SJ & _ & OC)]; [contradiction|].
  destruct (square_facts _ _ SG) as [L G]. assert (Ld : length (repeat size dim) = dim) by apply repeat_length.
  assert (S0 : 0 < size) by (destruct GS as ([->| ->] & _ & Q); cbn in Q; now apply Forall_inv in Q).
  destruct l as [|j0 [|]]; try (cbn in LL; lia). clear LL ND.
  assert (CEL : forall x, length x = dim -> exists i, cell s x i) by (intros x Lx; eexists; apply (gf_cell _ _ _ G x); congruence).
  assert (GET : forall x i, cell s x i -> exists y, get_site s i = Some y).
  { intros x i Cx. unfold cell, id_at in Cx. apply bind_Ok in Cx as (o & E & Cx). destruct o as [y|]; [|discriminate]. injection Cx as <-. exists y.
    pose proof (site_at_found RA L s _ y (gf_built _ _ _ G) E) as H. destruct (built_inv RA L s (gf_built _ _ _ G)) as [h I]. apply (inv_get_site RA L h s _ y I). auto. }
  destruct (SJ j0 (or_introl eq_refl)) as (z & Gz). destruct (site_cell _ _ _ _ _ G Gz) as (x0 & L0 & _ & _ & C0 & _). rewrite Ld in L0.
  set (y := shift x0 (repeat (size / 2) dim)). assert (Ly : length y = dim) by (unfold y; rewrite shift_length; rewrite ?repeat_length; auto; lia).
  destruct (CEL y Ly) as (i & Ci). destruct (GET y i Ci) as (x & Gx). exists s, st, i, x. split; [intros f1 f2 H1 H2; apply Eg; cbn; lia|]. split; auto. split; auto.
  destruct (HO i x Gx) as (w & Hw & Pw). destruct (string_dec w bg) as [->|NW]; auto. exfalso.
  assert (O : occupied bg st i) by (exists w; auto). apply (OC y i Ly Ci) in O as (d & j & Ldd & W & Cd & [<-|[]]).
  assert (SC : same_cell (repeat size dim) (shift y d) x0). { rewrite <- (cube_extents dim size). apply (cell_iff (repeat size dim) s L) with (i := j0) (j := j0); auto; rewrite ?shift_length; congruence. }
  apply far_offset in SC; auto. unfold within_vn in W. lia.
Qed.

(** * C97: [grow] in binary64 *)
Lemma growth_builder size s r P b b' : Forall (fun m => 1 <= m <= 2 ^ 20) size -> fl_square size s -> fl_builder (length size) r P b -> b' = Some b \/ (b' = None /\ r = 1 /\ P = within_moore) ->
  growth_nbhood FA s b' = nb_get FA b s None.
Proof.
  intros Hk FS HB HB'. unfold growth_nbhood. destruct HB' as [->|(-> & -> & ->)]; [reflexivity|]. rewrite (torus_dim size s Hk FS). destruct HB as [[_ ->]|[(E & _)|(E & _)]]; [reflexivity| |];
    exfalso; apply (f_equal (fun P => P 1 [1; 1])) in E; assert (X : within_moore 1 [1; 1]) by (repeat constructor; lia); rewrite E in X; unfold within_vn in X; simpl in X; lia.
Qed.

Lemma C97_lemma : forall dim size s n bg amts buffer r P b b' rnd ords ords' rnd' p sched np_sum,
  fl_setup dim (SzInt size) s -> 0 <= n -> fl_amounts bg amts -> (n + 1) * (Z.of_nat (length amts) + 2) <= 2 ^ 44 ->
  (forall t, legal (ords t)) -> (forall t, legal (ords' t)) -> summation FA np_sum -> 1 <= p -> 0 <= r <= 2 ^ 20 ->
  fl_builder dim r P b -> b' = Some b \/ (b' = None /\ r = 1 /\ P = within_moore) ->
  (fl_buffer (repeat size dim) buffer -> exists g, (forall f1 f2, (n + 1) * Z.of_nat (length amts) <= Z.of_nat f1 -> 1000 * n + 2 <= Z.of_nat f2 ->
      grow FA f1 f2 np_sum rnd ords ords' rnd' p sched (Z.of_nat dim) size n bg amts b' buffer = Some g) /\
    (lost size r -> g = Err RuntimeError \/ g = Err TypeError) /\
    (~ lost size r -> g = Err RuntimeError \/ exists st l, g = Ok (mkSim st s) /\
       site_ids st = map (fun x => KInt (s_id x)) (sites s None) /\
       (forall i x, get_site s i = Some x -> exists q, holds st i q /\ (q = bg \/ In q (dkeys amts))) /\
       NoDup l /\ Z.of_nat (length l) = n /\ (forall j, In j l -> exists x, get_site s j = Some x) /\
       (forall c, buffer = Some c -> fl_separated (repeat size dim) s c l) /\
       forall x i, length x = dim -> fl_cell (repeat size dim) s x i ->
         (occupied bg st i <-> exists d j, length d = dim /\ P (r * size) d /\ fl_cell (repeat size dim) s (shift x d) j /\ In j l))) /\
  (bad_buffer (repeat size dim) buffer -> forall f1 f2, grow FA f1 f2 np_sum rnd ords ords' rnd' p sched (Z.of_nat dim) size n bg amts b' buffer = Some (Err TypeError)).
Proof.
  intros dim size s n bg amts buffer r P b b' rnd ords ords' rnd' p sched np_sum FG N0 AM SMALL LO LO' SM P1 Hr HB HB'.
  destruct (C95_lemma dim (SzInt size) s n bg amts buffer rnd ords np_sum FG N0 AM SMALL LO SM) as [OKC BAD].
  destruct (setup_facts dim (SzInt size) s FG) as (Hk & FS & Ld & _ & L & BU). cbn [grid_size] in *.
  assert (D0 : (0 < dim)%nat) by (destruct FG as (([->| ->] & _) & _); lia).
  assert (S0 : 0 < size). { rewrite Forall_forall in Hk. specialize (Hk size). assert (In size (repeat size dim)) by (destruct dim; [lia|simpl; auto]). specialize (Hk H). lia. }
  assert (HB1 : fl_builder (length (repeat size dim)) r P b) by (now rewrite Ld).
  pose proof (growth_builder _ s r P b b' Hk FS HB1 HB') as GN. destruct (torus_builder _ s Hk FS r P b Hr HB1) as [BO BL].
  split; [|intros BB f1 f2; unfold grow; rewrite (BAD BB f1 f2); reflexivity].
  intros FB. destruct (OKC FB) as (g & Er & [->|(st0 & -> & CF & CN & SE & _)]).
  { exists (Err RuntimeError). split; [|split; auto]. intros f1 f2 H1 H2. unfold grow. rewrite (Er f1 f2 H1 H2). reflexivity. }
  destruct (growth_nbhood FA s b') as [N|e] eqn:EN.
  - assert (NL : ~ lost size r).
    { intros LL. rewrite BL in GN; [discriminate|]. apply Exists_exists. exists size. split; auto. destruct dim; [lia|simpl; auto]. }
    destruct BO as (N' & EN' & HN). { apply Forall_forall. intros m Hm. apply repeat_spec in Hm. now subst. }
    assert (N' = N) by congruence. subst N'.
    destruct (finish FA s L dim size n bg amts buffer b' rnd rnd' ords ords' p sched np_sum st0 N (fl_cell (repeat size dim) s) (fun k => P (r * Z.of_nat k))) as (st & Eg & SI & HO & OC); auto.
    + intros x Lx. apply torus_total; auto. congruence.
    + intros x i (c & (Lx & _) & _). rewrite extents_length in Lx. congruence.
    + intros x y i j Cx Cy. rewrite <- (cube_extents dim size) at 1. now apply (torus_same _ s Hk FS).
    + intros i. rewrite (torus_ids _ s Hk FS), Ld. reflexivity.
    + rewrite <- Ld. apply (builder_balls _ r P b); auto. lia.
    + intros x i Lx Cx. rewrite Z.mul_1_r. specialize (HN x i ltac:(congruence) Cx). rewrite Ld in HN. exact HN.
    + exists (Ok (mkSim st s)). split; auto. split; [intros; contradiction|]. intros _. right. exists st, (without_phase s st0 bg). do 3 (split; auto).
      split; [apply NoDup_filter, dense_NoDup, (built_dense FA L s BU)|]. split; auto. split; [intros j Hj; apply (nuclei FA s L bg amts st0 BU CF) in Hj as [Hj _]; now apply (get_site_ids FA L s j BU)|].
      split; auto. intros x i Lx Cx. rewrite (OC x i Lx Cx), Z2Nat.id by lia.
      split; intros (d & j & Ldd & W & Cd & O); exists d, j; (split; [auto|split; [auto|split; auto]]).
      * apply (nuclei FA s L bg amts st0 BU CF). split; auto. apply (torus_ids _ s Hk FS). exists (shift x d). split; auto. rewrite shift_length; congruence.
      * now apply (nuclei FA s L bg amts st0 BU CF) in O.
  - exists (Err e). split; [intros f1 f2 H1 H2; unfold grow; rewrite (Er f1 f2 H1 H2); cbn [bind sim_struct]; rewrite EN; reflexivity|]. split.
    + intros LL. right. rewrite BL in GN; [injection GN as ->; auto|]. apply Exists_exists. exists size. split; auto. destruct dim; [lia|simpl; auto].
    + intros NL. destruct BO as (N' & EN' & _); [|congruence]. apply Forall_forall. intros m Hm. apply repeat_spec in Hm. now subst.
Qed.

Lemma C97_fills_lemma : forall dim size s n bg amts buffer r P b b' rnd ords ords' rnd' p sched np_sum,
  fl_setup dim (SzInt size) s -> 1 <= n -> fl_amounts bg amts -> (n + 1) * (Z.of_nat (length amts) + 2) <= 2 ^ 44 ->
  (forall t, legal (ords t)) -> (forall t, legal (ords' t)) -> summation FA np_sum -> 1 <= p -> 1 <= r <= 2 ^ 20 ->
  fl_builder dim r P b -> b' = Some b \/ (b' = None /\ r = 1 /\ P = within_moore) -> ~ lost size r -> fl_buffer (repeat size dim) buffer ->
  P = within_moore \/ Z.of_nat dim * (size / 2) <= r * size ->
  exists g, (forall f1 f2, (n + 1) * Z.of_nat (length amts) <= Z.of_nat f1 -> 1000 * n + 2 <= Z.of_nat f2 ->
      grow FA f1 f2 np_sum rnd ords ords' rnd' p sched (Z.of_nat dim) size n bg amts b' buffer = Some g) /\
    (g = Err RuntimeError \/ exists st, g = Ok (mkSim st s) /\
       site_ids st = map (fun x => KInt (s_id x)) (sites s None) /\
       forall i x, get_site s i = Some x -> exists q, holds st i q /\ q <> bg /\ In q (dkeys amts)).
Proof.
  intros dim size s n bg amts buffer r P b b' rnd ords ords' rnd' p sched np_sum FG N1 AM SMALL LO LO' SM P1 Hr HB HB' NL FB COV.
  destruct (C97_lemma dim size s n bg amts buffer r P b b' rnd ords ords' rnd' p sched np_sum FG ltac:(lia) AM SMALL LO LO' SM P1 ltac:(lia) HB HB') as [OKC _].
  destruct (OKC FB) as (g & Eg & _ & HG). exists g. split; auto. destruct (HG NL) as [->|(st & l & -> & SI & HO & _ & LL & SJ & _ & OC)]; auto. right. exists st. split; auto. split; auto.
  intros i x Gx. destruct (HO i x Gx) as (q & Hq & Pq).
  destruct (setup_facts dim (SzInt size) s FG) as (Hk & FS & Ld & _ & L & BU). cbn [grid_size] in *.
  assert (S0 : 0 < size). { rewrite Forall_forall in Hk. specialize (Hk size). assert (In size (repeat size dim)) by (destruct FG as (([->| ->] & _) & _); simpl; auto). specialize (Hk H). lia. }
  assert (CELL : forall i, (exists x, get_site s i = Some x) -> exists y, length y = dim /\ fl_cell (repeat size dim) s y i).
  { intros k Hx. apply (get_site_ids FA L s k BU) in Hx. apply (torus_ids _ s Hk FS) in Hx. now rewrite Ld in Hx. }
  assert (O : occupied bg st i).
  { destruct (CELL i (ex_intro _ x Gx)) as (y & Ly & Cy). apply (OC y i Ly Cy). destruct l as [|j l]; [cbn in LL; lia|].
    destruct (CELL j (SJ j (or_introl eq_refl))) as (z & Lz & Cz). destruct (near_offset dim size y z S0 Ly Lz) as (d & Ldd & Fd & SC). exists d, j. split; auto. split.
    - assert (PM : P = within_moore \/ P = within_vn) by (destruct HB as [[-> _]|[[-> _]|[-> _]]]; auto).
      rewrite <- (Z2Nat.id size) by lia. destruct COV as [->|COV]; [now apply (moore_covers dim)|]. destruct PM as [->| ->]; [now apply (moore_covers dim)|now apply (vn_covers dim)].
    - split; [|simpl; auto]. apply (torus_eq _ s) with z; auto. apply same_cell_sym. now rewrite cube_extents. }
  destruct O as (q' & Hq' & Dq). assert (q' = q) by (unfold holds in *; congruence). subst q'. exists q. split; auto. split; auto. destruct Pq; [contradiction|auto].
Qed.

Lemma C97_refuted_lemma : exists size s, 1 <= size <= 100 /\ fl_setup 2 (SzInt size) s /\
  forall n bg amts rnd ords ords' rnd' p sched np_sum, 0 <= n -> fl_amounts bg amts -> (n + 1) * (Z.of_nat (length amts) + 2) <= 2 ^ 44 ->
  (forall t, legal (ords t)) -> (forall t, legal (ords' t)) -> summation FA np_sum -> 1 <= p ->
  exists e, (e = RuntimeError \/ e = TypeError) /\ forall f1 f2, (n + 1) * Z.of_nat (length amts) <= Z.of_nat f1 -> 1000 * n + 2 <= Z.of_nat f2 ->
    grow FA f1 f2 np_sum rnd ords ords' rnd' p sched 2 size n bg amts None None = Some (Err e).
Proof.
  assert (Hk : Forall (fun m => 1 <= m <= 2 ^ 20) [49; 49]) by (repeat constructor; lia). destruct (square_box [49; 49] (or_introl eq_refl) Hk) as (s & L & FS & _).
  assert (FG : fl_setup 2 (SzInt 49) s) by (split; [split; [auto|split; [reflexivity|]]|split; [|exact FS]]; repeat constructor; lia).
  exists 49, s. split; [lia|]. split; auto. intros n bg amts rnd ords ords' rnd' p sched np_sum N0 AM SM LO LO' SU P1.
  assert (LT : lost 49 1) by (apply lost_1; [unfold M20; lia|]; apply short_at_border; [unfold M20; lia|vm_compute; reflexivity]).
  destruct (MooreNbHoodBuilder FA 1 2) as [b|e] eqn:Eb; [|discriminate].
  destruct (C97_lemma 2 49 s n bg amts None 1 within_moore b None rnd ords ords' rnd' p sched np_sum FG N0 AM SM LO LO' SU P1 ltac:(lia)) as [H _]; auto.
  { left. split; auto. }
  destruct (H I) as (g & G & GL & _). destruct (GL LT) as [-> | ->]; eexists; (split; [|exact G]); auto.
Qed.
