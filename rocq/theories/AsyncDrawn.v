(** Asynchronous growth with neighbourhoods that are drawn anew (C124). *)
From Coq Require Import Reals Permutation.
From Flocq Require Import Core BinarySingleNaN.
From Verif Require Import Prelude Dict Val ValFacts Arith RealArith FloatArith LatticeModel StructModel StateModel ResultModel RunnerModel NbModel GridModel SimModel SetupModel RulesModel
  SpecState SpecResult SpecRunner SpecGeom SpecNb SpecGrid SpecSetup SpecRules SpecFloat64 SpecDraw SpecVisit StateFacts ResultFacts RunnerFacts StructFacts StructMore NbFacts GridFacts GridMore GridNb NbShapes
  SetupFacts RulesFacts RulesMore AsyncGrow AsyncPath FloatFacts FloatCoord FloatNb FloatMotif FloatTorus DrawFloat.
Local Open Scope Z_scope.

Lemma reached_le start draw nbr t t' i : (t <= t')%nat -> reached start draw nbr t i -> reached start draw nbr t' i.
Proof. intros L H. destruct H as [t i H|t k j Hk B H]; [now constructor|]. apply reached_hop with j; auto. lia. Qed.

Section Visits.
  Context {F : Type} (N : nbhood F) (bg : string) (ords : nat -> @nb_oracle F) (rnd : nat -> nat) (m : Z).
  Hypothesis (LO : forall t, legal (ords t)) (HM : 0 < m) (HN : has_neighbours (zrange 0 m) N).
  Variables (c0 : nat) (init : sstate).
  Hypothesis PI : phased (zrange 0 m) init.
  Notation draw := (fun k => Z.of_nat (rnd (c0 + 2 * k)%nat) mod m).
  Notation drawn := (fun k i j => exists l, neighbors_of (ords (S (c0 + 2 * k))) N i = Ok l /\ In j l).

  Lemma visits n : exists o, run_async (growth_controller N bg ords rnd) c0 init n = Ok o /\ rlen (o_result o) = Z.max 0 n + 1 /\
    forall t, 0 <= t <= Z.max 0 n -> exists st, get_step (o_result o) t = Ok st /\ phased (zrange 0 m) st /\
      forall i, In i (zrange 0 m) -> (occupied bg st i <-> reached (occupied bg init) draw drawn (Z.to_nat t) i).
  Proof.
    destruct (async_facts N bg ords rnd m LO HM HN c0 init PI) as (f & F0 & HF & HI & HK & HW & R).
    destruct (R n) as (o & E & RL & _ & G). exists o. split; auto. split; auto. intros t Ht. exists (f (Z.to_nat t)). split; [now apply G|]. split; [apply HF|].
    generalize (Z.to_nat t) as u. clear t Ht.
    assert (DI : forall k, In (draw k) (zrange 0 m)) by (intros k; apply zrange_In, Z.mod_pos_bound, HM).
    induction u as [|u IH]; intros i Hi.
    - rewrite F0. split; [intros O; now constructor|]. intros H. inversion H as [t i' H'|t k j L]; subst; [auto|lia].
    - destruct (HF u) as [PH V]. split.
      + intros (p & Hp & D). destruct (visited_new N bg m HN _ _ _ _ i p PH (DI u) (LO _) V Hp) as [H|(-> & _ & l & k & EL & Hk & Ik & H)].
        * apply reached_le with u; [lia|]. apply IH; auto. exists p. auto.
        * refine (reached_hop (occupied bg init) draw drawn (S u) u k _ _ _); [lia|eauto|]. apply IH; auto. exists p. auto.
      + intros H. assert (X : occupied bg (f u) i \/ i = draw u /\ exists j, drawn u i j /\ reached (occupied bg init) draw drawn u j).
        { clear F0. inversion H as [t i' H'|t k j L B H']; subst; [left; apply IH; auto; now constructor|]. destruct (Nat.eq_dec k u) as [->|Nk]; [right; eauto|].
          left. apply IH; auto. refine (reached_hop (occupied bg init) draw drawn u k j _ _ _); auto. lia. }
        destruct X as [(p & Hp & D)|(-> & j & (l & EL & Hj) & H')].
        * exists p. split; auto. replace (S u) with (u + 1)%nat by lia. now apply HK.
        * assert (Ij : In j (zrange 0 m)). { destruct (HN _ _ (LO (S (c0 + 2 * u))) (DI u)) as (l' & EL' & IL). cbn beta in *. rewrite EL in EL'. injection EL' as <-. now apply IL. }
          apply IH in H'; auto. destruct (proj2 PH _ (DI u)) as [q Hq]. destruct (eqb_spec q bg) as [->|D].
          -- destruct V as (_ & l' & EL' & _ & P). rewrite EL in EL'. injection EL' as <-. destruct P as (r & Hr & Dr & _); eauto. exists r. auto.
          -- exists q. split; auto. replace (S u) with (u + 1)%nat by lia. now apply HK.
  Qed.

  (** Neighbourhoods between two relations. *)
  Variables lo up : Z -> Z -> Prop.
  Hypothesis HB : forall o i l j, legal o -> In i (zrange 0 m) -> neighbors_of o N i = Ok l -> (lo i j -> In j l) /\ (In j l -> up i j).
  Notation path nbr t i := (exists j l, occupied bg init j /\ walk nbr j l i /\ in_order l (map draw (seq 0 t))).

  Lemma path_reached t : forall i, path lo t i -> reached (occupied bg init) draw drawn t i.
  Proof.
    induction t as [|t IH]; intros i (j & l & O & W & I).
    - inversion I; subst. cbn [walk] in W. subst. now constructor.
    - rewrite seq_S, map_app in I. cbn [map Nat.add] in I. apply in_order_snoc in I as [I|(l' & -> & I)].
      + apply reached_le with t; [lia|]. apply IH. eauto.
      + apply walk_snoc in W as (-> & k & W & B). refine (reached_hop (occupied bg init) draw drawn (S t) t k _ _ _); [lia| |apply IH; eauto].
        assert (DI : In (draw t) (zrange 0 m)) by apply zrange_In, Z.mod_pos_bound, HM. destruct (HN _ _ (LO (S (c0 + 2 * t))) DI) as (l & EL & _). exists l. split; auto.
        eapply HB; eauto.
  Qed.
  Lemma reached_path t i : reached (occupied bg init) draw drawn t i -> path up t i.
  Proof.
    induction 1 as [t i O|t k j L (l & EL & Hj) H (j0 & l0 & O & W & I)].
    - exists i, []. split; auto. split; [reflexivity|]. apply in_order_nil_l.
    - exists j0, (l0 ++ [draw k]). split; auto. split.
      + apply walk_snoc. split; auto. exists j. split; auto. eapply HB; eauto. apply zrange_In, Z.mod_pos_bound, HM.
      + assert (X : in_order (l0 ++ [draw k]) (map draw (seq 0 (S k)))) by (rewrite seq_S, map_app; cbn [map Nat.add]; apply in_order_snoc; eauto).
        revert X. clear - L. intros X. replace t with (S k + (t - S k))%nat by lia. generalize (t - S k)%nat as e. induction e as [|e IH]; [now rewrite Nat.add_0_r|].
        rewrite Nat.add_succ_r, seq_S, map_app. cbn [map Nat.add]. apply in_order_snoc. now left.
  Qed.
End Visits.

Lemma C124_lemma : forall F (N : nbhood F) bg ords rnd m c0 init n,
  (forall t, legal (ords t)) -> 0 < m -> has_neighbours (zrange 0 m) N -> phased (zrange 0 m) init ->
  exists o, run_async (growth_controller N bg ords rnd) c0 init n = Ok o /\ rlen (o_result o) = Z.max 0 n + 1 /\
    forall t, 0 <= t <= Z.max 0 n -> exists st, get_step (o_result o) t = Ok st /\ phased (zrange 0 m) st /\
      forall i, In i (zrange 0 m) -> (occupied bg st i <->
        reached (occupied bg init) (fun k => Z.of_nat (rnd (c0 + 2 * k)%nat) mod m)
          (fun k i j => exists l, neighbors_of (ords (S (c0 + 2 * k))) N i = Ok l /\ In j l) (Z.to_nat t) i).
Proof. intros F N bg ords rnd m c0 init n LO HM HN PI. now apply visits. Qed.

Lemma C124_between_lemma : forall F (N : nbhood F) bg ords rnd m c0 init n (lo up : Z -> Z -> Prop),
  (forall t, legal (ords t)) -> 0 < m -> has_neighbours (zrange 0 m) N -> phased (zrange 0 m) init ->
  (forall o i l j, legal o -> In i (zrange 0 m) -> neighbors_of o N i = Ok l -> (lo i j -> In j l) /\ (In j l -> up i j)) ->
  let path nbr t i := exists j l, occupied bg init j /\ walk nbr j l i /\ in_order l (map (fun k => Z.of_nat (rnd (c0 + 2 * k)%nat) mod m) (seq 0 (Z.to_nat t))) in
  exists o, run_async (growth_controller N bg ords rnd) c0 init n = Ok o /\ rlen (o_result o) = Z.max 0 n + 1 /\
    forall t, 0 <= t <= Z.max 0 n -> exists st, get_step (o_result o) t = Ok st /\ phased (zrange 0 m) st /\
      forall i, In i (zrange 0 m) -> (path lo t i -> occupied bg st i) /\ (occupied bg st i -> path up t i).
Proof.
  intros F N bg ords rnd m c0 init n lo up LO HM HN PI HB path. destruct (visits N bg ords rnd m LO HM HN c0 init PI n) as (o & E & RL & H). exists o. split; auto. split; auto.
  intros t Ht. destruct (H t Ht) as (st & Es & PH & K). exists st. split; auto. split; auto. intros i Hi. rewrite (K i Hi). split.
  - intros P. apply (path_reached N bg ords rnd m LO HM HN c0 init lo up HB). exact P.
  - intros P. apply (reached_path N bg ords rnd m LO HM c0 init lo up HB). exact P.
Qed.

(** * Grids *)
Section Cells.
  Context {F : Type} (D : nat) (C : list Z -> Z -> Prop) (m : Z).
  Hypothesis SHI : forall p q d i j, length p = D -> length q = D -> length d = D -> C p i -> C q i -> C (shift p d) j -> C (shift q d) j.
  Hypothesis IDS : forall i, In i (zrange 0 m) <-> exists p, length p = D /\ C p i.

  Lemma drawn_has E shape (N : nbhood F) : draws D C E shape N -> has_neighbours (zrange 0 m) N.
  Proof.
    intros [DS _] o i Lo Hi. apply IDS in Hi as (p & Lp & Cp). destruct (DS o Lo) as (e & _ & X). destruct (X p i Lp Cp) as (l & El & _ & IN). exists l. split; auto.
    intros j Hj. apply IN in Hj as (_ & d & Ld & _ & Cd). apply IDS. exists (shift p d). split; auto. rewrite shift_length; congruence.
  Qed.
  Lemma drawn_between E shape (N : nbhood F) (P Q : list Z -> Prop) : draws D C E shape N -> (forall e d, E e -> length d = D -> (P d -> shape e d) /\ (shape e d -> Q d)) ->
    forall o i l j, legal o -> In i (zrange 0 m) -> neighbors_of o N i = Ok l -> (offset_by C D P i j -> In j l) /\ (In j l -> offset_by C D Q i j).
  Proof.
    intros [DS _] SH o i l j Lo Hi El. apply IDS in Hi as (p & Lp & Cp). destruct (DS o Lo) as (e & He & X). destruct (X p i Lp Cp) as (l' & El' & _ & IN). rewrite El in El'. injection El' as <-. rewrite IN. split.
    - intros (Nj & q & d & Lq & Ld & Bd & Cq & Cd). split; auto. exists d. split; auto. split; [now apply (SH e d He Ld)|]. apply (SHI q p d i j); auto.
    - intros (Nj & d & Ld & Sd & Cd). split; auto. exists p, d. split; auto. split; auto. split; [now apply (SH e d He Ld)|]. auto.
  Qed.
End Cells.

Lemma hex_lies n e d : diagonal_of n e -> length d = n -> (within_vn 1 d -> hexagonal e d) /\ (hexagonal e d -> within_moore 1 d).
Proof.
  intros [Le He] Ld. split; [now left|]. intros [V|[->| ->]].
  - now apply vn_moore.
  - unfold within_moore. eapply Forall_impl; [|exact He]. cbn; intros; lia.
  - unfold within_moore. rewrite Forall_map. eapply Forall_impl; [|exact He]. cbn; intros; lia.
Qed.

Lemma C124_hexagonal_lemma : forall size s b N bg ords rnd c0 init n, square_grid size s ->
  (length size = 2%nat /\ PseudoHexagonalNeighborhoodBuilder2D RA = Ok b \/ length size = 3%nat /\ PseudoHexagonalNeighborhoodBuilder3D RA = Ok b) ->
  growth_nbhood RA s (Some b) = Ok N -> (forall t, legal (ords t)) ->
  let m := Z.of_nat (length (sites s None)) in phased (zrange 0 m) init ->
  let path near t i := exists j l, occupied bg init j /\ walk (offset_by (cell s) (length size) near) j l i /\
    in_order l (map (fun k => Z.of_nat (rnd (c0 + 2 * k)%nat) mod m) (seq 0 (Z.to_nat t))) in
  exists o, run_async (growth_controller N bg ords rnd) c0 init n = Ok o /\ rlen (o_result o) = Z.max 0 n + 1 /\
    forall t, 0 <= t <= Z.max 0 n -> exists st, get_step (o_result o) t = Ok st /\ phased (zrange 0 m) st /\
      forall i, In i (zrange 0 m) -> (path (within_vn 1) t i -> occupied bg st i) /\ (occupied bg st i -> path (within_moore 1) t i).
Proof.
  intros size s b N bg ords rnd c0 init n SG HB EN LO m PH path. unfold growth_nbhood in EN. cbn [bind] in EN. destruct (square_facts _ _ SG) as [L G].
  assert (T : draws_shape size s (diagonal_of (length size)) hexagonal N).
  { destruct (C42_shapes_lemma size s SG) as [H2 H3]. destruct HB as [[D Eb]|[D Eb]]; rewrite D.
    - destruct (proj1 (H2 D)) as (b1 & N1 & Eb1 & EN' & T). assert (b = b1) by congruence. subst. assert (N = N1) by congruence. now subst.
    - destruct (H3 D) as (b1 & N1 & Eb1 & EN' & T). assert (b = b1) by congruence. subst. assert (N = N1) by congruence. now subst. }
  assert (SHI : forall p q d i j, length p = length size -> length q = length size -> length d = length size -> cell s p i -> cell s q i -> cell s (shift p d) j -> cell s (shift q d) j).
  { intros p q d i j Lp Lq Ld Cp Cq Cs. apply (cell_same size s L (shift p d)); auto; [rewrite shift_length; congruence|]. apply same_shift; [now rewrite extents_length|].
    apply (cell_iff size s L p q i i); auto. }
  assert (MP : 0 < m) by (pose proof (gf_count _ _ _ G) as CT; pose proof (prod_pos _ (gf_pos _ _ _ G)); unfold m; lia).
  assert (ID0 : map s_id (sites s None) = zrange 0 m) by apply (built_dense RA L s (gf_built _ _ _ G)).
  assert (IDS : forall i, In i (zrange 0 m) <-> exists p, length p = length size /\ cell s p i).
  { intros i. rewrite <- ID0. split.
    + intros Hi. apply (get_site_ids RA L s i (gf_built _ _ _ G)) in Hi as [z Gz]. destruct (site_cell _ _ _ _ _ G Gz) as (p & Lp & _ & _ & Cp & _). eauto.
    + intros (p & Lp & Cp). apply (get_site_ids RA L s i (gf_built _ _ _ G)). unfold cell, id_at in Cp.
      apply bind_Ok in Cp as (o & X & Cp). destruct o as [y|]; [|discriminate]. injection Cp as <-. exists y.
      pose proof (site_at_found RA L s _ y (gf_built _ _ _ G) X) as H. destruct (built_inv RA L s (gf_built _ _ _ G)) as [h I]. apply (inv_get_site RA L h s _ y I). auto. }
  apply C124_between_lemma; auto.
  - exact (drawn_has (length size) (cell s) m IDS _ _ N T).
  - apply (drawn_between (length size) (cell s) m SHI IDS _ _ N (within_vn 1) (within_moore 1) T). intros e d He Ld. now apply (hex_lies (length size)).
Qed.

Lemma C124_float_lemma : forall size s b bg ords rnd c0 init n, Forall (fun m => 1 <= m <= 2 ^ 20) size -> fl_square size s -> Forall (fun m => ~ falls_short m m) size ->
  (length size = 2%nat /\ PseudoHexagonalNeighborhoodBuilder2D FA = Ok b \/ length size = 3%nat /\ PseudoHexagonalNeighborhoodBuilder3D FA = Ok b) ->
  (forall t, legal (ords t)) ->
  let m := Z.of_nat (length (sites s None)) in phased (zrange 0 m) init ->
  let path near t i := exists j l, occupied bg init j /\ walk (offset_by (fl_cell size s) (length size) near) j l i /\
    in_order l (map (fun k => Z.of_nat (rnd (c0 + 2 * k)%nat) mod m) (seq 0 (Z.to_nat t))) in
  exists N o, growth_nbhood FA s (Some b) = Ok N /\ run_async (growth_controller N bg ords rnd) c0 init n = Ok o /\ rlen (o_result o) = Z.max 0 n + 1 /\
    forall t, 0 <= t <= Z.max 0 n -> exists st, get_step (o_result o) t = Ok st /\ phased (zrange 0 m) st /\
      forall i, In i (zrange 0 m) -> (path (within_vn 1) t i -> occupied bg st i) /\ (occupied bg st i -> path (within_moore 1) t i).
Proof.
  intros size s b bg ords rnd c0 init n Hk FS NL HB LO m PH path. unfold growth_nbhood. cbn [bind].
  assert (T : exists N, nb_get FA b s None = Ok N /\ fl_draws_shape size s (diagonal_of (length size)) hexagonal N).
  { destruct (C123_lemma size s Hk FS) as [H2 H3]. destruct HB as [[D Eb]|[D Eb]]; rewrite D.
    - destruct (proj1 (H2 D)) as (b1 & Eb1 & T & _). assert (b = b1) by congruence. subst. auto.
    - destruct (H3 D) as (b1 & Eb1 & T & _). assert (b = b1) by congruence. subst. auto. }
  destruct T as (N & EN & T). exists N. pose proof (torus_dense size s Hk FS : map s_id (sites s None) = zrange 0 m) as ID0.
  assert (IDS : forall i, In i (zrange 0 m) <-> exists p, length p = length size /\ fl_cell size s p i) by (intros i; rewrite <- ID0; now apply torus_ids).
  assert (MP : 0 < m). { destruct (torus_total size s Hk FS (repeat 0 (length size)) (repeat_length _ _)) as (i & Ci). assert (X : In i (zrange 0 m)) by (apply IDS; exists (repeat 0 (length size)); split; auto using repeat_length). apply zrange_In in X. lia. }
  destruct (C124_between_lemma _ N bg ords rnd m c0 init n (offset_by (fl_cell size s) (length size) (within_vn 1)) (offset_by (fl_cell size s) (length size) (within_moore 1)) LO MP) as (o & Eo & H); eauto.
  - exact (drawn_has (length size) (fl_cell size s) m IDS _ _ N T).
  - apply (drawn_between (length size) (fl_cell size s) m) with (E := diagonal_of (length size)) (shape := hexagonal); auto.
    + now apply torus_shift.
    + intros e d He Ld. now apply (hex_lies (length size)).
Qed.
