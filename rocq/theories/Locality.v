(** Influence travels one neighbourhood per step (C88). *)
From Coq Require Import Reals Permutation.
From Verif Require Import Prelude Dict Val ValFacts Arith RealArith LatticeModel StructModel StateModel ResultModel RunnerModel NbModel GridModel SimModel SetupModel RulesModel
  SpecState SpecResult SpecRunner SpecGeom SpecNb SpecGrid SpecSetup SpecRules StateFacts ResultFacts RunnerFacts SyncFacts LatticeFacts StructFacts GridFacts GridMore RulesFacts LifeFacts.
Local Open Scope Z_scope.

Lemma own_answer_fun id v u u' : own_answer id v u -> own_answer id v u' -> u = u'.
Proof.
  intros [[E ->]|[N M]] [[E' ->]|[N' M']]; try congruence. destruct (means_fun _ _ _ _ _ _ M M') as [X _]. congruence.
Qed.
Lemma no_site s i k : ~ In i (site_ids s) -> site_entry s i k = None.
Proof.
  intros H. unfold site_entry, get_site_state. destruct (dget i (s_sites s)) eqn:E; auto.
  exfalso. apply H. unfold site_ids. apply dget_In in E. apply in_map_iff. eexists. split; [|exact E]. reflexivity.
Qed.

Lemma C88_lemma : forall nbr f s1 s2 n o1 o2, own_fun f -> local_fun nbr f -> swf s1 -> swf s2 ->
  (forall i, In i (site_ids s1) <-> In i (site_ids s2)) -> get_general_state s1 = get_general_state s2 ->
  run_sync (pure_controller f) tt s1 n = Ok o1 -> run_sync (pure_controller f) tt s2 n = Ok o2 ->
  forall t, 0 <= t <= Z.max 0 n -> exists x1 x2, get_step (o_result o1) t = Ok x1 /\ get_step (o_result o2) t = Ok x2 /\
    forall i, (forall j, hops nbr (Z.to_nat t) i j -> agree_at s1 s2 j) -> agree_at x1 x2 i.
Proof.
  intros nbr f s1 s2 n o1 o2 Own Loc W1 W2 IDS GEN R1 R2.
  assert (OR : own_rule (pure_controller f)).
  { intros c id s v c' E. cbn in E. apply bind_Ok in E as (w & E & F). injection F as <- <-. eapply Own; eauto. }
  destruct (C15_lemma _ _ _ _ _ _ OR W1 R1) as (_ & Z1 & S1). destruct (C15_lemma _ _ _ _ _ _ OR W2 R2) as (_ & Z2 & S2).
  assert (K : forall m, Z.of_nat m <= Z.max 0 n -> exists x1 x2, get_step (o_result o1) (Z.of_nat m) = Ok x1 /\ get_step (o_result o2) (Z.of_nat m) = Ok x2 /\
     site_ids x1 = site_ids s1 /\ site_ids x2 = site_ids s2 /\ get_general_state x1 = get_general_state s1 /\ get_general_state x2 = get_general_state s2 /\
     forall i, (forall j, hops nbr m i j -> agree_at s1 s2 j) -> agree_at x1 x2 i).
  { induction m as [|m IH]; intros Lm.
    - exists s1, s2. repeat (split; auto). intros i H. apply H. constructor.
    - destruct IH as (x1 & x2 & E1 & E2 & I1 & I2 & G1 & G2 & H); [lia|].
      destruct (S1 (Z.of_nat m)) as (a1 & b1 & A1 & B1 & J1 & F1 & U1); [lia|]. destruct (S2 (Z.of_nat m)) as (a2 & b2 & A2 & B2 & J2 & F2 & U2); [lia|].
      rewrite E1 in A1. injection A1 as <-. rewrite E2 in A2. injection A2 as <-.
      replace (Z.of_nat m + 1) with (Z.of_nat (S m)) in B1, B2 by lia. exists b1, b2. repeat (split; auto).
      intros i Hi. destruct (in_dec (fun a b : key => match eqb_spec a b with ReflectT _ e => left e | ReflectF _ e => right e end) i (site_ids s1)) as [D|D].
      + pose proof (proj1 (IDS i) D) as D2. destruct (U1 i D) as (c1 & c1' & v1 & u1 & EV1 & OA1 & EF1). destruct (U2 i D2) as (c2 & c2' & v2 & u2 & EV2 & OA2 & EF2).
        cbn in EV1, EV2. apply bind_Ok in EV1 as (w1 & X1 & Y1). injection Y1 as <- <-. apply bind_Ok in EV2 as (w2 & X2 & Y2). injection Y2 as <- <-.
        assert (AI : agree_at x1 x2 i).
        { apply H. intros j HJ. apply Hi. clear -HJ. induction HJ; [constructor|econstructor; eauto]. }
        rewrite (Loc i x1 x2) in X1; auto; [|congruence|].
        2:{ intros j Hj. apply H. intros j' HJ. apply Hi. econstructor; eauto. }
        rewrite X1 in X2. injection X2 as <-. rewrite (own_answer_fun _ _ _ _ OA2 OA1) in EF2.
        intros k. rewrite EF1, EF2, (AI k). reflexivity.
      + intros k. rewrite !no_site; auto; [rewrite J2|rewrite J1; auto]. intros Y. apply D, IDS. auto. }
  intros t Ht. destruct (K (Z.to_nat t)) as (x1 & x2 & E1 & E2 & _ & _ & _ & _ & H); [lia|]. rewrite Z2Nat.id in E1, E2 by lia. eauto.
Qed.

(** The Game of Life: one cell per step. *)
Lemma life_after_local born survive g g' : forall t x y,
  (forall dx dy, Z.abs dx <= Z.of_nat t -> Z.abs dy <= Z.of_nat t -> g (x + dx) (y + dy) = g' (x + dx) (y + dy)) ->
  life_after born survive t g x y = life_after born survive t g' x y.
Proof.
  induction t as [|t IH]; intros x y H; cbn [life_after].
  - specialize (H 0 0 ltac:(lia) ltac:(lia)). now rewrite !Z.add_0_r in H.
  - assert (N : forall e f, Z.abs e <= 1 -> Z.abs f <= 1 -> life_after born survive t g (x + e) (y + f) = life_after born survive t g' (x + e) (y + f)).
    { intros e f E F. apply IH. intros dx dy DX DY. rewrite <- !Z.add_assoc. apply H; lia. }
    unfold life_next. pose proof (N 0 0 ltac:(lia) ltac:(lia)) as C. rewrite !Z.add_0_r in C. rewrite C.
    replace (alive_around (life_after born survive t g) x y) with (alive_around (life_after born survive t g') x y); auto.
    unfold alive_around. do 2 f_equal. apply filter_ext_in. intros [e f] He. symmetry. cbn [fst snd]. apply around_bound in He as (B1 & B2 & _). apply N; auto.
Qed.
Lemma C88_life_lemma : forall size s variant ords ords' rnd rnd' ctl ctl' init init' g g' n,
  square_grid size s -> length size = 2%nat -> Forall (fun m => 3 <= m) size -> (forall t, legal (ords t)) -> (forall t, legal (ords' t)) ->
  life_init RA s ords rnd variant = Ok ctl -> life_init RA s ords' rnd' variant = Ok ctl' ->
  Permutation (site_ids init) (map (fun x => KInt (s_id x)) (sites s None)) -> Permutation (site_ids init') (map (fun x => KInt (s_id x)) (sites s None)) ->
  shows s init g -> shows s init' g' ->
  exists o o', run_sync ctl (None, 0%nat) init n = Ok o /\ run_sync ctl' (None, 0%nat) init' n = Ok o' /\
    forall t, 0 <= t <= Z.max 0 n -> exists st st', get_step (o_result o) t = Ok st /\ get_step (o_result o') t = Ok st' /\
      forall x y i, cell s [x; y] i ->
        (forall dx dy j p, Z.abs dx <= t -> Z.abs dy <= t -> cell s [x + dx; y + dy] j -> (holds init j p <-> holds init' j p)) ->
        forall p, holds st i p <-> holds st' i p.
Proof.
  intros size s variant ords ords' rnd rnd' ctl ctl' init init' g g' n SG L2 F3 LO LO' E E' P P' H H'.
  assert (V : exists born survive, process_variant_string variant = Ok (born, survive)).
  { unfold life_init in E. destruct (process_variant_string variant) as [[b v]|]; [eauto|]. discriminate. }
  destruct V as (born & survive & V).
  destruct (C52_lemma size s variant ords rnd ctl born survive init g n SG L2 F3 LO V E P H) as [(o & R & _ & ST) _].
  destruct (C52_lemma size s variant ords' rnd' ctl' born survive init' g' n SG L2 F3 LO' V E' P' H') as [(o' & R' & _ & ST') _].
  exists o, o'. split; auto. split; auto. intros t Ht. destruct (ST t Ht) as (st & G1 & _ & SH). destruct (ST' t Ht) as (st' & G2 & _ & SH').
  exists st, st'. split; auto. split; auto. intros x y i C A. destruct (square_facts size s SG) as (L & GF).
  specialize (SH x y i C). specialize (SH' x y i C).
  rewrite (life_after_local born survive g g') in SH.
  - intros p. split; intros X; [rewrite (holds_fun _ _ _ _ X SH); exact SH'|rewrite (holds_fun _ _ _ _ X SH'); exact SH].
  - intros dx dy DX DY. pose proof (gf_cell _ _ _ GF [x + dx; y + dy] ltac:(now rewrite L2)) as C2.
    specialize (A dx dy _ (if g (x + dx) (y + dy) then "alive" else "dead")%string ltac:(lia) ltac:(lia) C2).
    pose proof (proj1 A (H _ _ _ C2)) as X. pose proof (holds_fun _ _ _ _ X (H' _ _ _ C2)) as Y.
    destruct (g (x + dx) (y + dy)), (g' (x + dx) (y + dy)); auto; discriminate.
Qed.

(** A local rule: take over the value of the left neighbour. *)
Definition left_of (i j : key) : Prop := exists z, i = KInt z /\ j = KInt (z - 1).
Definition copy_left (id : key) (s : sstate) : res val :=
  match id with
  | KInt z => Ok (VDict [(KStr "v", match site_entry s (KInt (z - 1)) (KStr "v") with Some v => v | None => VNone end)])
  | KStr _ => Ok (VDict [])
  end.
Lemma copy_left_own : own_fun copy_left.
Proof.
  intros [z|t] s v E; cbn in E; injection E as <-.
  - eexists. split; [right; split; [discriminate|]; apply means_site; [split; reflexivity|]|unfold uniq; cbn; repeat constructor; intros []].
    intros [_ H]. destruct (H (KStr "v")) as [x X]; [now left|discriminate].
  - exists []. split; [|constructor]. right. split; [discriminate|]. apply means_site; [split; reflexivity|]. intros [H _]. now apply H.
Qed.
Lemma copy_left_local : local_fun left_of copy_left.
Proof. intros [z|t] s1 s2 _ _ H; auto. cbn. rewrite (H (KInt (z - 1))); auto. exists z. auto. Qed.
