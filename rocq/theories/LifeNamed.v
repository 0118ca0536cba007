(** Proofs for C107: the named life-like variants. *)
From Coq Require Import Reals Permutation.
From Verif Require Import Prelude Dict Val Arith RealArith LatticeModel StructModel StateModel ResultModel RunnerModel NbModel GridModel RulesModel SpecState SpecGeom SpecNb SpecGrid SpecSetup SpecRules SpecLife GridFacts GridMore SetupFacts LifeFacts LifeSym LifePlane SpecFloat64 FloatArith LifeFloat.
Local Open Scope Z_scope.

Lemma named_rule name born survive : In (name, (born, survive)) named_variants -> process_variant_string name = Ok (born, survive).
Proof. intros [E|[E|[E|[E|[E|[]]]]]]; injection E as <- <- <-; reflexivity. Qed.

Lemma C107_named_lemma : forall size s ords rnd init g n name born survive,
  square_grid size s -> length size = 2%nat -> Forall (fun m => 3 <= m) size -> (forall t, legal (ords t)) ->
  Permutation (site_ids init) (map (fun x => KInt (s_id x)) (sites s None)) -> shows s init g ->
  In (name, (born, survive)) named_variants ->
  exists ctl, life_init RA s ords rnd name = Ok ctl /\ every_run ctl (None, 0%nat) init n (fun t st => shows s st (life_after born survive t g)).
Proof.
  intros size s ords rnd init g n name born survive SG L2 F3 LO PI SH IN. pose proof (named_rule _ _ _ IN) as EV.
  assert (exists ctl, life_init RA s ords rnd name = Ok ctl) as [ctl EI] by (unfold life_init; rewrite EV; cbn [bind]; eauto).
  exists ctl. split; auto.
  destruct (C52_lemma size s name ords rnd ctl born survive init g n SG L2 F3 LO EV EI PI SH) as [(o & Eo & RL & H) PAR].
  split.
  - exists o. split; auto. split; auto. intros t Ht. destruct (H (Z.of_nat t) ltac:(lia)) as (st & E1 & _ & E2). rewrite Nat2Z.id in E2. exists st. split; auto.
  - intros p sched Hp. destruct (PAR p sched Hp) as (op & Ep & RLp & HP). exists op. split; auto. split; auto.
    intros t Ht. destruct (HP (Z.of_nat t) ltac:(lia)) as (st & E1 & _ & E2). rewrite Nat2Z.id in E2. exists st. split; auto.
Qed.

(** Any run shows the history of the pattern. *)
Lemma run_shows : forall size s ords rnd init g n name born survive ctl o t st,
  square_grid size s -> length size = 2%nat -> Forall (fun m => 3 <= m) size -> (forall t, legal (ords t)) ->
  Permutation (site_ids init) (map (fun x => KInt (s_id x)) (sites s None)) -> shows s init g ->
  In (name, (born, survive)) named_variants -> life_init RA s ords rnd name = Ok ctl -> some_run ctl (None, 0%nat) init n o ->
  0 <= t <= n -> get_step (o_result o) t = Ok st -> shows s st (life_after born survive (Z.to_nat t) g).
Proof.
  intros size s ords rnd init g n name born survive ctl o t st SG L2 F3 LO PI SH IN EI R Ht ES.
  destruct (C107_named_lemma size s ords rnd init g n name born survive SG L2 F3 LO PI SH IN) as (ctl' & EI' & (o1 & E1 & _ & H1) & PAR).
  rewrite EI in EI'. injection EI' as <-. destruct R as [E|(p & sched & Hp & E)].
  - rewrite E in E1. injection E1 as <-. destruct (H1 (Z.to_nat t) ltac:(lia)) as (st' & E' & S'). rewrite Z2Nat.id in E' by lia. rewrite ES in E'. injection E' as <-. exact S'.
  - destruct (PAR p sched Hp) as (o2 & E2 & _ & H2). rewrite E in E2. injection E2 as <-.
    destruct (H2 (Z.to_nat t) ltac:(lia)) as (st' & E' & S'). rewrite Z2Nat.id in E' by lia. rewrite ES in E'. injection E' as <-. exact S'.
Qed.

Lemma holds_one st i p q : holds st i p -> holds st i q -> p = q.
Proof. unfold holds. congruence. Qed.

Lemma some_cell : forall size s i x, square_grid size s -> length size = 2%nat -> get_site s i = Some x -> exists a b, cell s [a; b] i.
Proof.
  intros size s i x SG L2 GX. destruct (square_facts _ _ SG) as [L G]. destruct (site_cell _ _ _ _ _ G GX) as (p & LP & _ & _ & C & _).
  rewrite L2 in LP. destruct p as [|a [|b [|]]]; try discriminate. eauto.
Qed.

Lemma C107_seeds_lemma : forall size s ords rnd init g n ctl o,
  square_grid size s -> length size = 2%nat -> Forall (fun m => 3 <= m) size -> (forall t, legal (ords t)) ->
  Permutation (site_ids init) (map (fun x => KInt (s_id x)) (sites s None)) -> shows s init g ->
  life_init RA s ords rnd Seeds = Ok ctl -> some_run ctl (None, 0%nat) init n o ->
  forall t st st' i x, 0 <= t < n -> get_step (o_result o) t = Ok st -> get_step (o_result o) (t + 1) = Ok st' -> get_site s i = Some x ->
    ~ (holds st i "alive" /\ holds st' i "alive").
Proof.
  intros size s ords rnd init g n ctl o SG L2 F3 LO PI SH EI R t st st' i x Ht E1 E2 GX [A1 A2].
  assert (IN : In (Seeds, ([2], [])) named_variants) by (unfold named_variants, In; tauto).
  pose proof (run_shows _ _ _ _ _ _ _ _ _ _ _ _ t st SG L2 F3 LO PI SH IN EI R ltac:(lia) E1) as S1.
  pose proof (run_shows _ _ _ _ _ _ _ _ _ _ _ _ (t + 1) st' SG L2 F3 LO PI SH IN EI R ltac:(lia) E2) as S2.
  destruct (some_cell size s i x SG L2 GX) as (a & b & C). specialize (S1 a b i C). specialize (S2 a b i C).
  replace (Z.to_nat (t + 1)) with (S (Z.to_nat t)) in S2 by lia. cbn [life_after] in S2. unfold life_next in S2 at 1.
  destruct (life_after [2] [] (Z.to_nat t) g a b).
  - cbn [existsb] in S2. pose proof (holds_one _ _ _ _ A2 S2). discriminate.
  - pose proof (holds_one _ _ _ _ A1 S1). discriminate.
Qed.

Lemma filter_negb_length {X} (f : X -> bool) l : (length (filter (fun x => negb (f x)) l) + length (filter f l) = length l)%nat.
Proof. induction l as [|x l IH]; simpl; auto. destruct (f x); simpl; lia. Qed.

Lemma around_negb g x y : alive_around (fun x y => negb (g x y)) x y = 8 - alive_around g x y.
Proof. unfold alive_around. pose proof (filter_negb_length (fun d => g (x + fst d) (y + snd d)) around) as H. change (length around) with 8%nat in H. lia. Qed.
Lemma around_range g x y : 0 <= alive_around g x y <= 8.
Proof. pose proof (around_negb g x y). unfold alive_around in *. lia. Qed.

Lemma anneal_next g x y : life_next [4; 6; 7; 8] [3; 5; 6; 7; 8] (fun x y => negb (g x y)) x y = negb (life_next [4; 6; 7; 8] [3; 5; 6; 7; 8] g x y).
Proof.
  unfold life_next. rewrite around_negb. pose proof (around_range g x y) as H. set (k := alive_around g x y) in *.
  assert (D : k = 0 \/ k = 1 \/ k = 2 \/ k = 3 \/ k = 4 \/ k = 5 \/ k = 6 \/ k = 7 \/ k = 8) by lia.
  clearbody k. destruct (g x y); repeat destruct D as [->|D]; subst; reflexivity.
Qed.
Lemma life_next_ext born survive g h x y : (forall x y, g x y = h x y) -> life_next born survive g x y = life_next born survive h x y.
Proof. intros E. unfold life_next, alive_around. rewrite E. f_equal. f_equal. f_equal. f_equal. apply filter_ext. intros d. apply E. Qed.
Lemma anneal_after t g x y : life_after [4; 6; 7; 8] [3; 5; 6; 7; 8] t (fun x y => negb (g x y)) x y = negb (life_after [4; 6; 7; 8] [3; 5; 6; 7; 8] t g x y).
Proof. revert x y. induction t as [|t IH]; intros x y; auto. cbn [life_after]. rewrite <- anneal_next. apply life_next_ext. exact IH. Qed.

Lemma C107_anneal_lemma : forall size s ords ords' rnd rnd' init init' g n ctl ctl' o o',
  square_grid size s -> length size = 2%nat -> Forall (fun m => 3 <= m) size -> (forall t, legal (ords t)) -> (forall t, legal (ords' t)) ->
  Permutation (site_ids init) (map (fun x => KInt (s_id x)) (sites s None)) -> Permutation (site_ids init') (map (fun x => KInt (s_id x)) (sites s None)) ->
  shows s init g -> shows s init' (fun x y => negb (g x y)) ->
  life_init RA s ords rnd Anneal = Ok ctl -> life_init RA s ords' rnd' Anneal = Ok ctl' ->
  some_run ctl (None, 0%nat) init n o -> some_run ctl' (None, 0%nat) init' n o' ->
  forall t st st' i x, 0 <= t <= n -> get_step (o_result o) t = Ok st -> get_step (o_result o') t = Ok st' -> get_site s i = Some x ->
    (holds st i "alive" <-> holds st' i "dead") /\ (holds st i "dead" <-> holds st' i "alive").
Proof.
  intros size s ords ords' rnd rnd' init init' g n ctl ctl' o o' SG L2 F3 LO LO' PI PI' SH SH' EI EI' R R' t st st' i x Ht E1 E2 GX.
  assert (IN : In (Anneal, ([4; 6; 7; 8], [3; 5; 6; 7; 8])) named_variants) by (unfold named_variants, In; tauto).
  pose proof (run_shows _ _ _ _ _ _ _ _ _ _ _ _ t st SG L2 F3 LO PI SH IN EI R ltac:(lia) E1) as S1.
  pose proof (run_shows _ _ _ _ _ _ _ _ _ _ _ _ t st' SG L2 F3 LO' PI' SH' IN EI' R' ltac:(lia) E2) as S2.
  destruct (some_cell size s i x SG L2 GX) as (a & b & C). specialize (S1 a b i C). specialize (S2 a b i C).
  rewrite anneal_after in S2. destruct (life_after _ _ _ g a b); cbn [negb] in S2; split; split; intros H; auto;
    first [pose proof (holds_one _ _ _ _ H S1); discriminate | pose proof (holds_one _ _ _ _ H S2); discriminate].
Qed.

Lemma constant_next born survive (b : bool) x y : life_next born survive (fun _ _ => b) x y = existsb (Z.eqb (if b then 8 else 0)) (if b then survive else born).
Proof. unfold life_next, alive_around. destruct b; reflexivity. Qed.
Lemma constant_after born survive (b : bool) t x y : existsb (Z.eqb (if b then 8 else 0)) (if b then survive else born) = b ->
  life_after born survive t (fun _ _ => b) x y = b.
Proof.
  intros H. revert x y. induction t as [|t IH]; intros x y; auto. cbn [life_after].
  rewrite (life_next_ext _ _ _ (fun _ _ => b)) by exact IH. rewrite constant_next. exact H.
Qed.
Lemma life_after_S born survive t g x y : life_after born survive (S t) g x y = life_after born survive t (life_next born survive g) x y.
Proof.
  revert x y. induction t as [|t IH]; intros x y; auto. cbn [life_after]. apply life_next_ext. exact IH.
Qed.
Lemma life_after_ext born survive t g h x y : (forall x y, g x y = h x y) -> life_after born survive t g x y = life_after born survive t h x y.
Proof. intros E. revert x y. induction t as [|t IH]; intros x y; auto. cbn [life_after]. now apply life_next_ext. Qed.

Lemma C107_uniform_lemma : forall size s ords rnd init b n name born survive ctl o,
  square_grid size s -> length size = 2%nat -> Forall (fun m => 3 <= m) size -> (forall t, legal (ords t)) ->
  Permutation (site_ids init) (map (fun x => KInt (s_id x)) (sites s None)) -> shows s init (fun _ _ => b) ->
  In (name, (born, survive)) named_variants -> life_init RA s ords rnd name = Ok ctl -> some_run ctl (None, 0%nat) init n o ->
  forall t st, 0 < t <= n -> get_step (o_result o) t = Ok st ->
    shows s st (fun _ _ => b && (eqb name Anneal || eqb name Diamoeba)).
Proof.
  intros size s ords rnd init b n name born survive ctl o SG L2 F3 LO PI SH IN EI R t st Ht E1.
  pose proof (run_shows _ _ _ _ _ _ _ _ _ _ _ _ t st SG L2 F3 LO PI SH IN EI R ltac:(lia) E1) as S1.
  intros a c i C. specialize (S1 a c i C). replace (Z.to_nat t) with (S (Z.to_nat (t - 1))) in S1 by lia.
  rewrite life_after_S in S1.
  rewrite (life_after_ext _ _ _ _ (fun _ _ => b && (eqb name Anneal || eqb name Diamoeba))) in S1.
  - rewrite constant_after in S1; auto. destruct IN as [E|[E|[E|[E|[E|[]]]]]]; injection E as <- <- <-; destruct b; reflexivity.
  - intros u v. rewrite constant_next. destruct IN as [E|[E|[E|[E|[E|[]]]]]]; injection E as <- <- <-; destruct b; reflexivity.
Qed.

Lemma C107_float_lemma : forall n m s ords rnd init g k name born survive,
  3 <= n <= 2 ^ 20 -> 3 <= m <= 2 ^ 20 -> fl_grid [n; m] s -> ~ falls_short n n -> ~ falls_short m m -> (forall t, legal (ords t)) ->
  Permutation (site_ids init) (map (fun x => KInt (s_id x)) (sites s None)) -> shows_on n m init g ->
  In (name, (born, survive)) named_variants ->
  exists ctl, life_init FA s ords rnd name = Ok ctl /\ every_run ctl (None, 0%nat) init k (fun t st => shows_on n m st (life_after born survive t g)).
Proof.
  intros n m s ords rnd init g k name born survive Hn Hm FG FN FM LO PI SH IN. pose proof (named_rule _ _ _ IN) as EV.
  assert (exists ctl, life_init FA s ords rnd name = Ok ctl) as [ctl EI] by (unfold life_init; rewrite EV; cbn [bind]; eauto).
  exists ctl. split; auto.
  destruct (C84_lemma n m s name ords rnd ctl born survive init g k Hn Hm FG LO EV EI PI SH) as [OK _].
  destruct (OK FN FM) as [(o & Eo & RL & H) PAR].
  split.
  - exists o. split; auto. split; auto. intros t Ht. destruct (H (Z.of_nat t) ltac:(lia)) as (st & E1 & _ & E2). rewrite Nat2Z.id in E2. exists st. split; auto.
  - intros p sched Hp. destruct (PAR p sched Hp) as (op & Ep & RLp & HP). exists op. split; auto. split; auto.
    intros t Ht. destruct (HP (Z.of_nat t) ltac:(lia)) as (st & E1 & _ & E2). rewrite Nat2Z.id in E2. exists st. split; auto.
Qed.
