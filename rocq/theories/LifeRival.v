(** Proofs for C139: how runs of life-like variants compare. *)
From Coq Require Import Reals Permutation.
From Verif Require Import Prelude Dict Val Arith RealArith LatticeModel StructModel StateModel ResultModel RunnerModel NbModel GridModel RulesModel SpecGeom SpecNb SpecGrid SpecState SpecSetup SpecRules SpecLife SpecRival LifeFacts LifePlane LifeNamed.
Local Open Scope Z_scope.

Lemma played_shows size s variant born survive init g n o t st :
  board size s init g -> process_variant_string variant = Ok (born, survive) -> played s variant init n o ->
  0 <= t <= n -> get_step (o_result o) t = Ok st -> shows s st (life_after born survive (Z.to_nat t) g).
Proof.
  intros (SG & L2 & F3 & PI & SH) EV (ords & rnd & ctl & LO & EI & R) Ht ES.
  destruct (C52_lemma size s variant ords rnd ctl born survive init g n SG L2 F3 LO EV EI PI SH) as [(o1 & E1 & _ & H1) PAR].
  destruct R as [E|(p & sched & Hp & E)].
  - rewrite E in E1. injection E1 as <-. destruct (H1 t ltac:(lia)) as (st' & E' & _ & S'). rewrite ES in E'. injection E' as <-. exact S'.
  - destruct (PAR p sched Hp) as (o2 & E2 & _ & H2). rewrite E in E2. injection E2 as <-. destruct (H2 t ltac:(lia)) as (st' & E' & _ & S'). rewrite ES in E'. injection E' as <-. exact S'.
Qed.

Lemma mem_In k l : existsb (Z.eqb k) l = true <-> In k l.
Proof. rewrite existsb_exists. split; [intros (x & H & E); apply Z.eqb_eq in E; now subst|intros H; exists k; split; [exact H|apply Z.eqb_refl]]. Qed.
Lemma next_true b s g x y : life_next b s g x y = true <-> In (alive_around g x y) (if g x y then s else b).
Proof. apply mem_In. Qed.
Lemma bool_iff a b : (a = true <-> b = true) -> a = b.
Proof. destruct a, b; intros [H1 H2]; auto; symmetry; auto. Qed.

Lemma exchange_next b s b' s' g x y :
  (forall k, 0 <= k <= 8 -> (In k b' <-> ~ In (8 - k) s) /\ (In k s' <-> ~ In (8 - k) b)) ->
  life_next b' s' (fun x y => negb (g x y)) x y = negb (life_next b s g x y).
Proof.
  intros H. apply bool_iff. rewrite negb_true_iff, <- not_true_iff_false, !next_true, around_negb. pose proof (around_range g x y) as A.
  destruct (H (8 - alive_around g x y) ltac:(lia)) as [H1 H2]. replace (8 - (8 - alive_around g x y)) with (alive_around g x y) in H1, H2 by lia.
  destruct (g x y); assumption.
Qed.
Lemma exchange_after b s b' s' t g x y :
  (forall k, 0 <= k <= 8 -> (In k b' <-> ~ In (8 - k) s) /\ (In k s' <-> ~ In (8 - k) b)) ->
  life_after b' s' t (fun x y => negb (g x y)) x y = negb (life_after b s t g x y).
Proof. intros H. revert x y. induction t as [|t IH]; intros x y; auto. cbn [life_after]. rewrite <- (exchange_next _ _ b' s') by exact H. apply life_next_ext. exact IH. Qed.

Lemma C139_exchange_lemma : forall size s variant variant' born survive born' survive' init init' g n o o',
  board size s init g -> board size s init' (fun x y => negb (g x y)) ->
  process_variant_string variant = Ok (born, survive) -> process_variant_string variant' = Ok (born', survive') ->
  (forall k, 0 <= k <= 8 -> (In k born' <-> ~ In (8 - k) survive) /\ (In k survive' <-> ~ In (8 - k) born)) ->
  played s variant init n o -> played s variant' init' n o' ->
  forall t st st' i x, 0 <= t <= n -> get_step (o_result o) t = Ok st -> get_step (o_result o') t = Ok st' -> get_site s i = Some x ->
    (holds st i "alive" <-> holds st' i "dead") /\ (holds st i "dead" <-> holds st' i "alive").
Proof.
  intros size s v v' b sv b' sv' init init' g n o o' B B' EV EV' D R R' t st st' i x Ht E1 E2 GX.
  pose proof (played_shows _ _ _ _ _ _ _ _ _ _ _ B EV R Ht E1) as S1. pose proof (played_shows _ _ _ _ _ _ _ _ _ _ _ B' EV' R' Ht E2) as S2.
  destruct B as (SG & L2 & _). destruct (some_cell size s i x SG L2 GX) as (a & c & C). specialize (S1 a c i C). specialize (S2 a c i C).
  rewrite (exchange_after b sv) in S2 by exact D. destruct (life_after _ _ _ g a c); cbn [negb] in S2; split; split; intros H; auto;
    first [pose proof (holds_one _ _ _ _ H S1); discriminate | pose proof (holds_one _ _ _ _ H S2); discriminate].
Qed.

Lemma around_le g h x y : (forall x y, g x y = true -> h x y = true) -> alive_around g x y <= alive_around h x y.
Proof.
  intros LE. unfold alive_around. apply Nat2Z.inj_le. induction around as [|d l IH]; [auto|]. cbn [filter].
  destruct (g (x + fst d) (y + snd d)) eqn:E; [rewrite (LE _ _ E); cbn; lia|]. destruct (h (x + fst d) (y + snd d)); cbn; lia.
Qed.
Lemma order_after b s b' s' t g h :
  (forall j k, 0 <= j <= k -> k <= 8 -> (In j b -> In k b' /\ In k s') /\ (In j s -> In k s')) ->
  (forall x y, g x y = true -> h x y = true) -> forall x y, life_after b s t g x y = true -> life_after b' s' t h x y = true.
Proof.
  intros M LE. induction t as [|t IH]; [exact LE|]. intros x y. cbn [life_after]. rewrite !next_true.
  pose proof (around_le _ _ x y IH) as A. pose proof (around_range (life_after b s t g) x y). pose proof (around_range (life_after b' s' t h) x y).
  destruct (M _ _ (conj (proj1 H) A) (proj2 H0)) as [M1 M2]. specialize (IH x y). destruct (life_after b s t g x y).
  - rewrite IH by reflexivity. exact M2.
  - intros I. destruct (life_after b' s' t h x y); apply M1; exact I.
Qed.

Lemma C139_order_lemma : forall size s variant variant' born survive born' survive' init init' g h n o o',
  board size s init g -> board size s init' h -> (forall x y, g x y = true -> h x y = true) ->
  process_variant_string variant = Ok (born, survive) -> process_variant_string variant' = Ok (born', survive') ->
  (forall j k, 0 <= j <= k -> k <= 8 -> (In j born -> In k born' /\ In k survive') /\ (In j survive -> In k survive')) ->
  played s variant init n o -> played s variant' init' n o' ->
  forall t st st' i x, 0 <= t <= n -> get_step (o_result o) t = Ok st -> get_step (o_result o') t = Ok st' -> get_site s i = Some x ->
    holds st i "alive" -> holds st' i "alive".
Proof.
  intros size s v v' b sv b' sv' init init' g h n o o' B B' LE EV EV' D R R' t st st' i x Ht E1 E2 GX A.
  pose proof (played_shows _ _ _ _ _ _ _ _ _ _ _ B EV R Ht E1) as S1. pose proof (played_shows _ _ _ _ _ _ _ _ _ _ _ B' EV' R' Ht E2) as S2.
  destruct B as (SG & L2 & _). destruct (some_cell size s i x SG L2 GX) as (a & c & C). specialize (S1 a c i C). specialize (S2 a c i C).
  pose proof (order_after b sv b' sv' (Z.to_nat t) g h D LE a c) as O. destruct (life_after b sv _ g a c); [rewrite O in S2 by reflexivity; exact S2|].
  pose proof (holds_one _ _ _ _ A S1). discriminate.
Qed.

Lemma same_after b s b' s' t g : (forall k, 0 <= k <= 8 -> (In k b <-> In k b') /\ (In k s <-> In k s')) -> forall x y, life_after b s t g x y = life_after b' s' t g x y.
Proof.
  intros M. induction t as [|t IH]; [reflexivity|]. intros x y. cbn [life_after]. rewrite (life_next_ext _ _ _ _ _ _ IH). apply bool_iff. rewrite !next_true.
  pose proof (around_range (life_after b' s' t g) x y) as A. destruct (M _ A). destruct (life_after b' s' t g x y); assumption.
Qed.

Lemma C139_same_lemma : forall size s variant variant' born survive born' survive' init init' g n o o',
  board size s init g -> board size s init' g ->
  process_variant_string variant = Ok (born, survive) -> process_variant_string variant' = Ok (born', survive') ->
  (forall k, 0 <= k <= 8 -> (In k born <-> In k born') /\ (In k survive <-> In k survive')) ->
  played s variant init n o -> played s variant' init' n o' ->
  forall t st st' i x p, 0 <= t <= n -> get_step (o_result o) t = Ok st -> get_step (o_result o') t = Ok st' -> get_site s i = Some x ->
    (holds st i p <-> holds st' i p).
Proof.
  intros size s v v' b sv b' sv' init init' g n o o' B B' EV EV' D R R' t st st' i x p Ht E1 E2 GX.
  pose proof (played_shows _ _ _ _ _ _ _ _ _ _ _ B EV R Ht E1) as S1. pose proof (played_shows _ _ _ _ _ _ _ _ _ _ _ B' EV' R' Ht E2) as S2.
  destruct B as (SG & L2 & _). destruct (some_cell size s i x SG L2 GX) as (a & c & C). specialize (S1 a c i C). specialize (S2 a c i C).
  rewrite (same_after b sv b' sv') in S1 by exact D. split; intros H; [rewrite (holds_one _ _ _ _ H S1)|rewrite (holds_one _ _ _ _ H S2)]; assumption.
Qed.

Lemma C139_lasting_lemma : forall size s variant born survive init g n o,
  board size s init g -> process_variant_string variant = Ok (born, survive) -> played s variant init n o ->
  forall t st st' i x, 0 <= t < n -> get_step (o_result o) t = Ok st -> get_step (o_result o) (t + 1) = Ok st' -> get_site s i = Some x ->
    ((forall k, 0 <= k <= 8 -> In k survive) -> holds st i "alive" -> holds st' i "alive") /\
    ((forall k, 0 <= k <= 8 -> ~ In k survive) -> holds st i "alive" -> holds st' i "dead") /\
    ((forall k, 0 <= k <= 8 -> ~ In k born) -> holds st i "dead" -> holds st' i "dead") /\
    ((forall k, 0 <= k <= 8 -> In k born) -> holds st i "dead" -> holds st' i "alive").
Proof.
  intros size s v b sv init g n o B EV R t st st' i x Ht E1 E2 GX.
  pose proof (played_shows _ _ _ _ _ _ _ _ _ t _ B EV R ltac:(lia) E1) as S1. pose proof (played_shows _ _ _ _ _ _ _ _ _ (t + 1) _ B EV R ltac:(lia) E2) as S2.
  destruct B as (SG & L2 & _). destruct (some_cell size s i x SG L2 GX) as (a & c & C). specialize (S1 a c i C). specialize (S2 a c i C).
  replace (Z.to_nat (t + 1)) with (S (Z.to_nat t)) in S2 by lia. cbn [life_after] in S2.
  set (q := life_after b sv (Z.to_nat t) g) in *. pose proof (next_true b sv q a c) as N. pose proof (around_range q a c) as A.
  assert (ND : q a c = true -> holds st i "dead" -> False) by (intros Q H; rewrite Q in S1; pose proof (holds_one _ _ _ _ H S1); discriminate).
  assert (NA : q a c = false -> holds st i "alive" -> False) by (intros Q H; rewrite Q in S1; pose proof (holds_one _ _ _ _ H S1); discriminate).
  destruct (q a c); destruct (life_next b sv q a c); repeat split; intros K H; try exact S2; exfalso; eauto;
    try (apply (K _ A), N; reflexivity); (assert (F : false = true) by (apply N, (K _ A)); discriminate F).
Qed.
