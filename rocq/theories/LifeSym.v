(** The Game of Life commutes with the symmetries of the plane (C82). *)
From Coq Require Import Reals Permutation.
From Verif Require Import Prelude Dict Val Arith RealArith LatticeModel StructModel StateModel ResultModel RunnerModel NbModel GridModel SimModel SetupModel RulesModel
  SpecState SpecGeom SpecNb SpecGrid SpecSetup SpecRules LatticeFacts StructFacts GridFacts GridMore RulesFacts LifeFacts.
Local Open Scope Z_scope.

Lemma filter_map_len {A B} (f : B -> bool) (h : A -> B) l : length (filter f (map h l)) = length (filter (fun a => f (h a)) l).
Proof. induction l as [|a l IH]; cbn [map filter]; auto. destruct (f (h a)); cbn [length]; auto. Qed.

(** The linear part of a symmetry. *)
Definition turn (sw : bool) (c d : Z) (e : Z * Z) : Z * Z := if sw then (c * snd e, d * fst e) else (c * fst e, d * snd e).
Ltac pair_eq H := let A := fresh in let B := fresh in pose proof (f_equal fst H) as A; pose proof (f_equal snd H) as B; cbn [fst snd] in A, B.
Lemma turn_around sw c d : Z.abs c = 1 -> Z.abs d = 1 -> Permutation (map (turn sw c d) around) around.
Proof.
  intros C D. assert (C' : c = 1 \/ c = -1) by lia. assert (D' : d = 1 \/ d = -1) by lia. clear C D.
  apply NoDup_Permutation; [|apply around_NoDup|].
  - apply nodup_map_in; [|apply around_NoDup]. intros [a1 a2] [b1 b2] _ _ E. destruct sw, C' as [->| ->], D' as [->| ->]; cbn [turn fst snd] in E; pair_eq E; f_equal; lia.
  - intros [e1 e2]. rewrite in_map_iff. split.
    + intros ([f1 f2] & E & H). apply around_bound in H as (B1 & B2 & N). cbn [fst snd] in *.
      destruct sw, C' as [->| ->], D' as [->| ->]; cbn [turn fst snd] in E; pair_eq E; (apply around_all; [lia|lia|]); intros X; apply N; pair_eq X; f_equal; lia.
    + intros H. apply around_bound in H as (B1 & B2 & N). cbn [fst snd] in *. destruct sw; [exists (d * e2, c * e1)|exists (c * e1, d * e2)]; cbn [turn fst snd];
        destruct C' as [->| ->], D' as [->| ->]; (split; [f_equal; lia|]); (apply around_all; [lia|lia|]); intros X; apply N; pair_eq X; f_equal; lia.
Qed.
Lemma symmetry_turn T : symmetry T -> exists sw c d, Z.abs c = 1 /\ Z.abs d = 1 /\
  forall x y e, T (x + fst e) (y + snd e) = (fst (T x y) + fst (turn sw c d e), snd (T x y) + snd (turn sw c d e)).
Proof.
  intros (a & b & c & d & C & D & [H|H]); [exists false|exists true]; exists c, d; split; auto; split; auto; intros x y [e1 e2]; rewrite !H; cbn [turn fst snd]; f_equal; ring.
Qed.
Lemma life_after_turn born survive T g g' : symmetry T -> (forall x y, g x y = g' (fst (T x y)) (snd (T x y))) ->
  forall t x y, life_after born survive t g x y = life_after born survive t g' (fst (T x y)) (snd (T x y)).
Proof.
  intros HT E. destruct (symmetry_turn T HT) as (sw & c & d & C & D & K). induction t as [|t IH]; intros x y; [apply E|]. cbn [life_after]. unfold life_next. rewrite IH.
  assert (A : alive_around (life_after born survive t g) x y = alive_around (life_after born survive t g') (fst (T x y)) (snd (T x y))); [|now rewrite A].
  unfold alive_around. f_equal. rewrite <- (filter_len_perm (fun e => life_after born survive t g' (fst (T x y) + fst e) (snd (T x y) + snd e)) _ _ (turn_around sw c d C D)). rewrite filter_map_len. f_equal. apply filter_ext. intros e. rewrite IH, K. reflexivity.
Qed.

Lemma shows_moved size s T st st' g g' : square_grid size s -> length size = 2%nat -> shows s st g -> shows s st' g' ->
  (moved s T st st' <-> forall x y, g x y = g' (fst (T x y)) (snd (T x y))).
Proof.
  intros SG L2 H H'. destruct (square_facts size s SG) as (L & G). split.
  - intros M x y. pose proof (gf_cell _ _ _ G [x; y] ltac:(now rewrite L2)) as C1. pose proof (gf_cell _ _ _ G [fst (T x y); snd (T x y)] ltac:(now rewrite L2)) as C2.
    pose proof (proj1 (M x y _ _ _ C1 C2) (H _ _ _ C1)) as X. pose proof (holds_fun _ _ _ _ X (H' _ _ _ C2)) as Y.
    destruct (g x y), (g' (fst (T x y)) (snd (T x y))); auto; discriminate.
  - intros E x y i j p C1 C2. specialize (H _ _ _ C1). specialize (H' _ _ _ C2). rewrite E in H. split; intros X.
    + rewrite (holds_fun _ _ _ _ X H). exact H'.
    + rewrite (holds_fun _ _ _ _ X H'). exact H.
Qed.

Lemma C82_lemma : forall size s variant ords ords' rnd rnd' ctl ctl' init init' g g' T n,
  square_grid size s -> length size = 2%nat -> Forall (fun m => 3 <= m) size -> (forall t, legal (ords t)) -> (forall t, legal (ords' t)) ->
  life_init RA s ords rnd variant = Ok ctl -> life_init RA s ords' rnd' variant = Ok ctl' ->
  Permutation (site_ids init) (map (fun x => KInt (s_id x)) (sites s None)) -> Permutation (site_ids init') (map (fun x => KInt (s_id x)) (sites s None)) ->
  shows s init g -> shows s init' g' -> symmetry T -> moved s T init init' ->
  (exists o o', run_sync ctl (None, 0%nat) init n = Ok o /\ run_sync ctl' (None, 0%nat) init' n = Ok o' /\
     rlen (o_result o) = Z.max 0 n + 1 /\ rlen (o_result o') = Z.max 0 n + 1 /\
     forall t, 0 <= t <= Z.max 0 n -> exists st st', get_step (o_result o) t = Ok st /\ get_step (o_result o') t = Ok st' /\ moved s T st st') /\
  (forall p sched, 1 <= p -> exists o o', run_parallel ctl p sched (None, 0%nat) init n = Ok o /\ run_sync ctl' (None, 0%nat) init' n = Ok o' /\
     forall t, 0 <= t <= Z.max 0 n -> exists st st', get_step (o_result o) t = Ok st /\ get_step (o_result o') t = Ok st' /\ moved s T st st').
Proof.
  intros size s variant ords ords' rnd rnd' ctl ctl' init init' g g' T n SG L2 F3 LO LO' E E' P P' H H' HT M.
  assert (V : exists born survive, process_variant_string variant = Ok (born, survive)).
  { unfold life_init in E. destruct (process_variant_string variant) as [[born survive]|]; [eauto|discriminate]. }
  destruct V as (born & survive & V).
  destruct (C52_lemma size s variant ords rnd ctl born survive init g n SG L2 F3 LO V E P H) as [(o & R & RL & G) PAR].
  destruct (C52_lemma size s variant ords' rnd' ctl' born survive init' g' n SG L2 F3 LO' V E' P' H') as [(o' & R' & RL' & G') _].
  pose proof (proj1 (shows_moved size s T init init' g g' SG L2 H H') M) as EG.
  split.
  - exists o, o'. split; auto. split; auto. split; auto. split; auto. intros t Ht. destruct (G t Ht) as (st & E1 & _ & S1). destruct (G' t Ht) as (st' & E2 & _ & S2).
    exists st, st'. split; auto. split; auto. apply (shows_moved size s T st st' _ _ SG L2 S1 S2). now apply life_after_turn.
  - intros p sched Hp. destruct (PAR p sched Hp) as (op & Rp & _ & Gp). exists op, o'. split; auto. split; auto. intros t Ht. destruct (Gp t Ht) as (st & E1 & _ & S1). destruct (G' t Ht) as (st' & E2 & _ & S2).
    exists st, st'. split; auto. split; auto. apply (shows_moved size s T st st' _ _ SG L2 S1 S2). now apply life_after_turn.
Qed.
