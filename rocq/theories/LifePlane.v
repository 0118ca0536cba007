(** Small patterns on large tori live as on the infinite plane (C94). *)
From Coq Require Import Reals Permutation.
From Verif Require Import Prelude Dict Val ValFacts Arith RealArith LatticeModel StructModel StateModel ResultModel RunnerModel NbModel GridModel SimModel SetupModel RulesModel
  StructFacts StructMore NbFacts SpecState SpecResult SpecRunner SpecGeom SpecNb SpecGrid SpecSetup SpecRules GridFacts GridMore GridNb RulesFacts RulesMore LifeFacts LifeSym
  FloatArith SpecFloat64 LifeFloat.
Local Open Scope Z_scope.

(** * Periodic images of a pattern *)
Definition tile (m n : Z) (l : list (Z * Z)) (x y : Z) : bool :=
  existsb (fun d => ((x - fst d) mod m =? 0) && ((y - snd d) mod n =? 0)) l.
Lemma tile_iff m n l x y : 0 < m -> 0 < n -> tile m n l x y = true <-> exists d, In d l /\ (m | x - fst d) /\ (n | y - snd d).
Proof.
  intros Hm Hn. unfold tile. rewrite existsb_exists. split; intros (d & Hd & H); exists d; (split; [exact Hd|]).
  - apply andb_prop in H as [H1 H2]. apply Z.eqb_eq in H1, H2. split; apply Z.mod_divide; lia || auto.
  - destruct H as [H1 H2]. apply andb_true_intro. split; apply Z.eqb_eq, Z.mod_divide; lia || auto.
Qed.
Lemma pattern_iff l x y : pattern l x y = true <-> In (x, y) l.
Proof.
  unfold pattern. rewrite existsb_exists. split.
  - intros ([a b] & Hd & H). apply andb_prop in H as [H1 H2]. apply Z.eqb_eq in H1, H2. cbn in H1, H2. now subst.
  - intros H. exists (x, y). split; auto. cbn. now rewrite !Z.eqb_refl.
Qed.
Lemma bool_iff (a b : bool) : (a = true <-> b = true) -> a = b.
Proof. destruct a, b; intros [H1 H2]; auto; symmetry; auto. Qed.
Lemma tile_periodic m n l x y k k' : 0 < m -> 0 < n -> tile m n l (x + k * m) (y + k' * n) = tile m n l x y.
Proof.
  intros Hm Hn. apply bool_iff. rewrite !tile_iff by auto. split; intros (d & Hd & [a A] & [b B]); exists d; (split; [exact Hd|]).
  - split; [exists (a - k)|exists (b - k')]; lia.
  - split; [exists (a + k)|exists (b + k')]; lia.
Qed.

(** Near its box the periodic pattern is the pattern itself. *)
Lemma tile_near m n l x0 y0 x y : 3 <= m -> 3 <= n -> (forall d, In d l -> x0 <= fst d < x0 + (m - 2) /\ y0 <= snd d < y0 + (n - 2)) ->
  x0 - 2 <= x <= x0 + m - 1 -> y0 - 2 <= y <= y0 + n - 1 -> tile m n l x y = pattern l x y.
Proof.
  intros Hm Hn B Hx Hy. apply bool_iff. rewrite tile_iff, pattern_iff by lia. split.
  - intros ([a b] & Hd & [k K] & [k' K']). destruct (B _ Hd) as [B1 B2]. cbn [fst snd] in *. assert (k = 0) by nia. assert (k' = 0) by nia. subst k k'.
    replace x with a by lia. replace y with b by lia. exact Hd.
  - intros H. exists (x, y). split; auto. cbn. split; [exists 0|exists 0]; lia.
Qed.
Lemma life_next_ext born survive g h x y : (forall dx dy, Z.abs dx <= 1 -> Z.abs dy <= 1 -> g (x + dx) (y + dy) = h (x + dx) (y + dy)) ->
  life_next born survive g x y = life_next born survive h x y.
Proof.
  intros E. unfold life_next, alive_around. pose proof (E 0 0 ltac:(lia) ltac:(lia)) as E0. rewrite !Z.add_0_r in E0. rewrite E0.
  rewrite (filter_ext_in (fun d => g (x + fst d) (y + snd d)) (fun d => h (x + fst d) (y + snd d))); auto.
  intros d Hd. apply around_bound in Hd as (A & B & _). apply E; auto.
Qed.
Lemma life_next_far born survive l x y : ~ In 0 born -> life_next born survive (pattern l) x y = true ->
  exists d, In d l /\ Z.abs (x - fst d) <= 1 /\ Z.abs (y - snd d) <= 1.
Proof.
  intros NB H. unfold life_next in H. destruct (pattern l x y) eqn:P.
  - apply pattern_iff in P. exists (x, y). cbn. split; auto. split; lia.
  - destruct (filter (fun d => pattern l (x + fst d) (y + snd d)) around) as [|d t] eqn:E.
    + exfalso. unfold alive_around in H. rewrite E in H. cbn in H. apply existsb_exists in H as (z & Hz & E0). apply Z.eqb_eq in E0. subst z. auto.
    + assert (Hd : In d (filter (fun d => pattern l (x + fst d) (y + snd d)) around)) by (rewrite E; now left).
      apply filter_In in Hd as [Ha Hp]. apply pattern_iff in Hp. apply around_bound in Ha as (A & B & _). eexists. split; [exact Hp|]. cbn. split; lia.
Qed.
Lemma rep m x0 x : 0 < m -> exists k, x0 <= x + k * m < x0 + m.
Proof.
  intros Hm. exists (- ((x - x0) / m)). pose proof (Z.div_mod (x - x0) m ltac:(lia)) as E. pose proof (Z.mod_pos_bound (x - x0) m Hm). nia.
Qed.

Lemma tile_step born survive m n l l' : 3 <= m -> 3 <= n -> ~ In 0 born -> fits (m - 2) (n - 2) l ->
  (forall x y, In (x, y) l' <-> life_next born survive (pattern l) x y = true) ->
  forall x y, life_next born survive (tile m n l) x y = tile m n l' x y.
Proof.
  intros Hm Hn NB (x0 & y0 & B) E x y. destruct (rep m (x0 - 1) x ltac:(lia)) as [k K]. destruct (rep n (y0 - 1) y ltac:(lia)) as [k' K'].
  rewrite <- (tile_periodic m n l' x y k k') by lia. set (x' := x + k * m) in *. set (y' := y + k' * n) in *.
  transitivity (life_next born survive (tile m n l) x' y').
  { unfold life_next, alive_around. rewrite <- (tile_periodic m n l x y k k') by lia. fold x' y'.
    rewrite (filter_ext (fun d => tile m n l (x + fst d) (y + snd d)) (fun d => tile m n l (x' + fst d) (y' + snd d))); auto.
    intros d. rewrite <- (tile_periodic m n l (x + fst d) (y + snd d) k k') by lia. f_equal; unfold x', y'; lia. }
  rewrite (life_next_ext born survive (tile m n l) (pattern l)).
  - apply bool_iff. rewrite <- E. rewrite tile_iff by lia. split.
    + intros H. exists (x', y'). cbn. split; auto. split; exists 0; lia.
    + intros ([a b] & Hd & [c C] & [c' C']). cbn [fst snd] in *. pose proof Hd as Hd'. apply E in Hd'. apply (life_next_far _ _ _ _ _ NB) in Hd' as ([e f] & He & E1 & E2).
      destruct (B _ He) as [B1 B2]. cbn [fst snd] in *. assert (c = 0) by nia. assert (c' = 0) by nia. subst c c'. replace x' with a by lia. replace y' with b by lia. exact Hd.
  - intros dx dy H1 H2. apply (tile_near m n l x0 y0); auto; lia.
Qed.
Lemma life_after_ext born survive g h t : (forall x y, g x y = h x y) -> forall x y, life_after born survive t g x y = life_after born survive t h x y.
Proof. intros E. induction t as [|t IH]; [exact E|]. intros x y. cbn [life_after]. apply life_next_ext. intros dx dy _ _. apply IH. Qed.
Lemma tile_after born survive m n ls k : 3 <= m -> 3 <= n -> ~ In 0 born -> evolves born survive ls ->
  (forall t, (t < k)%nat -> fits (m - 2) (n - 2) (ls t)) ->
  forall t, (t <= k)%nat -> forall x y, life_after born survive t (tile m n (ls 0%nat)) x y = tile m n (ls t) x y.
Proof.
  intros Hm Hn NB EV FT. induction t as [|t IH]; intros Ht x y; [reflexivity|]. cbn [life_after].
  rewrite <- (tile_step born survive m n (ls t) (ls (S t)) Hm Hn NB (FT t ltac:(lia)) (EV t)).
  apply life_next_ext. intros dx dy _ _. apply IH. lia.
Qed.

(** * Drawing *)
Lemma cell2 n m s L x y x' y' i : grid_facts [n; m] s L -> cell s [x; y] i -> (cell s [x'; y'] i <-> (m | x - x') /\ (n | y - y')).
Proof.
  intros G C. split.
  - intros C'. pose proof (proj1 (cell_iff [n; m] s L [x; y] [x'; y'] i i G eq_refl eq_refl C C') eq_refl) as (_ & _ & H).
    split; [apply (H 0%nat)|apply (H 1%nat)]; reflexivity.
  - intros [A B]. refine (cell_same [n; m] s L [x; y] [x'; y'] i G eq_refl _ C). split; [reflexivity|]. split; [reflexivity|].
    intros k w a b Ew Ea Eb. destruct k as [|[|k]]; cbn in Ew, Ea, Eb; try (injection Ew as <-; injection Ea as <-; injection Eb as <-; auto). destruct k; discriminate.
Qed.
Lemma draws_shows n m s st l : square_grid [n; m] s -> (draws s st l <-> shows s st (tile m n l)).
Proof.
  intros SG. destruct (square_facts _ _ SG) as (L & G). pose proof (gf_pos _ _ _ G) as P. pose proof (Forall_inv P) as Hn. pose proof (Forall_inv (Forall_inv_tail P)) as Hm. cbn in Hn, Hm.
  destruct (C67_lemma _ _ SG) as (_ & _ & _ & SC & CS).
  assert (K : forall x y i, cell s [x; y] i -> (tile m n l x y = true <-> exists d, In d l /\ cell s [fst d; snd d] i)).
  { intros x y i C. rewrite tile_iff by auto. split; intros (d & Hd & H); exists d; (split; [exact Hd|]); apply (cell2 n m s L x y _ _ i G C); auto. }
  split.
  - intros D x y i C. pose proof (CS [x; y] i eq_refl C) as NN. destruct (get_site s i) as [u|] eqn:Gu; [|congruence].
    destruct (D i u Gu) as (b & Hb & E). replace (tile m n l x y) with b; auto. apply bool_iff. rewrite E. symmetry. now apply K.
  - intros S i u Gu. destruct (SC i u Gu) as (p & Lp & _ & _ & C & _). destruct p as [|x [|y [|]]]; try discriminate.
    exists (tile m n l x y). split; [now apply S|now apply K].
Qed.
Lemma draws_on_shows n m st l : 0 < n -> 0 < m -> (draws_on n m st l <-> shows_on n m st (tile m n l)).
Proof.
  intros Hn Hm.
  assert (K : forall x y, tile m n l x y = true <-> exists d, In d l /\ fst d mod m = x mod m /\ snd d mod n = y mod n).
  { intros x y. rewrite tile_iff by auto. split; intros (d & Hd & A & B); exists d; (split; [exact Hd|]).
    - destruct A as [a A], B as [b B]. replace x with (fst d + a * m) by lia. replace y with (snd d + b * n) by lia. now rewrite !Z.mod_add by lia.
    - split; apply Z.mod_divide; try lia; rewrite Zminus_mod, ?A, ?B, Z.sub_diag; apply Zmod_0_l. }
  split.
  - intros D x y. destruct (D (x mod m) (y mod n)) as (b & Hb & E); try (apply Z.mod_pos_bound; lia). replace (tile m n l x y) with b; auto. apply bool_iff. rewrite E. symmetry. apply K.
  - intros S x y Hx Hy. exists (tile m n l x y). pose proof (S x y) as H. rewrite (Z.mod_small x m), (Z.mod_small y n) in H by lia. split; auto.
    rewrite K. now rewrite (Z.mod_small x m), (Z.mod_small y n) by lia.
Qed.

Lemma shows_ext s st g h : (forall x y, g x y = h x y) -> shows s st g -> shows s st h.
Proof. intros E S x y i C. rewrite <- E. now apply S. Qed.
Lemma shows_on_ext n m st g h : (forall x y, g x y = h x y) -> shows_on n m st g -> shows_on n m st h.
Proof. intros E S x y. rewrite <- E. now apply S. Qed.

Lemma C94_lemma : forall n m s variant ords rnd ctl born survive init ls k,
  square_grid [n; m] s -> 3 <= n -> 3 <= m -> (forall t, legal (ords t)) ->
  process_variant_string variant = Ok (born, survive) -> ~ In 0 born -> life_init RA s ords rnd variant = Ok ctl ->
  Permutation (site_ids init) (map (fun x => KInt (s_id x)) (sites s None)) ->
  evolves born survive ls -> (forall t, Z.of_nat t < k -> fits (m - 2) (n - 2) (ls t)) -> draws s init (ls 0%nat) ->
  every_run ctl (None, 0%nat) init k (fun t st => draws s st (ls t)).
Proof.
  intros n m s variant ords rnd ctl born survive init ls k SG Hn Hm LO EV NB EI PI HE FT D.
  pose proof (proj1 (draws_shows n m s init _ SG) D) as SH.
  destruct (C52_lemma [n; m] s variant ords rnd ctl born survive init (tile m n (ls 0%nat)) k SG eq_refl ltac:(repeat constructor; lia) LO EV EI PI SH) as [(o & Eo & RL & H) PAR].
  assert (K : forall t st, Z.of_nat t <= Z.max 0 k -> shows s st (life_after born survive (Z.to_nat (Z.of_nat t)) (tile m n (ls 0%nat))) -> draws s st (ls t)).
  { intros t st Ht S. rewrite Nat2Z.id in S. apply (draws_shows n m s st _ SG). revert S. apply shows_ext. apply (tile_after born survive m n ls (Z.to_nat (Z.max 0 k))); auto; [|lia].
    intros u Hu. apply FT. lia. }
  split.
  - exists o. split; auto. split; auto. intros t Ht. destruct (H (Z.of_nat t) ltac:(lia)) as (st & E1 & _ & E2). exists st. split; auto.
  - intros p sched Hp. destruct (PAR p sched Hp) as (op & Ep & RLp & HP). exists op. split; auto. split; auto. intros t Ht. destruct (HP (Z.of_nat t) ltac:(lia)) as (st & E1 & _ & E2). exists st. split; auto.
Qed.

Lemma C94_float_lemma : forall n m s variant ords rnd ctl born survive init ls k,
  3 <= n <= 2 ^ 20 -> 3 <= m <= 2 ^ 20 -> fl_grid [n; m] s -> ~ falls_short n n -> ~ falls_short m m -> (forall t, legal (ords t)) ->
  process_variant_string variant = Ok (born, survive) -> ~ In 0 born -> life_init FA s ords rnd variant = Ok ctl ->
  Permutation (site_ids init) (map (fun x => KInt (s_id x)) (sites s None)) ->
  evolves born survive ls -> (forall t, Z.of_nat t < k -> fits (m - 2) (n - 2) (ls t)) -> draws_on n m init (ls 0%nat) ->
  every_run ctl (None, 0%nat) init k (fun t st => draws_on n m st (ls t)).
Proof.
  intros n m s variant ords rnd ctl born survive init ls k Hn Hm FG FN FM LO EV NB EI PI HE FT D.
  pose proof (proj1 (draws_on_shows n m init (ls 0%nat) ltac:(lia) ltac:(lia)) D) as SH.
  destruct (C84_lemma n m s variant ords rnd ctl born survive init (tile m n (ls 0%nat)) k Hn Hm FG LO EV EI PI SH) as [H0 _].
  destruct (H0 FN FM) as [(o & Eo & RL & H) PAR].
  assert (K : forall t st, Z.of_nat t <= Z.max 0 k -> shows_on n m st (life_after born survive (Z.to_nat (Z.of_nat t)) (tile m n (ls 0%nat))) -> draws_on n m st (ls t)).
  { intros t st Ht S. rewrite Nat2Z.id in S. apply (draws_on_shows n m); try lia. revert S. apply shows_on_ext. apply (tile_after born survive m n ls (Z.to_nat (Z.max 0 k))); auto; try lia.
    intros u Hu. apply FT. lia. }
  split.
  - exists o. split; auto. split; auto. intros t Ht. destruct (H (Z.of_nat t) ltac:(lia)) as (st & E1 & _ & E2). exists st. split; auto.
  - intros p sched Hp. destruct (PAR p sched Hp) as (op & Ep & RLp & HP). exists op. split; auto. split; auto. intros t Ht. destruct (HP (Z.of_nat t) ltac:(lia)) as (st & E1 & _ & E2). exists st. split; auto.
Qed.

(** * Well-known patterns *)
Definition near3 (d : Z * Z) : list (Z * Z) := flat_map (fun a => map (fun b => (fst d + a, snd d + b)) [-1; 0; 1]) [-1; 0; 1].
Definition becomes (born survive : list Z) (l l' : list (Z * Z)) : bool :=
  forallb (fun d => life_next born survive (pattern l) (fst d) (snd d)) l' &&
  forallb (fun d => implb (life_next born survive (pattern l) (fst d) (snd d)) (pattern l' (fst d) (snd d))) (flat_map near3 l).
Lemma near3_in x y d : Z.abs (x - fst d) <= 1 -> Z.abs (y - snd d) <= 1 -> In (x, y) (near3 d).
Proof.
  intros A B. apply in_flat_map. exists (x - fst d). split; [assert (H : x - fst d = -1 \/ x - fst d = 0 \/ x - fst d = 1) by lia; simpl; intuition lia|].
  apply in_map_iff. exists (y - snd d). split; [f_equal; lia|]. assert (H : y - snd d = -1 \/ y - snd d = 0 \/ y - snd d = 1) by lia; simpl; intuition lia.
Qed.
Lemma becomes_iff born survive l l' : ~ In 0 born -> becomes born survive l l' = true ->
  forall x y, In (x, y) l' <-> life_next born survive (pattern l) x y = true.
Proof.
  intros NB H x y. apply andb_prop in H as [H1 H2]. rewrite forallb_forall in H1, H2. split.
  - intros Hd. exact (H1 _ Hd).
  - intros N. destruct (life_next_far _ _ _ _ _ NB N) as (d & Hd & A & B). specialize (H2 (x, y)). cbn [fst snd] in H2. rewrite N in H2. cbn [implb] in H2.
    apply pattern_iff, H2. apply in_flat_map. exists d. split; auto. now apply near3_in.
Qed.
Lemma pattern_place a b l x y : pattern (place a b l) x y = pattern l (x - a) (y - b).
Proof.
  apply bool_iff. rewrite !pattern_iff. unfold place. rewrite in_map_iff. split.
  - intros ([c d] & E & H). cbn in E. injection E as <- <-. replace (a + c - a) with c by lia. replace (b + d - b) with d by lia. exact H.
  - intros H. exists (x - a, y - b). cbn. split; auto. f_equal; lia.
Qed.
Lemma next_place born survive a b l x y : life_next born survive (pattern (place a b l)) x y = life_next born survive (pattern l) (x - a) (y - b).
Proof.
  unfold life_next, alive_around. rewrite pattern_place.
  rewrite (filter_ext (fun d => pattern (place a b l) (x + fst d) (y + snd d)) (fun d => pattern l (x - a + fst d) (y - b + snd d))); auto.
  intros d. rewrite pattern_place. f_equal; lia.
Qed.
Lemma place_place a b c d l : place a b (place c d l) = place (a + c) (b + d) l.
Proof. unfold place. rewrite map_map. apply map_ext. intros e. cbn. f_equal; lia. Qed.
Lemma step_place born survive a b l l' : (forall x y, In (x, y) l' <-> life_next born survive (pattern l) x y = true) ->
  forall x y, In (x, y) (place a b l') <-> life_next born survive (pattern (place a b l)) x y = true.
Proof. intros H x y. rewrite next_place, <- H, <- (pattern_iff (place a b l')), pattern_place. apply pattern_iff. Qed.
Lemma fits_place w h a b l : fits w h l -> fits w h (place a b l).
Proof.
  intros (x0 & y0 & H). exists (a + x0), (b + y0). intros d Hd. apply in_map_iff in Hd as (e & <- & He). specialize (H e He). cbn. lia.
Qed.
Lemma fits_le w h w' h' l : w <= w' -> h <= h' -> fits w h l -> fits w' h' l.
Proof. intros A B (x0 & y0 & H). exists x0, y0. intros d Hd. specialize (H d Hd). lia. Qed.

Lemma block_evolves a b : evolves [3] [2; 3] (fun _ => place a b block).
Proof. intros t. apply step_place. apply becomes_iff; [simpl; lia|reflexivity]. Qed.
Lemma blinker_evolves a b u : evolves [3] [2; 3] (fun t => place a b (blinker (xorb u (Nat.odd t)))).
Proof.
  intros t. apply step_place. rewrite Nat.odd_succ, <- Nat.negb_odd. apply becomes_iff; [simpl; lia|]. destruct u, (Nat.odd t); reflexivity.
Qed.
Definition glider_phase (j : nat) : list (Z * Z) :=
  match j with
  | 0%nat => glider
  | 1%nat => [(0, 1); (2, 1); (1, 2); (2, 2); (1, 3)]
  | 2%nat => [(2, 1); (0, 2); (2, 2); (1, 3); (2, 3)]
  | _ => [(1, 1); (2, 2); (3, 2); (1, 3); (2, 3)]
  end.
Definition gliding (a b : Z) (t : nat) : list (Z * Z) :=
  let q := Z.of_nat (t / 4) in place (a + q) (b + q) (glider_phase (t mod 4)).
Lemma glider_evolves a b : evolves [3] [2; 3] (gliding a b).
Proof.
  intros t. unfold gliding. pose proof (Nat.div_mod t 4 ltac:(lia)) as E. pose proof (Nat.mod_upper_bound t 4 ltac:(lia)) as U.
  set (q := (t / 4)%nat) in *. set (j := (t mod 4)%nat) in *. clearbody q j.
  assert (K : (j < 3 /\ S t / 4 = q /\ S t mod 4 = S j \/ j = 3 /\ S t / 4 = S q /\ S t mod 4 = 0)%nat).
  { destruct (Nat.eq_dec j 3) as [->|Nj]; [right|left].
    - assert (X : S t = (0 + S q * 4)%nat) by lia. rewrite X. split; auto. rewrite Nat.div_add, Nat.mod_add by lia. auto.
    - assert (X : S t = (S j + q * 4)%nat) by lia. rewrite X, Nat.div_add, Nat.mod_add, Nat.div_small, Nat.mod_small by lia. lia. }
  destruct K as [(Hj & -> & ->)|(-> & -> & ->)].
  - apply step_place. apply becomes_iff; [simpl; lia|]. destruct j as [|[|[|j]]]; try lia; reflexivity.
  - replace (place (a + Z.of_nat (S q)) (b + Z.of_nat (S q)) (glider_phase 0)) with (place (a + Z.of_nat q) (b + Z.of_nat q) (place 1 1 glider)).
    + apply step_place. apply becomes_iff; [simpl; lia|reflexivity].
    + rewrite place_place. f_equal; lia.
Qed.
Lemma glider_fits a b t : fits 3 3 (gliding a b t).
Proof.
  apply fits_place. pose proof (Nat.mod_upper_bound t 4 ltac:(lia)) as U. destruct (t mod 4)%nat as [|[|[|[|j]]]]; try lia; cbn [glider_phase].
  - exists 0, 0. intros d Hd. simpl in Hd. intuition (subst; cbn; lia).
  - exists 0, 1. intros d Hd. simpl in Hd. intuition (subst; cbn; lia).
  - exists 0, 1. intros d Hd. simpl in Hd. intuition (subst; cbn; lia).
  - exists 1, 1. intros d Hd. simpl in Hd. intuition (subst; cbn; lia).
Qed.
Lemma every_run_impl {C} (ctl : controller C) c0 init k (P Q : nat -> sstate -> Prop) : (forall t st, P t st -> Q t st) -> every_run ctl c0 init k P -> every_run ctl c0 init k Q.
Proof.
  intros H [(o & E & R & S) PAR]. split.
  - exists o. split; auto. split; auto. intros t Ht. destruct (S t Ht) as (st & A & B). eauto.
  - intros p sched Hp. destruct (PAR p sched Hp) as (op & Ep & Rp & Sp). exists op. split; auto. split; auto. intros t Ht. destruct (Sp t Ht) as (st & A & B). eauto.
Qed.

Lemma C94_known_lemma : forall n m s ords rnd ctl init k a b,
  square_grid [n; m] s -> (forall t, legal (ords t)) -> life_init RA s ords rnd Life = Ok ctl ->
  Permutation (site_ids init) (map (fun x => KInt (s_id x)) (sites s None)) ->
  (4 <= n -> 4 <= m -> draws s init (place a b block) -> every_run ctl (None, 0%nat) init k (fun _ st => draws s st (place a b block))) /\
  (5 <= n -> 5 <= m -> forall u, draws s init (place a b (blinker u)) ->
     every_run ctl (None, 0%nat) init k (fun t st => draws s st (place a b (blinker (xorb u (Nat.odd t)))))) /\
  (5 <= n -> 5 <= m -> draws s init (place a b glider) ->
     every_run ctl (None, 0%nat) init k (fun t st => forall q, t = (4 * q)%nat -> draws s st (place (a + Z.of_nat q) (b + Z.of_nat q) glider))).
Proof.
  intros n m s ords rnd ctl init k a b SG LO EI PI. assert (NB : ~ In 0 [3]) by (simpl; lia).
  split; [|split].
  - intros Hn Hm D. apply (C94_lemma n m s Life ords rnd ctl [3] [2; 3] init (fun _ => place a b block) k); auto; try lia; [apply block_evolves|].
    intros t _. apply fits_place. apply (fits_le 2 2); try lia. exists 0, 0. intros d Hd. simpl in Hd. intuition (subst; cbn; lia).
  - intros Hn Hm u D. apply (C94_lemma n m s Life ords rnd ctl [3] [2; 3] init (fun t => place a b (blinker (xorb u (Nat.odd t)))) k); auto; try lia; [apply blinker_evolves| |].
    + intros t _. apply fits_place. apply (fits_le 3 3); try lia. exists (-1), (-1). intros d Hd. destruct (xorb u (Nat.odd t)); simpl in Hd; intuition (subst; cbn; lia).
    + cbn. now rewrite Bool.xorb_false_r.
  - intros Hn Hm D. assert (E : every_run ctl (None, 0%nat) init k (fun t st => draws s st (gliding a b t))).
    { apply (C94_lemma n m s Life ords rnd ctl [3] [2; 3] init (gliding a b) k); auto; try lia; [apply glider_evolves| |].
      - intros t _. apply (fits_le 3 3); try lia. apply glider_fits.
      - change (gliding a b 0) with (place (a + 0) (b + 0) glider). rewrite !Z.add_0_r. exact D. }
    revert E. apply every_run_impl. intros t st H q ->. unfold gliding in H. rewrite Nat.mul_comm, Nat.div_mul, Nat.mod_mul in H by lia. exact H.
Qed.

(** A state drawing a pattern. *)
Lemma picture_draws n m s l : square_grid [n; m] s ->
  Permutation (site_ids (picture n m (tile m n l))) (map (fun x => KInt (s_id x)) (sites s None)) /\ draws s (picture n m (tile m n l)) l.
Proof.
  intros SG. destruct (square_facts _ _ SG) as (L & G). pose proof (gf_pos _ _ _ G) as P. pose proof (Forall_inv P) as Hn. pose proof (Forall_inv (Forall_inv_tail P)) as Hm. cbn in Hn, Hm. split.
  - rewrite picture_ids. rewrite <- (map_map s_id KInt). rewrite (built_dense RA L s (gf_built _ _ _ G)), (gf_count _ _ _ G). cbn [fold_right]. rewrite Z.mul_1_r. apply Permutation_refl.
  - apply (draws_shows n m s _ _ SG). intros x y i C. pose proof (gf_cell _ _ _ G [x; y] eq_refl) as C'. rewrite (cell_fun _ _ _ _ C C').
    pose proof (picture_shows n m (tile m n l) ltac:(lia) ltac:(lia)) as H. specialize (H ltac:(intros u v; rewrite <- (tile_periodic m n l (u mod m) (v mod n) (u / m) (v / n)) by lia; f_equal; [pose proof (Z.div_mod u m ltac:(lia))|pose proof (Z.div_mod v n ltac:(lia))]; lia) x y).
    cbn [extents wrap_to zipwith rank fold_right]. rewrite !Z.mul_1_r, Z.add_0_r. exact H.
Qed.
