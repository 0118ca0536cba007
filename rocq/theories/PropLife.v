(** Properties C107, C110 and C111: the named life-like variants, asynchronous life, rules on incomplete states. *)
From Coq Require Import Reals Permutation.
From Verif Require Import Prelude Dict Val Arith RealArith LatticeModel StructModel StateModel ResultModel RunnerModel NbModel GridModel RulesModel SpecState SpecGeom SpecNb SpecGrid SpecSetup SpecRules SpecLife FloatArith SpecFloat64 FloatTorus GridMore GridNb LifeFloat LifePlane LifeNamed RulesFacts RulesMore SetupModel SetupFacts GridFacts LifeGen LifeAsync SpecMissing Missing FloatCoord FloatGrid FloatMore FloatNb FloatFacts NbFacts GrowFloat.
Local Open Scope Z_scope.

(** C107. The five named variants follow the rules they are named after, in serial and in parallel runs. *)
Theorem C107_named : forall size s ords rnd init g n name born survive,
  square_grid size s -> length size = 2%nat -> Forall (fun m => 3 <= m) size -> (forall t, legal (ords t)) ->
  Permutation (site_ids init) (map (fun x => KInt (s_id x)) (sites s None)) -> shows s init g ->
  In (name, (born, survive)) named_variants ->
  exists ctl, life_init RA s ords rnd name = Ok ctl /\ every_run ctl (None, 0%nat) init n (fun t st => shows s st (life_after born survive t g)).
Proof. exact C107_named_lemma. Qed.
Print Assumptions C107_named.
Example C107_named_example : exists s init, square_grid [7; 9] s /\ Permutation (site_ids init) (map (fun x => KInt (s_id x)) (sites s None)) /\ shows s init (tile 9 7 glider).
Proof.
  destruct (C67_exists_lemma [7; 9]) as [s SG]; [repeat constructor; lia|auto|]. destruct (picture_draws 7 9 s glider SG) as [P D].
  exists s. eexists. split; [exact SG|]. split; [exact P|]. apply (draws_shows 7 9 s _ _ SG). exact D.
Qed.

(** C107. In Seeds no cell lives in two consecutive steps. *)
Theorem C107_seeds : forall size s ords rnd init g n ctl o,
  square_grid size s -> length size = 2%nat -> Forall (fun m => 3 <= m) size -> (forall t, legal (ords t)) ->
  Permutation (site_ids init) (map (fun x => KInt (s_id x)) (sites s None)) -> shows s init g ->
  life_init RA s ords rnd Seeds = Ok ctl -> some_run ctl (None, 0%nat) init n o ->
  forall t st st' i x, 0 <= t < n -> get_step (o_result o) t = Ok st -> get_step (o_result o) (t + 1) = Ok st' -> get_site s i = Some x ->
    ~ (holds st i "alive" /\ holds st' i "alive").
Proof. exact C107_seeds_lemma. Qed.
Print Assumptions C107_seeds.
Example C107_seeds_example : let pair := fun x y : Z => (y =? 0) && ((x =? 0) || (x =? 1)) in
  map (fun y => life_after [2] [] 1 pair 0 y) [-1; 0; 1] = [true; false; true] /\ map (fun y => life_after [2] [] 2 pair 0 y) [-2; -1; 0; 1; 2] = [true; false; false; false; true].
Proof. split; reflexivity. Qed.

(** C107. Anneal treats the living and the dead alike: exchanging them in the initial state exchanges them in every later state. *)
Theorem C107_anneal : forall size s ords ords' rnd rnd' init init' g n ctl ctl' o o',
  square_grid size s -> length size = 2%nat -> Forall (fun m => 3 <= m) size -> (forall t, legal (ords t)) -> (forall t, legal (ords' t)) ->
  Permutation (site_ids init) (map (fun x => KInt (s_id x)) (sites s None)) -> Permutation (site_ids init') (map (fun x => KInt (s_id x)) (sites s None)) ->
  shows s init g -> shows s init' (fun x y => negb (g x y)) ->
  life_init RA s ords rnd Anneal = Ok ctl -> life_init RA s ords' rnd' Anneal = Ok ctl' ->
  some_run ctl (None, 0%nat) init n o -> some_run ctl' (None, 0%nat) init' n o' ->
  forall t st st' i x, 0 <= t <= n -> get_step (o_result o) t = Ok st -> get_step (o_result o') t = Ok st' -> get_site s i = Some x ->
    (holds st i "alive" <-> holds st' i "dead") /\ (holds st i "dead" <-> holds st' i "alive").
Proof. exact C107_anneal_lemma. Qed.
Print Assumptions C107_anneal.
Example C107_anneal_example : let corner := fun x y : Z => (0 <? x) && (0 <? y) in
  life_after [4; 6; 7; 8] [3; 5; 6; 7; 8] 1 corner 1 1 = true /\ life_after [4; 6; 7; 8] [3; 5; 6; 7; 8] 1 (fun x y => negb (corner x y)) 1 1 = false /\
  life_after [3] [2; 3] 1 corner 2 2 = false /\ life_after [3] [2; 3] 1 (fun x y => negb (corner x y)) 2 2 = false.
Proof. repeat split; reflexivity. Qed.

(** C107. Where nobody lives nobody is born; where everybody lives everybody stays alive in Anneal and Diamoeba and nobody in the other three. *)
Theorem C107_uniform : forall size s ords rnd init b n name born survive ctl o,
  square_grid size s -> length size = 2%nat -> Forall (fun m => 3 <= m) size -> (forall t, legal (ords t)) ->
  Permutation (site_ids init) (map (fun x => KInt (s_id x)) (sites s None)) -> shows s init (fun _ _ => b) ->
  In (name, (born, survive)) named_variants -> life_init RA s ords rnd name = Ok ctl -> some_run ctl (None, 0%nat) init n o ->
  forall t st, 0 < t <= n -> get_step (o_result o) t = Ok st ->
    shows s st (fun _ _ => b && (eqb name Anneal || eqb name Diamoeba)).
Proof. exact C107_uniform_lemma. Qed.
Print Assumptions C107_uniform.
Example C107_uniform_example : exists s init, square_grid [7; 9] s /\ Permutation (site_ids init) (map (fun x => KInt (s_id x)) (sites s None)) /\ shows s init (fun _ _ => false) /\
  map (fun v => life_after (fst (snd v)) (snd (snd v)) 1 (fun _ _ => true) 0 0) named_variants = map (fun v => eqb (fst v) Anneal || eqb (fst v) Diamoeba) named_variants.
Proof.
  destruct (C67_exists_lemma [7; 9]) as [s SG]; [repeat constructor; lia|auto|]. destruct (picture_draws 7 9 s [] SG) as [P D].
  exists s. eexists. split; [exact SG|]. split; [exact P|]. split; [|reflexivity]. apply (draws_shows 7 9 s _ _ SG) in D. exact D.
Qed.

(** C107. The rules are also followed in binary64, on grids whose sides do not fall short at the border (C84). *)
Theorem C107_named_float : forall n m s ords rnd init g k name born survive,
  3 <= n <= 2 ^ 20 -> 3 <= m <= 2 ^ 20 -> fl_grid [n; m] s -> ~ falls_short n n -> ~ falls_short m m -> (forall t, legal (ords t)) ->
  Permutation (site_ids init) (map (fun x => KInt (s_id x)) (sites s None)) -> shows_on n m init g ->
  In (name, (born, survive)) named_variants ->
  exists ctl, life_init FA s ords rnd name = Ok ctl /\ every_run ctl (None, 0%nat) init k (fun t st => shows_on n m st (life_after born survive t g)).
Proof. exact C107_float_lemma. Qed.
Print Assumptions C107_named_float.
Example C107_named_float_example : exists s, fl_grid [48; 3] s /\ ~ falls_short 48 48 /\ ~ falls_short 3 3 /\
  Permutation (site_ids (picture 48 3 (fun x y => x mod 3 =? y mod 2))) (map (fun x => KInt (s_id x)) (sites s None)) /\
  shows_on 48 3 (picture 48 3 (fun x y => x mod 3 =? y mod 2)) (fun x y => x mod 3 =? y mod 2).
Proof.
  destruct (fl_core 48 3 ltac:(unfold M20; lia) ltac:(unfold M20; lia)) as (s & FG & DE & CT & _). exists s. split; auto. split; [apply C30_adjacent_lemma; lia|]. split; [apply C30_adjacent_lemma; lia|]. split.
  - rewrite picture_ids, <- (map_map s_id KInt). unfold NbFacts.dense in DE. rewrite DE, CT. apply Permutation_refl.
  - apply picture_shows; [lia|lia|]. intros x y. rewrite Z.mod_mod by lia. now replace ((y mod 48) mod 2) with (y mod 2) by (Z.div_mod_to_equations; lia).
Qed.

(** C110. Each step of an asynchronous life run visits one freshly drawn cell, applies the rule to its distinct living neighbours there, and leaves all other cells alone. *)
Theorem C110_async_life : forall size s variant ords rnd ctl born survive init n,
  square_grid size s -> length size = 2%nat -> (forall t, legal (ords t)) ->
  process_variant_string variant = Ok (born, survive) -> life_init RA s ords rnd variant = Ok ctl ->
  Permutation (site_ids init) (map (fun x => KInt (s_id x)) (sites s None)) ->
  (forall i x, get_site s i = Some x -> holds init i "alive" \/ holds init i "dead") ->
  exists o, run_async ctl (None, 0%nat) init n = Ok o /\ rlen (o_result o) = Z.max 0 n + 1 /\ get_step (o_result o) 0 = Ok init /\
    forall t, 0 <= t < Z.max 0 n -> exists st st', get_step (o_result o) t = Ok st /\ get_step (o_result o) (t + 1) = Ok st' /\
      (forall i x, get_site s i = Some x -> holds st i "alive" \/ holds st i "dead") /\
      let drawn := Z.of_nat (rnd (2 * Z.to_nat t)%nat) mod Z.of_nat (length (sites s None)) in
      (forall j q, j <> drawn -> (holds st' j q <-> holds st j q)) /\
      (exists x y, cell s [x; y] drawn) /\
      forall x y l, cell s [x; y] drawn -> NoDup l ->
        (forall j, In j l <-> j <> drawn /\ exists dx dy, Z.abs dx <= 1 /\ Z.abs dy <= 1 /\ cell s [x + dx; y + dy] j) ->
        exists p, holds st drawn p /\ holds st' drawn (if existsb (Z.eqb (count_in st l "alive")) (if eqb p "alive"%string then survive else born) then "alive" else "dead").
Proof. exact C110_lemma. Qed.
Print Assumptions C110_async_life.
Example C110_example : exists s st, square_grid [1; 4] s /\ Permutation (site_ids st) (map (fun x => KInt (s_id x)) (sites s None)) /\
  forall i x, get_site s i = Some x -> holds st i "alive" \/ holds st i "dead".
Proof.
  destruct (C67_exists_lemma [1; 4]) as [s SG]; [repeat constructor; lia|auto|]. destruct (square_facts _ _ SG) as [L G].
  pose proof (C47_solid_lemma R RA L s "alive"%string (gf_built _ _ _ G)) as (SI & _ & CF). exists s, (setup_solid_phase s "alive"%string).
  split; auto. split; [rewrite SI; apply Permutation_refl|]. intros i x Gx. left. destruct (CF i x Gx) as (p & E & ->). unfold holds, site_entry. rewrite E. reflexivity.
Qed.

(** C110. On grids with sides from 3 the drawn cell gets the value that the rule gives it on the plane. *)
Theorem C110_async_plane : forall size s variant ords rnd ctl born survive init g n,
  square_grid size s -> length size = 2%nat -> Forall (fun m => 3 <= m) size -> (forall t, legal (ords t)) ->
  process_variant_string variant = Ok (born, survive) -> life_init RA s ords rnd variant = Ok ctl ->
  Permutation (site_ids init) (map (fun x => KInt (s_id x)) (sites s None)) -> shows s init g ->
  exists o, run_async ctl (None, 0%nat) init n = Ok o /\ rlen (o_result o) = Z.max 0 n + 1 /\ get_step (o_result o) 0 = Ok init /\
    forall t, 0 <= t < Z.max 0 n -> exists st st' h h', get_step (o_result o) t = Ok st /\ get_step (o_result o) (t + 1) = Ok st' /\ shows s st h /\ shows s st' h' /\
      forall x y i, cell s [x; y] i ->
        h' x y = if i =? Z.of_nat (rnd (2 * Z.to_nat t)%nat) mod Z.of_nat (length (sites s None)) then life_next born survive h x y else h x y.
Proof. exact C110_plane_lemma. Qed.
Print Assumptions C110_async_plane.
Example C110_plane_example : exists s init, square_grid [7; 9] s /\ Permutation (site_ids init) (map (fun x => KInt (s_id x)) (sites s None)) /\ shows s init (tile 9 7 glider).
Proof.
  destruct (C67_exists_lemma [7; 9]) as [s SG]; [repeat constructor; lia|auto|]. destruct (picture_draws 7 9 s glider SG) as [P D].
  exists s. eexists. split; [exact SG|]. split; [exact P|]. apply (draws_shows 7 9 s _ _ SG). exact D.
Qed.

(** C110. A pattern that the rule leaves alone stays for ever, whichever cells are drawn. *)
Theorem C110_async_still : forall size s variant ords rnd ctl born survive init g n,
  square_grid size s -> length size = 2%nat -> Forall (fun m => 3 <= m) size -> (forall t, legal (ords t)) ->
  process_variant_string variant = Ok (born, survive) -> life_init RA s ords rnd variant = Ok ctl ->
  Permutation (site_ids init) (map (fun x => KInt (s_id x)) (sites s None)) -> shows s init g ->
  (forall x y, life_next born survive g x y = g x y) ->
  exists o, run_async ctl (None, 0%nat) init n = Ok o /\ rlen (o_result o) = Z.max 0 n + 1 /\
    forall t, 0 <= t <= Z.max 0 n -> exists st, get_step (o_result o) t = Ok st /\ shows s st g.
Proof. exact C110_still_lemma. Qed.
Print Assumptions C110_async_still.
Example C110_still_example : let g := fun x y => (x mod 4 <=? 1) && (y mod 4 <=? 1) in forall x y, life_next [3] [2; 3] g x y = g x y.
Proof.
  intros g. assert (P : forall x y a b, g (x + a) (y + b) = g (x mod 4 + a) (y mod 4 + b)) by (intros; unfold g; now rewrite !Zplus_mod_idemp_l).
  intros x y. assert (E : g x y = g (x mod 4) (y mod 4)) by (unfold g; now rewrite !Zmod_mod). rewrite E.
  assert (A : life_next [3] [2; 3] g x y = life_next [3] [2; 3] g (x mod 4) (y mod 4)).
  { unfold life_next, alive_around. rewrite E. rewrite (filter_ext _ (fun d => g (x mod 4 + fst d) (y mod 4 + snd d))); auto. }
  rewrite A. pose proof (Z.mod_pos_bound x 4 ltac:(lia)). pose proof (Z.mod_pos_bound y 4 ltac:(lia)).
  assert (X : x mod 4 = 0 \/ x mod 4 = 1 \/ x mod 4 = 2 \/ x mod 4 = 3) by lia. assert (Y : y mod 4 = 0 \/ y mod 4 = 1 \/ y mod 4 = 2 \/ y mod 4 = 3) by lia.
  destruct X as [->|[->|[->| ->]]], Y as [->|[->|[->| ->]]]; reflexivity.
Qed.

(** C111. The growth rule where the site or a neighbour is missing. *)
Theorem C111_growth_missing : forall F (N : nbhood F) bg ords rnd c i st,
  (forall e, lacks st i e -> c_update (growth_controller N bg ords rnd) c (KInt i) st = Err e) /\
  (forall v, reads st i v -> v <> VStr bg -> c_update (growth_controller N bg ords rnd) c (KInt i) st = Ok (VDict [], S c)) /\
  (forall l1 j l2 e, reads st i (VStr bg) -> neighbors_of (ords c) N i = Ok (l1 ++ j :: l2) -> (forall k, In k l1 -> exists p, holds st k p) -> lacks st j e ->
     c_update (growth_controller N bg ords rnd) c (KInt i) st = Err e).
Proof. exact C111_growth_lemma. Qed.
Print Assumptions C111_growth_missing.
Example C111_growth_example : c_update (growth_controller (NGraph row_graph) "bg" (fun _ => list_oracle) (fun _ => 0%nat)) 0%nat (KInt 1) (row_state ["a"; "bg"]%string) = Err TypeError /\
  c_update (growth_controller (NGraph row_graph) "bg" (fun _ => list_oracle) (fun _ => 0%nat)) 0%nat (KInt 1) (row_state ["a"; "b"]%string) = Ok (VDict [], 1%nat) /\
  c_update (growth_controller (NGraph row_graph) "bg" (fun _ => list_oracle) (fun _ => 0%nat)) 0%nat (KInt 3) (row_state ["a"; "b"]%string) = Err TypeError /\
  c_update (growth_controller (NGraph row_graph) "bg" (fun _ => list_oracle) (fun _ => 0%nat)) 0%nat (KInt 0) (mkS [(KInt 0, [(KStr "x", VInt 1)])] []) = Err KeyError.
Proof. repeat split. Qed.

(** C111. The life rule where the site or a neighbour is missing, and on values other than alive and dead. *)
Theorem C111_life_missing : forall F (A : arith F) s born survive ords rnd c i st,
  (fst c = None -> c_update (life_controller A s born survive ords rnd) c (KInt i) st = Err AttributeError) /\
  (forall N l1 j l2 e, fst c = Some N -> neighbors_of (ords (snd c)) N i = Ok (l1 ++ j :: l2) -> (forall k, In k l1 -> exists v, reads st k v) -> lacks st j e ->
     c_update (life_controller A s born survive ords rnd) c (KInt i) st = Err e) /\
  (forall N l e, fst c = Some N -> neighbors_of (ords (snd c)) N i = Ok l -> (forall k, In k l -> exists v, reads st k v) -> lacks st i e ->
     c_update (life_controller A s born survive ords rnd) c (KInt i) st = Err e) /\
  (forall N l v, fst c = Some N -> neighbors_of (ords (snd c)) N i = Ok l -> (forall k, In k l -> exists v, reads st k v) -> reads st i v ->
     exists q c', c_update (life_controller A s born survive ords rnd) c (KInt i) st = Ok (VDict [(KStr "DISCRETE_OCCUPANCY", VStr q)], c') /\ fst c' = Some N /\
       (q = "alive"%string <-> v = VStr "alive" /\ In (count_in st l "alive") survive \/ v = VStr "dead" /\ In (count_in st l "alive") born) /\ (q = "alive" \/ q = "dead")%string).
Proof. exact C111_life_lemma. Qed.
Print Assumptions C111_life_missing.
Example C111_life_example : forall (A : arith Z) (s : structure Z), let ctl := life_controller A s [1] [] (fun _ => list_oracle) (fun _ => 0%nat) in
  c_update ctl (Some (NGraph row_graph), 0%nat) (KInt 1) (row_state ["alive"; "dead"]%string) = Err TypeError /\
  c_update ctl (Some (NGraph row_graph), 0%nat) (KInt 1) (row_state ["alive"; "dead"; "wood"]%string) = Ok (VDict [(KStr "DISCRETE_OCCUPANCY", VStr "alive")], (Some (NGraph row_graph), 1%nat)) /\
  c_update ctl (Some (NGraph row_graph), 0%nat) (KInt 1) (row_state ["alive"; "wood"; "wood"]%string) = Ok (VDict [(KStr "DISCRETE_OCCUPANCY", VStr "dead")], (Some (NGraph row_graph), 1%nat)).
Proof. intros A s. repeat split. Qed.

(** C111. A serial or parallel Game of Life run on a state that covers some but not all cells of its grid raises TypeError. *)
Theorem C111_life_run : forall size s variant ords rnd ctl init n,
  square_grid size s -> length size = 2%nat -> (forall t, legal (ords t)) -> life_init RA s ords rnd variant = Ok ctl ->
  site_ids init <> [] -> (forall k, In k (site_ids init) -> exists i x p, k = KInt i /\ get_site s i = Some x /\ holds init i p) ->
  (exists i x, get_site s i = Some x /\ ~ In (KInt i) (site_ids init)) -> 1 <= n ->
  run_sync ctl (None, 0%nat) init n = Err TypeError /\ forall p sched, 1 <= p -> run_parallel ctl p sched (None, 0%nat) init n = Err TypeError.
Proof. exact C111_run_lemma. Qed.
Print Assumptions C111_life_run.
Example C111_run_example : exists s, square_grid [3; 4] s /\ let init := mkS [(KInt 5, [(KStr "DISCRETE_OCCUPANCY", VStr "alive")])] [] in
  (forall k, In k (site_ids init) -> exists i x p, k = KInt i /\ get_site s i = Some x /\ holds init i p) /\ exists i x, get_site s i = Some x /\ ~ In (KInt i) (site_ids init).
Proof.
  destruct (C67_exists_lemma [3; 4]) as [s SG]; [repeat constructor; lia|auto|]. destruct (square_facts _ _ SG) as [L G]. exists s. split; [exact SG|]. cbn zeta.
  assert (H : forall i, 0 <= i < 12 -> exists x, get_site s i = Some x).
  { intros i Hi. apply (get_site_ids RA L s i (gf_built _ _ _ G)). rewrite (built_dense RA L s (gf_built _ _ _ G)). apply zrange_In. pose proof (gf_count _ _ _ G) as C. rewrite C. cbn. lia. }
  split.
  - intros k [<-|[]]. destruct (H 5 ltac:(lia)) as [x Gx]. exists 5, x, "alive"%string. split; [reflexivity|split; [exact Gx|reflexivity]].
  - destruct (H 4 ltac:(lia)) as [x Gx]. exists 4, x. split; [exact Gx|]. intros [X|[]]. discriminate.
Qed.
