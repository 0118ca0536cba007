(** Property C99: starting states of grids in binary64. *)
From Coq Require Import Reals Lra.
From Flocq Require Import Core BinarySingleNaN.
From Verif Require Import Prelude Dict Val Arith RVec RealArith FloatArith LatticeModel StructModel StateModel GridModel NbModel SimModel SetupModel SpecState SpecGeom SpecNb SpecGrid SpecSetup SpecFloat64 SpecNuc FloatFacts FloatMore FloatOpen FloatSetup FloatDraw.
Local Open Scope Z_scope.

(** C99. An interface at half the first size [k], rounded down. *)
Theorem C99_interface : forall dim sz s k t p1 p2, fl_setup dim sz s -> grid_size dim sz = k :: t ->
  exists st, setup_interface FA (Z.of_nat dim) sz p1 p2 = Ok (mkSim st s) /\
    configuration s st (fun i q => forall x y, fl_cell (grid_size dim sz) s (x :: y) i -> Forall2 (fun a m => 0 <= a < m) (x :: y) (extents (grid_size dim sz)) ->
      q = if x <? k / 2 then p1 else p2).
Proof. exact C99_interface_lemma. Qed.
Print Assumptions C99_interface.
Example C99_interface_example : exists s, fl_setup 3 (SzTuple [4; 6; 5]) s /\ extents (grid_size 3 (SzTuple [4; 6; 5])) = [6; 4; 5].
Proof.
  assert (Hk : Forall (fun m => 1 <= m <= 2 ^ 20) [4; 6; 5]) by (repeat constructor; lia).
  destruct (square_box [4; 6; 5] (or_intror eq_refl) Hk) as (s & L & FS & _). exists s. split; [split; [split; [auto|split; [reflexivity|]]|split; [|exact FS]]; repeat constructor; lia|].
  reflexivity.
Qed.

(** C99. Given coordinates inside the grid; the last one listed wins. *)
Theorem C99_coords : forall dim sz s bg coords, fl_setup dim sz s ->
  (forall p x, In (p, x) (listed coords) -> Forall2 (fun a m => 0 <= a < m) x (extents (grid_size dim sz))) ->
  exists st, setup_coords FA (Z.of_nat dim) sz bg (fl_coords coords) = Ok (mkSim st s) /\
    configuration s st (fun i q => forall c, fl_cell (grid_size dim sz) s c i -> Forall2 (fun a m => 0 <= a < m) c (extents (grid_size dim sz)) -> last_hit (fun x => x = c) (listed coords) bg q).
Proof. exact C99_inside_lemma. Qed.
Print Assumptions C99_coords.
Example C99_coords_example : listed [("a"%string, [[0; 0]; [1; 3]]); ("b"%string, [[1; 3]])] = [("a"%string, [0; 0]); ("a"%string, [1; 3]); ("b"%string, [1; 3])].
Proof. reflexivity. Qed.

(** C99, part: coordinates that may lie outside are wrapped to the torus, and raise TypeError exactly if one of them falls short as in C30. Full claim: they are always wrapped (refuted by C30). Missing: coordinates beyond 2^27 or not whole numbers. *)
Theorem C99_coords_outside_partial : forall dim sz s bg coords, fl_setup dim sz s ->
  (forall p x, In (p, x) (listed coords) -> length x = dim /\ Forall (fun a => Z.abs a <= 2 ^ 27) x) ->
  ((forall p x, In (p, x) (listed coords) -> ~ missed (grid_size dim sz) x) ->
     exists st, setup_coords FA (Z.of_nat dim) sz bg (fl_coords coords) = Ok (mkSim st s) /\
       configuration s st (fun i q => last_hit (fun x => fl_cell (grid_size dim sz) s x i) (listed coords) bg q)) /\
  ((exists p x, In (p, x) (listed coords) /\ missed (grid_size dim sz) x) -> setup_coords FA (Z.of_nat dim) sz bg (fl_coords coords) = Err TypeError).
Proof. exact C99_coords_lemma. Qed.
Print Assumptions C99_coords_outside_partial.
Example C99_outside_example : ~ missed [4; 6; 5] [6; -1; 2].
Proof. intros ([|[|[|a]]] & m & v & E1 & E2 & S); cbn in E1, E2; try discriminate; [..|destruct a; discriminate]; injection E1 as <-; injection E2 as <-; revert S; apply C30_adjacent_lemma; lia. Qed.

(** C99. Noise. *)
Theorem C99_noise : forall dim sz s phases rnd, fl_setup dim sz s -> phases <> [] ->
  exists st, setup_noise FA (Z.of_nat dim) sz phases rnd = Ok (mkSim st s) /\ configuration s st (fun i q => choice phases (rnd (Z.to_nat i)) = Ok q).
Proof. exact C99_noise_lemma. Qed.
Print Assumptions C99_noise.
Example C99_noise_example : exists s, fl_setup 2 (SzTuple [49; 3]) s /\ choice ["a"; "b"]%string 3 = Ok "b"%string.
Proof. destruct (FloatDraw.square_setup 2 [49; 3]) as (s & FG & FS); [auto|reflexivity|repeat constructor; lia|]. exists s. split; [exact FG|reflexivity]. Qed.

(** C99. A particle added to any state: the cells whose distance from the centre, rounded once, is below the radius. The centre is given in halves. *)
Theorem C99_add_particle : forall dim sz s st center hs r rho p, fl_setup dim sz s ->
  Forall2 (fun v h => denotes v (IZR h / 2)) center hs -> length hs = dim -> Forall (fun h => Z.abs h <= 2 ^ 22) hs -> denotes r rho ->
  exists st', add_particle_to_state FA s st center r p = Ok st' /\
    get_general_state st' = get_general_state st /\
    (forall i c, fl_cell (grid_size dim sz) s c i -> Forall2 (fun a m => 0 <= a < m) c (extents (grid_size dim sz)) ->
       ((rnd (dist (at_ c) (map (fun h => IZR h / 2) hs)) < rho)%R -> forall k, site_entry st' (KInt i) k = if eqb k DISCRETE_OCCUPANCY then Some (VStr p) else entry_or_new st (KInt i) k) /\
       (~ (rnd (dist (at_ c) (map (fun h => IZR h / 2) hs)) < rho)%R -> get_site_state st' (KInt i) = get_site_state st (KInt i))) /\
    (forall k, (forall i x, get_site s i = Some x -> k <> KInt i) -> get_site_state st' k = get_site_state st k).
Proof. exact C99_add_lemma. Qed.
Print Assumptions C99_add_particle.
Example C99_add_example : Forall2 (fun v h => denotes v (IZR h / 2)) [f_ofZ 2; f_ofZ 3] [4; 6].
Proof.
  constructor; [|constructor; [|constructor]].
  - replace (IZR 4 / 2)%R with (IZR 2) by lra. apply denotes_ofZ. reflexivity.
  - replace (IZR 6 / 2)%R with (IZR 3) by lra. apply denotes_ofZ. reflexivity.
Qed.

(** C99. One particle around the point with all coordinates [k / 2]. *)
Theorem C99_particle : forall dim sz s k t r rho bulk p, fl_setup dim sz s -> grid_size dim sz = k :: t -> denotes r rho ->
  exists st, setup_particle FA (Z.of_nat dim) sz r bulk p = Ok (mkSim st s) /\
    configuration s st (fun i q => forall c, fl_cell (grid_size dim sz) s c i -> Forall2 (fun a m => 0 <= a < m) c (extents (grid_size dim sz)) ->
      ((rnd (dist (at_ c) (repeat (IZR k / 2) dim)) < rho)%R -> q = p) /\ (~ (rnd (dist (at_ c) (repeat (IZR k / 2) dim)) < rho)%R -> q = bulk)).
Proof. exact C99_particle_lemma. Qed.
Print Assumptions C99_particle.
Example C99_particle_example : exists s, fl_setup 3 (SzTuple [4; 6; 5]) s /\ exists r rho, denotes r rho /\ (1 < rho)%R.
Proof.
  assert (Hk : Forall (fun m => 1 <= m <= 2 ^ 20) [4; 6; 5]) by (repeat constructor; lia).
  destruct (square_box [4; 6; 5] (or_intror eq_refl) Hk) as (s & L & FS & _). exists s. split; [split; [split; [auto|split; [reflexivity|]]|split; [|exact FS]]; repeat constructor; lia|].
  exists (f_ofZ 2), (IZR 2). split; [apply denotes_ofZ; reflexivity|]. lra.
Qed.

(** C99. Random particles: later ones overwrite earlier ones. *)
Theorem C99_random_particles : forall dim sz s k t r rho m bulk phases pos ph, fl_setup dim sz s -> grid_size dim sz = k :: t -> denotes r rho -> phases <> [] ->
  (forall j a, 0 <= pos j a < k) ->
  exists st parts, setup_random_particles FA (Z.of_nat dim) sz r m bulk phases pos ph = Ok (mkSim st s) /\
    length parts = Z.to_nat m /\
    (forall j q b, nth_error parts j = Some (q, b) -> choice phases (ph j) = Ok q /\ b = map (pos j) (seq 0 dim)) /\
    configuration s st (fun i q => (q = bulk \/ In q phases) /\
      forall c, fl_cell (grid_size dim sz) s c i -> Forall2 (fun a m => 0 <= a < m) c (extents (grid_size dim sz)) ->
        last_hit (fun b => (rnd (dist (at_ c) (at_ b)) < rho)%R) parts bulk q).
Proof. exact C99_random_lemma. Qed.
Print Assumptions C99_random_particles.
Example C99_random_particles_example : exists s r, fl_setup 2 (SzTuple [49; 3]) s /\ grid_size 2 (SzTuple [49; 3]) = 49 :: [3] /\ denotes r 2%R /\ forall j a : nat, 0 <= (Z.of_nat j * 7 + Z.of_nat a) mod 49 < 49.
Proof.
  destruct (FloatDraw.square_setup 2 [49; 3]) as (s & FG & FS); [auto|reflexivity|repeat constructor; lia|]. exists s, (f_ofZ 2). split; [exact FG|]. split; [reflexivity|]. split; [apply denotes_ofZ; reflexivity|]. intros. lia.
Qed.

(** C99, part: if the radius is a multiple of 1/2, the particle is exactly the open ball. Full claim: for every radius (refuted below). *)
Theorem C99_ball_partial : forall dim sz s k t r m bulk p, fl_setup dim sz s -> grid_size dim sz = k :: t -> denotes r (IZR m / 2) ->
  exists st, setup_particle FA (Z.of_nat dim) sz r bulk p = Ok (mkSim st s) /\
    configuration s st (fun i q => forall c, fl_cell (grid_size dim sz) s c i -> Forall2 (fun a m => 0 <= a < m) c (extents (grid_size dim sz)) ->
      ((dist (at_ c) (repeat (IZR k / 2) dim) < IZR m / 2)%R -> q = p) /\ (~ (dist (at_ c) (repeat (IZR k / 2) dim) < IZR m / 2)%R -> q = bulk)).
Proof. exact C99_ball_lemma. Qed.
Print Assumptions C99_ball_partial.
Example C99_ball_example : denotes (f_ofZ 3) (IZR 6 / 2).
Proof. replace (IZR 6 / 2)%R with (IZR 3) by lra. apply denotes_ofZ. reflexivity. Qed.

(** C99, part: the same for random particles. *)
Theorem C99_random_balls_partial : forall dim sz s k t r w m bulk phases pos ph, fl_setup dim sz s -> grid_size dim sz = k :: t -> denotes r (IZR w / 2) -> phases <> [] ->
  (forall j a, 0 <= pos j a < k) ->
  exists st parts, setup_random_particles FA (Z.of_nat dim) sz r m bulk phases pos ph = Ok (mkSim st s) /\
    length parts = Z.to_nat m /\
    (forall j q b, nth_error parts j = Some (q, b) -> choice phases (ph j) = Ok q /\ b = map (pos j) (seq 0 dim)) /\
    configuration s st (fun i q => (q = bulk \/ In q phases) /\
      forall c, fl_cell (grid_size dim sz) s c i -> Forall2 (fun a m => 0 <= a < m) c (extents (grid_size dim sz)) ->
        last_hit (fun b => (dist (at_ c) (at_ b) < IZR w / 2)%R) parts bulk q).
Proof. exact C99_balls_lemma. Qed.
Print Assumptions C99_random_balls_partial.
Example C99_random_balls_example : exists s r, fl_setup 3 (SzInt 5) s /\ grid_size 3 (SzInt 5) = 5 :: [5; 5] /\ denotes r (IZR 6 / 2).
Proof.
  destruct (FloatDraw.square_setup 3 [5; 5; 5]) as (s & FG & FS); [auto|reflexivity|repeat constructor; lia|]. exists s, (f_ofZ 3).
  split; [split; [split; [auto|split; [reflexivity|repeat constructor; lia]]|split; [repeat constructor; lia|exact FS]]|]. split; [reflexivity|]. replace (IZR 6 / 2)%R with (IZR 3) by lra. apply denotes_ofZ. reflexivity.
Qed.

(** C99 is false: a radius just above sqrt 2 leaves out cells at distance sqrt 2. *)
Theorem C99_ball_refuted : exists s st r rho c i, fl_setup 2 (SzInt 4) s /\ denotes r rho /\ setup_particle FA 2 (SzInt 4) r "bulk" "particle" = Ok (mkSim st s) /\
  fl_cell [4; 4] s c i /\ Forall2 (fun a m => 0 <= a < m) c [4; 4] /\ (dist (at_ c) [2; 2] < rho)%R /\ site_entry st (KInt i) DISCRETE_OCCUPANCY = Some (VStr "bulk").
Proof. exact C99_ball_refuted_lemma. Qed.
Print Assumptions C99_ball_refuted.
