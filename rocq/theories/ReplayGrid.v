(** The repository's own tests of setups, growth, the game of life, analyzers, artists and
    the conversion from and to pymatgen, run on the model in IEEE binary64.  These are checks
    of the model, not proofs of properties.  Grids are smaller than in the tests (the sizes
    used there are given in the comments) and random draws are fixed sequences. *)
From Coq Require Import Reals.
From Flocq Require Import Core BinarySingleNaN.
From Verif Require Import Prelude Dict Val Arith FloatArith LatticeModel StructModel NbModel GridModel StateModel ResultModel JsonModel SimModel RunnerModel SetupModel RulesModel AnalyzerModel VizModel PmgModel ReplayCore ReplayLattice ReplayStruct.
Local Open Scope string_scope.
Local Open Scope Z_scope.

Definition draws (k : nat) : nat := ((k * k * 5 + k * 3 + 1) mod 7)%nat.
Definition listed (_ : nat) : @nb_oracle b64 := as_is.
(** [simulation.state_at(p)[DISCRETE_OCCUPANCY] == v] *)
Definition occupied (sim : simulation b64) (p : list Z) (v : string) : bool :=
  check (do d <- state_at FA sim (pt 1 p);
         Ok (match d with Some d => match dget DISCRETE_OCCUPANCY d with Some x => val_eqb x (VStr v) | None => false end | None => false end)).

(** tests/structures/square_grid/test_grid_setup.py *)
Definition interface4 : res (simulation b64) := setup_interface FA 2 (SzInt 4) "A" "B".
Example test_setup_interface :
  check (do sim <- interface4; Ok (occupied sim [1; 1] "A" && occupied sim [1; 2] "A" && occupied sim [2; 2] "B" && occupied sim [2; 3] "B")) = true.
Proof. vm_compute. reflexivity. Qed.
Example test_setup_random_particles :
  check (do _ <- setup_random_particles FA 2 (SzInt 4) (num 2) 3 "A" ["B"] (fun i j => Z.of_nat (draws (2 * i + j) mod 4)) draws; Ok true) = true.
Proof. vm_compute. reflexivity. Qed.
Example test_setup_noise : check (do _ <- setup_noise FA 2 (SzInt 4) ["A"; "B"] draws; Ok true) = true.
Proof. vm_compute. reflexivity. Qed.
Definition b_or_c : criterion := fun o =>
  match o with
  | Some d => match dget DISCRETE_OCCUPANCY d with Some v => Ok (val_eqb v (VStr "B") || val_eqb v (VStr "C")) | None => Err KeyError end
  | None => Err TypeError
  end.
Definition f_sum (l : list b64) : b64 := fold_left f_add l (num 0).
Example test_setup_random_sites :
  match setup_random_sites FA 20 50 f_sum draws listed 2 (SzInt 4) 2 "A" [("B", num 1); ("C", num 1)] (Some 1) with
  | Some r => check (do sim <- r; do n <- get_site_count (Some (sim_struct sim)) (sim_state sim) None [b_or_c]; Ok (n =? 2))
  | None => false
  end = true.
Proof. vm_compute. reflexivity. Qed.
Example test_setup_specific_coords :
  check (do sim <- setup_coords FA 2 (SzInt 4) "A" [("B", [pt 1 [0; 0]]); ("C", [pt 1 [1; 1]])];
         Ok (occupied sim [0; 0] "B" && occupied sim [1; 1] "C" && occupied sim [1; 0] "A")) = true.
Proof. vm_compute. reflexivity. Qed.

(** tests/structures/square_grid/test_growth_setup.py: side 20 and 4 nuclei with buffer 2 in
    the test, side 4 and 2 nuclei with buffer 1 here; 4 workers *)
Example test_growth_setup :
  match grow FA 20 50 f_sum draws listed listed draws 4 (fun t b => ((t + b) mod 4)%nat) 2 4 2 "A" [("B", num 1); ("C", num 1)]
          (match MooreNbHoodBuilder FA 1 2 with Ok b => Some b | Err _ => None end) (Some 1) with
  | Some r => check (do sim <- r; do n <- get_site_count_where_equal (Some (sim_struct sim)) (sim_state sim) (occ (VStr "A")) None; Ok (n =? 0))
  | None => false
  end = true.
Proof. vm_compute. reflexivity. Qed.

(** tests/models/test_growth_model.py: side 20 in the test, 5 here *)
Definition growth_run (par : bool) : res bool :=
  do sim <- setup_coords FA 2 (SzInt 5) "A" [("B", [pt 1 [2; 2]])];
  do b <- MooreNbHoodBuilder FA 1 2; do N <- growth_nbhood FA (sim_struct sim) (Some b);
  let c := growth_controller N "A" listed draws in
  do o <- (if par then run_parallel c 4 (fun t b => ((t + b) mod 4)%nat) 0%nat (sim_state sim) 3 else run_sync c 0%nat (sim_state sim) 3);
  do s1 <- get_step (o_result o) 1; do s2 <- get_step (o_result o) 2;
  do n1 <- get_site_count_where_equal (Some (sim_struct sim)) s1 (occ (VStr "B")) None;
  do n2 <- get_site_count_where_equal (Some (sim_struct sim)) s2 (occ (VStr "B")) None;
  Ok ((n1 =? 9) && (n2 =? 25)).
Example test_can_run_growth_sim_parallel : check (growth_run true) = true.
Proof. vm_compute. reflexivity. Qed.
Example test_can_run_growth_sim_series : check (growth_run false) = true.
Proof. vm_compute. reflexivity. Qed.

(** tests/models/test_gol_models.py: side 10 in the tests, 4 here *)
Definition life_run (variant : string) (n : Z) (sim : simulation b64) : res sresult :=
  do c <- life_init FA (sim_struct sim) listed draws variant; do o <- run_sync c (None, 0%nat) (sim_state sim) n; Ok (o_result o).
Definition noise4 : res (simulation b64) := setup_noise FA 2 (SzInt 4) ["dead"; "alive"] draws.
Example test_gol_variants :
  check (do sim <- noise4; do l <- mapM (fun v => life_run v 3 sim) [Life; Maze; Anneal; Diamoeba; Seeds]; Ok (forallb (fun r => rlen r =? 4) l)) = true.
Proof. vm_compute. reflexivity. Qed.
(** in the test the cell (4,4) of the 10 x 10 grid, next to the cells alive from (5,_) on;
    here (1,1) next to those from (2,_) on *)
Example test_gol_update_rule :
  check (do sim <- setup_interface FA 2 (SzInt 4) "dead" "alive";
         do c <- life_init FA (sim_struct sim) listed draws Life;
         do x <- c_pre_run c (None, 0%nat) (sim_state sim);
         do i <- id_at FA (sim_struct sim) (pt 1 [1; 1]);
         match i with
         | Some i => do u <- c_update c x (KInt i) (sim_state sim); do v <- index (fst u) DISCRETE_OCCUPANCY; Ok (val_eqb v (VStr "alive"))
         | None => Err TypeError
         end) = true.
Proof. vm_compute. reflexivity. Qed.

(** tests/discrete/test_discrete_step_analyzer.py *)
Definition three_cells : sstate :=
  set_site_state (set_site_state (set_site_state s_empty (KInt 1) (occ (VStr "A"))) (KInt 3) (occ (VStr "A"))) (KInt 2) (occ (VStr "B")).
Example test_cell_count :
  let none := @None (structure b64) in
  check (do a <- cell_count none three_cells (VStr "A"); do b <- cell_count none three_cells (VStr "B");
         do r1 <- cell_ratio none FA three_cells (VStr "A") (VStr "B"); do r2 <- cell_ratio none FA three_cells (VStr "B") (VStr "A");
         do n <- phase_count (fun l => l) three_cells;
         Ok ((a =? 2) && (b =? 1) && f_eqb r1 (num 2) && f_eqb r2 (dec 5 1) && (n =? 2))) = true.
Proof. vm_compute. reflexivity. Qed.

(** tests/discrete/test_discrete_result_analyzer.py: side 10 and 10 steps in the tests *)
Example test_plot_phase_fractions :
  check (do sim <- noise4; do r <- life_run Life 3 sim; do (_, l) <- snd (plot_phase_fractions FA (fun l => l) None r (num 0)); Ok (negb (eqb (length l) O))) = true.
Proof. vm_compute. reflexivity. Qed.
Example test_final_phase_fractions :
  check (do sim <- noise4; do r <- life_run Life 3 sim; do d <- final_phase_fractions (fun l => l) FA None r;
         Ok (forallb (fun e => match fst e with VStr _ => true | _ => false end) d && f_eqb (f_sum (map snd d)) (num 1))) = true.
Proof. vm_compute. reflexivity. Qed.
Example test_phase_fraction_at_step :
  check (do sim <- setup_interface FA 2 (SzInt 4) "dead" "alive"; do r <- life_run Life 1 sim;
         do f <- phase_fraction_at FA r 0 (VStr "dead"); Ok (f_eqb f (dec 5 1))) = true.
Proof. vm_compute. reflexivity. Qed.

(** tests/core/test_analyzer.py and test_basic_controller.py *)
Definition traits : res (structure b64 * sstate) :=
  do s <- grid2 4;
  Ok (s, fold_left (fun st p => set_site_state st (KInt (s_id (snd p))) [(str "trait", VInt (fst p))]) (enumerate (sites s None)) s_empty).
Definition trait_is (f : Z -> bool) : criterion := fun o =>
  match o with Some d => match dget (str "trait") d with Some (VInt n) => Ok (f n) | _ => Err TypeError end | None => Err AttributeError end.
Example test_analyze_get_sites_arb_criteria :
  check (do (s, st) <- traits; do l <- get_sites (Some s) st None [trait_is (fun n => 12 <=? n); trait_is (fun n => n <=? 15)]; Ok (Nat.eqb (length l) 4)) = true.
Proof. vm_compute. reflexivity. Qed.
Example test_analyze_get_sites_no_criteria :
  check (do (s, st) <- traits; do l <- get_sites (Some s) st None []; Ok (Nat.eqb (length l) (length (all_site_states st)))) = true.
Proof. vm_compute. reflexivity. Qed.
Example test_analyze_count_equal :
  check (do sim <- interface4;
         do l <- mapM (fun p => get_site_count_where_equal (Some (sim_struct sim)) (sim_state sim) (occ (VStr p)) None) ["A"; "B"; "C"];
         Ok (eqb l [8; 8; 0])) = true.
Proof. vm_compute. reflexivity. Qed.
Example test_analyze_get_sites_where_equal :
  check (do sim <- interface4;
         do l <- mapM (fun p => do ids <- get_sites_where_equal (Some (sim_struct sim)) (sim_state sim) (occ (VStr p)) None;
                                mapM (fun v => match v with
                                               | VInt i => do o <- occupancy (sim_state sim) i; Ok (val_eqb o (VStr p))
                                               | _ => Err TypeError
                                               end) ids) ["A"; "B"];
         Ok (forallb (forallb (fun b => b)) l && Nat.eqb (length (concat l)) 16)) = true.
Proof. vm_compute. reflexivity. Qed.
Example test_simple_controller :
  check (do s <- grid2 4; do (v, _) <- basic_random_site draws 0%nat (from_struct (p_ids s)); Ok (match v with VInt _ => true | _ => false end)) = true.
Proof. vm_compute. reflexivity. Qed.

(** tests/visualization/test_cell_artists.py and test_helpers.py *)
Definition text (v : val) : string := match v with VStr s => s | _ => "" end.
Definition colour_eqb (a b : colour) : bool := let '(x, y, z) := a in let '(x', y', z') := b in (x =? x') && (y =? y') && (z =? z').
Definition cell (v : string) : pdict := [(str "x", VStr v)].
Definition ab_state : sstate := set_site_state (set_site_state s_empty (KInt 1) (cell "a")) (KInt 2) (cell "b").
Definition a_color : colour := (50, 60, 70).
Definition b_color : colour := (110, 120, 130).
Definition labels_ok (ca : discrete_artist) : res bool :=
  do l <- mapM (fun v => get_cell_legend_label text ca (cell v)) ["a"; "b"; "c"]; Ok (eqb l ["a"; "b"; "c"]).
Definition legend_is (ca : discrete_artist) (a b : colour) : res bool :=
  do lg <- get_legend text ca ab_state;
  Ok (match dget "a" lg, dget "b" lg with Some x, Some y => colour_eqb x a && colour_eqb y b | _, _ => false end).
Example test_discrete_cell_artist_no_legend_no_cmap :
  check (do ca <- from_phase_list [VStr "a"; VStr "b"] (Some (str "x")) None;
         do a <- get_color ca (Some (cell "a")); do b <- get_color ca (Some (cell "b")); do c <- get_color ca (Some (cell "c"));
         do ok1 <- labels_ok ca; do ok2 <- legend_is ca a b;
         Ok (negb (colour_eqb a (0, 0, 0)) && negb (colour_eqb b (0, 0, 0)) && colour_eqb c (0, 0, 0) && negb (colour_eqb a b) && ok1 && ok2)) = true.
Proof. vm_compute. reflexivity. Qed.
Definition given_map (legend : option (dict string colour)) : discrete_artist :=
  mkDiscrete (Some [(VStr "a", a_color); (VStr "b", b_color)]) (str "x") legend.
Definition map_used (ca : discrete_artist) : res bool :=
  do a <- get_color ca (Some (cell "a")); do b <- get_color ca (Some (cell "b")); do c <- get_color ca (Some (cell "c"));
  Ok (colour_eqb a a_color && colour_eqb b b_color && colour_eqb c (0, 0, 0)).
Example test_discrete_cell_artist_no_legend_cmap :
  check (let ca := given_map None in do o1 <- map_used ca; do o2 <- labels_ok ca; do o3 <- legend_is ca a_color b_color; Ok (o1 && o2 && o3)) = true.
Proof. vm_compute. reflexivity. Qed.
Example test_discrete_cell_artist_legend_and_cmap :
  check (let ca := given_map (Some [("a", (200, 210, 220)); ("b", (230, 240, 250))]) in
         do o1 <- map_used ca; do o2 <- labels_ok ca; do o3 <- legend_is ca (200, 210, 220) (230, 240, 250); Ok (o1 && o2 && o3)) = true.
Proof. vm_compute. reflexivity. Qed.
Example test_color_map_no_extra_phases :
  check (do cm <- color_map (map VStr ["84110"; "3"; "777"; "91"; "12345"; "6"; "1002"; "55"; "40961"; "8"]);
         Ok (Nat.eqb (length (dedup (map snd cm))) 10)) = true.
Proof. vm_compute. reflexivity. Qed.

(** tests/visualization/test_square_grid_artists.py: side 10 (3 in the cubic test) and cell
    size 5 in the tests, side 4 (2) and cell size 2 here; no glyphs are drawn *)
Definition no_glyphs (_ : Z * Z) (_ : string) : list (Z * Z * colour) := [].
Example test_step_artist :
  check (do sim <- noise4; do r <- life_run Life 2 sim; do st <- last_step r; do ca <- from_discrete_state (fun l => l) st None None;
         do im <- artist_2d FA f_int no_glyphs (sim_struct sim) (as_artist text ca) st (mkKw (Some "test img") (Some 2) None);
         Ok ((im_w im =? 25) && (im_h im =? 8))) = true.
Proof. vm_compute. reflexivity. Qed.
Example test_result_artist :
  check (do sim <- noise4; do r <- life_run Life 2 sim; do ca <- from_discrete_result (fun l => l) r None None;
         match to_gif (artist_2d FA f_int no_glyphs (sim_struct sim) (as_artist text ca)) [] r "out.gif" (mkKw None (Some 1) None) with
         | ([(name, CFrames l)], Ok _) => Ok (eqb name "out.gif" && Nat.eqb (length l) 3)
         | _ => Ok false
         end) = true.
Proof. vm_compute. reflexivity. Qed.
Example test_step_artist_3D :
  check (do sim <- setup_noise FA 3 (SzInt 2) ["dead"; "alive"] draws;
         do ca <- from_discrete_state (fun l => l) (sim_state sim) None None;
         do l <- image_3d f_int f_is (fun n => if n =? 8 then 2 else 0) (sim_struct sim) (as_artist text ca) (sim_state sim) false;
         Ok (Nat.eqb (length (concat (map v_cells l))) 8)) = true.
Proof. vm_compute. reflexivity. Qed.

(** tests/atomic/test_convert_pymatgen_structure.py *)
Definition Zr : pmg_struct b64 :=
  mkPmg [[dec 323923141 8; num 0; dec 19834571889770337 32]; [dec (-16196157049999995) 16; dec 28052566897964866 16; dec 19834571889770337 32]; [num 0; num 0; dec 517222 5]]
        [true; true; true]
        [("Zr", [frac 1 3; frac 2 3; frac 1 4]); ("Zr", [frac 2 3; frac 1 3; frac 3 4])].
Definition rows_close (u v : list (list b64)) : bool :=
  Nat.eqb (length u) (length v) && forallb (fun p => close (Ok (fst p)) (snd p)) (combine u v).
Example test_can_convert_lattice :
  check (do L <- to_pylattica_lattice Zr;
         Ok (close (Ok (vec_lengths FA L)) [dec 323923141 8; dec 32392314099999995 16; dec 517222 5] && rows_close (l_vecs L) (g_matrix Zr))) = true.
Proof. vm_compute. reflexivity. Qed.
Example test_can_convert_pmg_struct_to_pyl_struct_builder :
  check (do b <- to_pylattica_structure_builder Zr; do s <- build FA b (SzInt 1); do c <- site_class s 0;
         do x0 <- site_location s 0; do x1 <- site_location s 1; do f1 <- get_fractional_coords FA (p_lattice s) x1;
         Ok (Nat.eqb (length (p_ids s)) 2 && eqb c "Zr" &&
             closer x0 [dec 35599729479122526 32; dec 1870171126530991 15; dec 12930550000000003 16] &&
             closer x1 [dec 16196157050000002 16; dec 9350855632654955 16; dec 38791650000000004 16] && closer f1 [frac 2 3; frac 1 3; frac 3 4])) = true.
Proof. vm_compute. reflexivity. Qed.
(** the supercell of the test is 2 x 2 x 2; here the cell itself *)
Example test_can_convert_pmg_struct_to_pyl_struct_and_state :
  check (do (s, st) <- to_pylattica_structure_and_state FA Zr;
         do l <- mapM (fun g => do c <- pmg_coords FA Zr (snd g); do i <- id_at FA s c;
                                match i with Some i => do o <- occupancy st i; Ok (val_eqb o (VStr (fst g))) | None => Ok false end) (g_sites Zr);
         Ok (eqb l [true; true])) = true.
Proof. vm_compute. reflexivity. Qed.
Definition pyl_struct : res (structure b64) :=
  do L <- lat [pt 1 [1; 0; 0]; pt 1 [0; 1; 0]; pt 1 [0; 0; 1]] (PBool true);
  build FA (mkBuilder L (MDict [("Zr", [pt 2 [1; 1; 1]])]) false) (SzTuple [1; 2; 3]).
Example test_can_convert_pyl_lat :
  check (do s <- pyl_struct; do M <- to_pymatgen_lattice (p_lattice s);
         Ok (veqb (map (norm FA) M) (vec_lengths FA (p_lattice s)) && rows_close (l_vecs (p_lattice s)) M)) = true.
Proof. vm_compute. reflexivity. Qed.
Example test_can_convert_pyl_struct :
  check (do s <- pyl_struct; do P <- to_pymatgen_structure FA (fun x => Ok x) s;
         do l <- mapM (fun g => do c <- pmg_coords FA P (snd g); do x <- site_at FA s c;
                                match x with
                                | Some x => do f <- get_fractional_coords FA (p_lattice s) (s_loc x); Ok (eqb (s_class x) (fst g) && veqb f (snd g))
                                | None => Ok false
                                end) (g_sites P);
         Ok (Nat.eqb (length (g_sites P)) 6 && forallb (fun b => b) l)) = true.
Proof. vm_compute. reflexivity. Qed.
