(** The repository's own tests of structures, builders, neighbourhoods and simulations
    (tests/core and tests/structures), run on the model in IEEE binary64.  These are checks of
    the model, not proofs of properties.  Some grids are smaller than in the tests; the
    sizes used there are given in the comments. *)
From Coq Require Import Reals.
From Flocq Require Import Core BinarySingleNaN.
From Verif Require Import Prelude Dict Val Arith FloatArith LatticeModel StructModel NbModel GridModel StateModel JsonModel SimModel ReplayCore ReplayLattice.
Local Open Scope Z_scope.

Definition found (s : structure b64) (p : list b64) : bool :=
  check (do x <- site_at FA s p; Ok (match x with Some _ => true | None => false end)).
Definition absent (s : structure b64) (p : list b64) : bool :=
  check (do x <- site_at FA s p; Ok (match x with Some _ => false | None => true end)).
Definition has_class (s : structure b64) (p : list b64) (c : string) : bool :=
  check (do x <- class_at FA s p; Ok (match x with Some c' => eqb c c' | None => false end)).
Definition square_struct (p : periodic_arg) (cells : list Z) (m : motif_arg b64) : res (structure b64) :=
  do L <- lat square_2D p; build_from FA L cells m false.

(** tests/core/test_periodic_structure.py *)
Example test_can_instantiate_structure :
  check (do L <- lat [pt 1 [0; 0; 1]; pt 1 [0; 1; 0]; pt 1 [1; 0; 0]] (PBool true); Ok (Nat.eqb (p_dim (struct_init L)) 3)) = true.
Proof. vm_compute. reflexivity. Qed.
Definition site_eqb (x y : site b64) : bool := (s_id x =? s_id y) && eqb (s_class x) (s_class y) && veqb (s_loc x) (s_loc y).
Example test_struct_serialization :
  check (do s <- square_2x2; do r <- struct_from_dict FA (struct_json s);
    Ok (forallb (fun p => veqb (fst (fst p)) (fst (snd p)) && (snd (fst p) =? snd (snd p))) (combine (p_lookup r) (p_lookup s)) &&
        Nat.eqb (length (p_lookup r)) (length (p_lookup s)) &&
        forallb (fun kv => match get_site r (fst kv) with Some y => site_eqb (snd kv) y | None => false end) (p_sites s) &&
        Nat.eqb (p_dim r) (p_dim s) && eqb (p_ids r) (p_ids s))) = true.
Proof. vm_compute. reflexivity. Qed.
Example test_has_correct_sites :
  check (do s <- square_2x2; Ok (forallb (found s) [pt 2 [1; 1]; pt 2 [1; 3]; pt 2 [3; 1]; pt 2 [3; 3]])) = true.
Proof. vm_compute. reflexivity. Qed.
Example test_simple_structure_doesnt_have_incorrect_sites :
  check (do s <- square_2x2; Ok (absent s [dec 5 1; dec 501 3])) = true.
Proof. vm_compute. reflexivity. Qed.
Example test_simple_structure_has_periodic_sites :
  check (do s <- square_2x2; Ok (forallb (found s) [pt 2 [-3; -3]; pt 2 [-3; 3]; pt 2 [-3; 5]; pt 2 [5; -1]])) = true.
Proof. vm_compute. reflexivity. Qed.
Example test_sites_have_unaltered_location :
  check (do s <- square_2x2; do x <- site_at FA s (pt 2 [1; 1]);
         Ok (match x with Some x => veqb (s_loc x) (pt 2 [1; 1]) | None => false end)) = true.
Proof. vm_compute. reflexivity. Qed.
Example test_structure_returns_sites :
  check (do s <- square_2x2; Ok (Nat.eqb (length (sites s (Some "NOT_A_SITE"%string))) 0 && Nat.eqb (length (sites s (Some "A"%string))) 4)) = true.
Proof. vm_compute. reflexivity. Qed.
Example test_build_structure_from_list_motif :
  check (do s <- square_struct (PBool true) [3; 3] (MList [pt 2 [1; 1]]);
         Ok (Nat.eqb (length (p_ids s)) 9 && found s (pt 2 [1; 1]) && found s (pt 2 [-1; 5]) && absent s (pt 4 [1; 1]))) = true.
Proof. vm_compute. reflexivity. Qed.
Definition abc_motif : motif_arg b64 :=
  MDict [("A"%string, [[dec 25 2; dec 25 2]]); ("B"%string, [[dec 35 2; dec 25 2]]); ("C"%string, [[dec 35 2; dec 45 2]])].
Example test_periodic_structure_class_iding :
  check (do s <- square_struct (PBool true) [2; 2] abc_motif;
         let cl := all_site_classes (fun l => l) s in
         Ok (has_class s [dec 25 2; dec 25 2] "A" && has_class s [dec 135 2; dec 25 2] "B" && has_class s [dec 135 2; dec 145 2] "C" &&
             Nat.eqb (length cl) 3 && forallb (fun c => existsb (eqb c) cl) ["A"; "B"; "C"]%string && absent s (pt 1 [0; 0]))) = true.
Proof. vm_compute. reflexivity. Qed.
Example test_id_at :
  check (do s <- square_struct (PBool true) [2; 2] abc_motif;
         do x <- site_at FA s (pt 4 [1; 1]); do i <- id_at FA s (pt 4 [1; 1]); do j <- id_at FA s (pt 1 [0; 0]);
         Ok (match x, i, j with Some x, Some i, None => s_id x =? i | _, _, _ => false end)) = true.
Proof. vm_compute. reflexivity. Qed.
Example test_partially_periodic_structure :
  check (do s <- square_struct (PFlags [false; true]) [3; 3] (MList [pt 2 [1; 1]]);
         Ok (absent s (pt 2 [-1; 1]) && found s (pt 2 [1; 3]) && found s (pt 2 [1; -3]))) = true.
Proof. vm_compute. reflexivity. Qed.

(** tests/core/test_structure_builder.py *)
Definition ab_motif : motif_arg b64 := MDict [("A"%string, [pt 4 [2; 2]]); ("B"%string, [pt 4 [1; 2]])].
Definition ab_build (size : size_arg) : res (structure b64) := do L <- lat square_2D (PBool true); build FA (mkBuilder L ab_motif false) size.
Definition ab_found (s : structure b64) : bool :=
  absent s (pt 1 [0; 0]) && has_class s (pt 4 [2; 2]) "A" && has_class s (pt 4 [1; 2]) "B".
Example test_basic_structure_building :
  check (do s <- ab_build (SzTuple [1; 1]); Ok (Nat.eqb (length (p_ids s)) 2 && ab_found s)) = true.
Proof. vm_compute. reflexivity. Qed.
Example test_basic_structure_building_size_as_int :
  check (do s <- ab_build (SzInt 2); Ok (Nat.eqb (length (p_ids s)) 8 && ab_found s)) = true.
Proof. vm_compute. reflexivity. Qed.
Example test_basic_structure_building_bad_size_value : ab_build (SzTuple [2; 2; 2; 2]) = Err ValueError.
Proof. vm_compute. reflexivity. Qed.
Example test_structure_building_unequal_dirs :
  check (do s <- ab_build (SzTuple [2; 1]);
         Ok (Nat.eqb (length (p_ids s)) 4 && absent s (pt 1 [0; 0]) && has_class s (pt 4 [6; 2]) "A" && found s (pt 4 [1; 2]) && has_class s (pt 4 [5; 2]) "B")) = true.
Proof. vm_compute. reflexivity. Qed.
Example test_structure_building_frac_coords :
  check (do L <- lat [pt 1 [2; 0]; pt 1 [0; 2]] (PBool true); do s <- build FA (mkBuilder L ab_motif true) (SzTuple [2; 1]);
         Ok (Nat.eqb (length (p_ids s)) 4 && absent s (pt 1 [0; 0]) && has_class s (pt 1 [3; 1]) "A" && has_class s (pt 2 [1; 2]) "B")) = true.
Proof. vm_compute. reflexivity. Qed.

(** tests/core/test_simulation.py *)
Example test_can_instantiate_periodic_state : check (do s <- square_2x2; Ok (Nat.eqb (length (p_sites (sim_struct (mkSim s_empty s)))) 4)) = true.
Proof. vm_compute. reflexivity. Qed.
Definition marked : res (simulation b64) :=
  do s <- square_2x2; do i <- id_at FA s (pt 2 [1; 1]);
  match i with Some i => Ok (mkSim (set_site_state s_empty (KInt i) [(str "my_state_key", VInt 2)]) s) | None => Err KeyError end.
Example test_retrieves_state_correctly :
  check (do sim <- marked; do x <- state_at FA sim (pt 2 [1; 1]);
         Ok (match x with Some d => match dget (str "my_state_key") d with Some v => val_eqb v (VInt 2) | None => false end | None => false end)) = true.
Proof. vm_compute. reflexivity. Qed.
Example test_returns_none_if_no_state :
  check (do s <- square_2x2; do x <- state_at FA (mkSim s_empty s) [dec 6 1; dec 6 1]; Ok (match x with None => true | Some _ => false end)) = true.
Proof. vm_compute. reflexivity. Qed.
Example test_sim_serialization :
  check (do sim <- marked; do sim2 <- sim_from_dict FA (sim_json sim); Ok (state_eqb (sim_state sim2) (sim_state sim))) = true.
Proof. vm_compute. reflexivity. Qed.

(** tests/core/test_neighborhood_builders.py and test_neighborhoods.py *)
Definition grid2 (n : Z) : res (structure b64) := do b <- SimpleSquare2DStructureBuilder FA; build FA b (SzInt n).
Definition grid3 (n : Z) : res (structure b64) := do b <- SimpleSquare3DStructureBuilder FA; build FA b (SzInt n).
Definition as_is : @nb_oracle b64 := mkOracle (fun l => l) (fun _ => O).
Definition nb_ids (b : res (nb_builder b64)) (s : structure b64) (i : Z) : res (list Z) :=
  do b <- b; do N <- nb_get FA b s None; neighbors_of as_is N i.
Definition nb_weights (b : res (nb_builder b64)) (s : structure b64) (i : Z) : res (list b64) :=
  do b <- b; do N <- nb_get FA b s None; do l <- weighted_neighbors_of as_is N i; Ok (somes (map snd l)).
Definition how_many (r : res (list Z)) (n : nat) : bool := check (do l <- r; Ok (Nat.eqb (length l) n && Nat.eqb (length (dedup l)) n)).
(** 10 x 10 in the test *)
Example test_distance_nb_builder :
  check (do s <- grid2 3;
         let b1 := Ok (BDistance (dec 101 2)) in let b2 := Ok (BDistance (dec 15 1)) in
         do w1 <- nb_weights b1 s 1; do w2 <- nb_weights b2 s 1;
         Ok (how_many (nb_ids b1 s 1) 4 && forallb (fun w => f_eqb w (num 1)) w1 && Nat.eqb (length w1) 4 &&
             how_many (nb_ids b2 s 1) 8 && Nat.eqb (length w2) 8 &&
             forallb (fun w => f_eqb w (num 1) || close_to (dec 1 8) (dec 1 2) w (f_sqrt (num 2))) w2)) = true.
Proof. vm_compute. reflexivity. Qed.
(** [test_annular_nb_hood_builder] is left out for time; C87 and C89 prove its counts. *)
Example test_struct_nb_hood_builder :
  check (do s <- grid2 4; let b := motif_builder FA [pt 1 [0; 1]; pt 1 [0; -1]] in
         do w <- nb_weights b s 1;
         Ok (how_many (nb_ids b s 1) 2 && Nat.eqb (length w) 2 && forallb (fun x => f_eqb x (num 1)) w)) = true.
Proof. vm_compute. reflexivity. Qed.
Definition class_count (s : structure b64) (c : string) (l : list Z) : nat :=
  length (filter (fun i => check (do c' <- site_class s i; Ok (eqb c c'))) l).
Example test_site_class_neighborhood :
  check (do s <- square_struct (PBool true) [3; 3] (MDict [("A"%string, [pt 4 [1; 1]]); ("B"%string, [pt 4 [2; 2]]); ("C"%string, [pt 4 [3; 3]])]);
         do bA <- motif_builder FA [pt 4 [1; 1]; pt 4 [2; 2]]; do bC <- motif_builder FA [pt 4 [2; 2]];
         let b := Ok (BSiteClass [("A"%string, bA); ("C"%string, bC)]) in
         do ids <- mapM (id_at FA s) [pt 4 [5; 5]; pt 4 [6; 6]; pt 4 [7; 7]];
         match ids with
         | [Some a; Some b0; Some c] =>
             do na <- nb_ids b s a; do nb <- nb_ids b s b0; do nc <- nb_ids b s c;
             Ok (Nat.eqb (length na) 2 && Nat.eqb (class_count s "B" na) 1 && Nat.eqb (class_count s "C" na) 1 &&
                 Nat.eqb (length nb) 0 &&
                 Nat.eqb (length nc) 1 && Nat.eqb (class_count s "A" nc) 1 && Nat.eqb (class_count s "B" nc) 0)
         | _ => Err KeyError
         end) = true.
Proof. vm_compute. reflexivity. Qed.
Example test_motif_nbhood :
  check (do s <- square_struct (PBool true) [3; 3] (MList [pt 2 [1; 1]]);
         do l <- nb_ids (motif_builder FA [pt 1 [0; 1]]) s 4;
         match l with [i] => Ok (close (site_location s i) (pt 2 [3; 5])) | _ => Ok false end) = true.
Proof. vm_compute. reflexivity. Qed.
(** 5 x 5 in the test; the random choice is the first neighbourhood here *)
Example test_stochastic_nbhood :
  check (do s <- square_struct (PBool true) [4; 4] (MList [pt 2 [1; 1]]);
         let b := do bs <- mapM (fun m => motif_builder FA [pt 1 m]) [[0; 1]; [0; -1]; [1; 0]; [-1; 0]]; Ok (BStochastic bs) in
         Ok (how_many (nb_ids b s 0) 1)) = true.
Proof. vm_compute. reflexivity. Qed.
Definition nb_counts (p : periodic_arg) : res (list nat) :=
  do s <- square_struct p [3; 3] (MList [pt 2 [1; 1]]);
  do ids <- mapM (id_at FA s) [pt 2 [1; 3]; pt 2 [1; 5]];
  mapM (fun i => do l <- nb_ids (Ok (BDistance (dec 101 2))) s i; Ok (length l)) (somes ids).
Example test_fully_periodic_neighborhoods : check (do l <- nb_counts (PBool true); Ok (eqb l [4; 4]%nat)) = true.
Proof. vm_compute. reflexivity. Qed.
Example test_partially_periodic_neighborhoods : check (do l <- nb_counts (PFlags [false; true]); Ok (eqb l [3; 3]%nat)) = true.
Proof. vm_compute. reflexivity. Qed.
Example test_non_periodic_neighborhoods : check (do l <- nb_counts (PBool false); Ok (eqb l [3; 2]%nat)) = true.
Proof. vm_compute. reflexivity. Qed.

(** tests/structures/square_grid/test_grid_structure.py and test_sg_structure_builder.py *)
Example test_grid_has_points_as_expected :
  check (do s <- grid2 2; Ok (forallb (found s) [pt 1 [0; 0]; pt 1 [0; 1]; pt 1 [1; 0]; pt 1 [1; 1]])) = true.
Proof. vm_compute. reflexivity. Qed.
Example test_grid_has_points_as_expected_outside_cell :
  check (do s <- grid2 2; Ok (forallb (found s) [pt 1 [0; -1]; pt 1 [0; 2]; pt 1 [4; 0]; pt 1 [12; 31]])) = true.
Proof. vm_compute. reflexivity. Qed.
Example test_grid_does_not_have_unexpected_points :
  check (do s <- grid2 2; Ok (forallb (absent s) [[num 0; dec 5 1]; [num 0; dec (-1) 1]; [num 1; dec 15 1]; [dec (-12001) 3; num 1]])) = true.
Proof. vm_compute. reflexivity. Qed.
Example test_retrieved_site_has_correct_location :
  check (do s <- grid2 2; do x <- site_at FA s (pt 1 [0; 0]); Ok (match x with Some x => veqb (s_loc x) (pt 1 [0; 0]) | None => false end)) = true.
Proof. vm_compute. reflexivity. Qed.
Example test_creates_square_grid : check (do s <- grid2 4; Ok (found s (pt 1 [0; 0]))) = true.
Proof. vm_compute. reflexivity. Qed.

(** tests/structures/square_grid/test_sg_neighborhoods_discrete.py; the grids have side 10
    (the circular ones 20) in the tests *)
Definition nbs_at (s : structure b64) (b : res (nb_builder b64)) (p : list b64) (n : nat) : bool :=
  check (do i <- id_at FA s p; match i with Some i => Ok (how_many (nb_ids b s i) n) | None => Ok false end).
Example test_von_neumann_neighborhood : check (do s <- grid2 3; Ok (nbs_at s (VonNeumannNbHood2DBuilder FA 1) (pt 1 [2; 2]) 4)) = true.
Proof. vm_compute. reflexivity. Qed.
Example test_moore_neighborhood : check (do s <- grid2 3; Ok (nbs_at s (MooreNbHoodBuilder FA 1 2) (pt 1 [2; 2]) 8)) = true.
Proof. vm_compute. reflexivity. Qed.
(** the test also counts the 24 neighbours of radius 3; C90 proves that for every size *)
Example test_circular_neighborhood : check (do s <- grid2 3; Ok (how_many (nb_ids (Ok (CircularNeighborhoodBuilder (num 2))) s 0) 8)) = true.
Proof. vm_compute. reflexivity. Qed.
Example test_pseudo_hexagonal_nb_hood : check (do s <- grid2 3; Ok (how_many (nb_ids (PseudoHexagonalNeighborhoodBuilder2D FA) s 0) 6)) = true.
Proof. vm_compute. reflexivity. Qed.
Example test_pseudo_pentagonal_nb_hood : check (do s <- grid2 3; Ok (how_many (nb_ids (PseudoPentagonalNeighborhoodBuilder FA) s 0) 5)) = true.
Proof. vm_compute. reflexivity. Qed.
(** [test_pseudo_hexagonal_nb_3d_hood] is left out for time; C42 proves its count. *)
Example test_von_neumann_nb_3d_hood : check (do s <- grid3 3; Ok (how_many (nb_ids (VonNeumannNbHood3DBuilder FA 1) s 0) 6)) = true.
Proof. vm_compute. reflexivity. Qed.

(** tests/structures/honeycombs *)
Definition root3 : b64 := f_sqrt (num 3).
Example test_rhombohedral_lattice :
  check (do L <- RhombohedralLattice FA; let f := get_periodized_cartesian_coords FA L in
         Ok (gives (f (pt 2 [1; 1])) (pt 2 [1; 1]) && gives (f (pt 2 [0; 1])) (pt 2 [2; 1]) &&
             close (f (pt 2 [2; 3])) [frac 1 2; f_sub (frac 3 2) (f_div root3 (num 2))])) = true.
Proof. vm_compute. reflexivity. Qed.
Definition honeycomb (size : size_arg) : res (structure b64) := do b <- HoneycombTilingBuilder FA; build FA b size.
Example test_basic_tiling_neighborhood :
  check (do s <- honeycomb (SzTuple [3; 3]); do w <- nb_weights (Ok (HoneycombNeighborhoodBuilder FA)) s 0; Ok (Nat.eqb (length w) 6)) = true.
Proof. vm_compute. reflexivity. Qed.
(** [np.allclose(..., atol=OFFSET_PRECISION)], OFFSET_PRECISION = 3 decimals *)
Definition near (u v : list b64) : bool :=
  Nat.eqb (length u) (length v) && forallb (fun p => close_to (num 3) (dec 1 5) (fst p) (snd p)) (combine u v).
Definition closer (u v : list b64) : bool :=
  Nat.eqb (length u) (length v) && forallb (fun p => close_to (dec 1 3) (dec 1 5) (fst p) (snd p)) (combine u v).
Definition site_is (s : structure b64) (i : Z) (fr ca : list b64) : bool :=
  check (do x <- site_location s i; do f <- get_fractional_coords FA (p_lattice s) x; Ok (near f fr && near x ca && closer f fr && closer x ca)).
Example test_small_honeycomb_tiling_builder :
  check (do s <- honeycomb (SzInt 1); Ok (Nat.eqb (length (p_ids s)) 1 && site_is s 0 (pt 2 [1; 1]) [frac 3 4; f_div root3 (num 4)])) = true.
Proof. vm_compute. reflexivity. Qed.
Example test_medium_honeycomb_tiling_builder_uneven_size :
  check (do s <- honeycomb (SzTuple [2; 1]);
         Ok (site_is s 0 (pt 4 [1; 2]) [frac 3 4; f_div root3 (num 4)] && site_is s 1 (pt 4 [3; 2]) [frac 7 4; f_div root3 (num 4)])) = true.
Proof. vm_compute. reflexivity. Qed.
Example test_medium_honeycomb_tiling_builder_even_size :
  check (do s <- honeycomb (SzTuple [3; 3]); let L := p_lattice s in
         do mid <- get_cartesian_coords FA L (pt 2 [1; 1]); do ul <- get_cartesian_coords FA L [frac 1 6; frac 5 6];
         do diff <- bcast f_sub mid ul;
         Ok (veqb mid [frac 9 4; f_div (f_mul (num 3) root3) (num 4)] && found s mid &&
             close (Ok ul) [frac 7 4; f_div (f_mul (num 5) root3) (num 4)] && isclose (norm FA diff) (num 1) && found s ul &&
             gives1 (cartesian_periodic_distance FA L mid ul) (num 1))) = true.
Proof. vm_compute. reflexivity. Qed.
