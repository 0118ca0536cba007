(** The repository's own tests of lattices, distance maps and box points (tests/core), run
    on the model in IEEE binary64.  These are checks of the model, not proofs of
    properties. *)
From Coq Require Import Reals.
From Flocq Require Import Core BinarySingleNaN.
From Verif Require Import Prelude Dict Val Arith FloatArith LatticeModel StructModel NbModel ReplayCore.
Local Open Scope Z_scope.

(** The number written as [m / 10^k] (correctly rounded, like a Python literal), [a/b], and
    vectors of quarters. *)
Definition dec (m k : Z) : b64 := f_div (f_ofZ m) (f_ofZ (10 ^ k)).
Definition num (z : Z) : b64 := f_ofZ z.
Definition frac (a b : Z) : b64 := f_div (f_ofZ a) (f_ofZ b).
Definition pt (d : Z) (l : list Z) : list b64 := map (fun z => frac z d) l.
Definition veqb (u v : list b64) : bool := Nat.eqb (length u) (length v) && forallb (fun p => f_eqb (fst p) (snd p)) (combine u v).
(** [(np.array(v) == r).all()] *)
Definition gives (r : res (list b64)) (v : list b64) : bool := check (do u <- r; Ok (veqb u v)).
Definition gives1 (r : res b64) (v : b64) : bool := check (do u <- r; Ok (f_eqb u v)).
(** [np.isclose(a, b)] with [atol], [rtol]: |a - b| <= atol + rtol * |b| *)
Definition close_to (atol rtol a b : b64) : bool :=
  negb (f_ltb (f_add atol (f_mul rtol (f_abs b))) (f_abs (f_sub a b))).
Definition isclose : b64 -> b64 -> bool := close_to (dec 1 8) (dec 1 5).
Definition close (r : res (list b64)) (v : list b64) : bool :=
  check (do u <- r; Ok (Nat.eqb (length u) (length v) && forallb (fun p => isclose (fst p) (snd p)) (combine u v))).
Definition close1 (r : res b64) (v : b64) : bool := check (do u <- r; Ok (isclose u v)).
Definition lat (vecs : list (list b64)) (p : periodic_arg) : res (lattice b64) := lattice_init vecs p.
Definition square_2D : list (list b64) := [pt 1 [1; 0]; pt 1 [0; 1]].

(** tests/core/test_lattice.py *)
Example test_instantiate_lattice : check (do _ <- lat square_2D (PBool true); Ok true) = true.
Proof. vm_compute. reflexivity. Qed.
Example test_basic_points :
  gives (do L <- lat square_2D (PBool true); get_cartesian_coords FA L (pt 2 [3; 1])) (pt 2 [3; 1]) = true.
Proof. vm_compute. reflexivity. Qed.
(** the sites found *)
Definition somes {X} (l : list (option X)) : list X := flat_map (fun o => match o with Some x => [x] | None => [] end) l.
Definition simple_motif : motif_arg b64 := MDict [("A"%string, [pt 2 [1; 1]])].
Definition square_2x2 : res (structure b64) :=
  do L <- lat square_2D (PBool true); build_from FA L [2; 2] simple_motif false.
Example test_can_build_simple_2x2_grid : check (do _ <- square_2x2; Ok true) = true.
Proof. vm_compute. reflexivity. Qed.
Example test_simple_structure_has_correct_sites :
  check (do s <- square_2x2; do l <- mapM (id_at FA s) [pt 2 [1; 1]; pt 2 [1; 3]; pt 2 [3; 1]; pt 2 [3; 3]];
         Ok (eqb (somes l) [0; 1; 2; 3])) = true.
Proof. vm_compute. reflexivity. Qed.

Definition half_cell : list (list b64) := [pt 1 [1; 0]; pt 2 [0; 1]].
Example test_rectangular_lattice_point_conversions :
  check (do L <- lat half_cell (PBool true);
    let pt1 := pt 4 [2; 1] in let pt2 := pt 4 [2; 3] in let pt3 := pt 4 [0; 2] in
    Ok (gives (get_periodized_cartesian_coords FA L pt1) (pt 4 [2; 1]) &&
        gives (get_periodized_cartesian_coords FA L pt2) (pt 4 [2; 1]) &&
        gives (get_periodized_cartesian_coords FA L pt3) (pt 4 [0; 0]) &&
        gives (get_fractional_coords FA L pt1) (pt 2 [1; 1]) &&
        gives (get_fractional_coords FA L pt2) (pt 2 [1; 3]) &&
        gives (get_fractional_coords FA L pt3) (pt 2 [0; 2]) &&
        gives (get_cartesian_coords FA L pt1) (pt 8 [4; 1]) &&
        gives (get_cartesian_coords FA L pt2) (pt 8 [4; 3]) &&
        gives (get_cartesian_coords FA L pt3) (pt 8 [0; 2]))) = true.
Proof. vm_compute. reflexivity. Qed.
Example test_scaled_rectangular_lattice_point_conversions :
  check (do L0 <- lat half_cell (PBool true); do L <- get_scaled_lattice FA L0 [2; 1];
    let pt1 := pt 4 [6; 1] in let pt2 := pt 4 [10; 3] in let pt3 := pt 4 [0; 2] in let pt4 := pt 4 [4; 1] in
    Ok (gives (get_periodized_cartesian_coords FA L pt1) (pt 4 [6; 1]) &&
        gives (get_periodized_cartesian_coords FA L pt2) (pt 4 [2; 1]) &&
        gives (get_periodized_cartesian_coords FA L pt3) (pt 4 [0; 0]) &&
        gives (get_periodized_cartesian_coords FA L pt4) (pt 4 [4; 1]) &&
        gives (get_fractional_coords FA L pt1) (pt 4 [3; 2]) &&
        gives (get_fractional_coords FA L pt2) (pt 4 [5; 6]) &&
        gives (get_fractional_coords FA L pt3) (pt 4 [0; 4]) &&
        gives (get_fractional_coords FA L pt4) (pt 4 [2; 2]) &&
        gives (get_cartesian_coords FA L pt1) (pt 8 [24; 1]) &&
        gives (get_cartesian_coords FA L pt2) (pt 8 [40; 3]) &&
        gives (get_cartesian_coords FA L pt3) (pt 8 [0; 2]) &&
        gives (get_cartesian_coords FA L pt4) (pt 8 [16; 1]))) = true.
Proof. vm_compute. reflexivity. Qed.
Example test_rectangular_lattice_pbc_distance :
  check (do L0 <- lat half_cell (PBool true); do L <- get_scaled_lattice FA L0 [2; 2];
    let pt1 := pt 4 [2; 2] in let pt2 := pt 4 [2; 3] in let pt3 := pt 4 [10; 2] in
    Ok (gives1 (cartesian_periodic_distance FA L pt1 pt2) (frac 1 4) &&
        gives1 (cartesian_periodic_distance FA L pt1 pt3) (num 0) &&
        gives1 (cartesian_periodic_distance FA L pt2 pt3) (frac 1 4))) = true.
Proof. vm_compute. reflexivity. Qed.
Example test_square_lattice_non_pbc_distance :
  check (do L <- lat square_2D (PBool false);
    let pt1 := [dec 1 1; dec 5 1] in let pt2 := [dec 9 1; dec 5 1] in let pt3 := [dec 15 1; dec 5 1] in
    Ok (gives1 (cartesian_periodic_distance FA L pt1 pt2) (dec 8 1) &&
        gives1 (cartesian_periodic_distance FA L pt1 pt3) (dec 14 1) &&
        gives1 (cartesian_periodic_distance FA L pt2 pt3) (dec 6 1))) = true.
Proof. vm_compute. reflexivity. Qed.
Example test_square_lattice_non_pbc_coords :
  check (do L <- lat square_2D (PBool false);
    let pt1 := [dec 1 1; dec 5 1] in let pt2 := [dec 9 1; dec 5 1] in let pt3 := [dec 15 1; dec 5 1] in
    Ok (gives (get_periodized_cartesian_coords FA L pt1) pt1 &&
        gives (get_periodized_cartesian_coords FA L pt2) pt2 &&
        gives (get_periodized_cartesian_coords FA L pt3) pt3)) = true.
Proof. vm_compute. reflexivity. Qed.
Definition canted : list (list b64) := [pt 1 [1; 0]; pt 1 [1; 1]].
Example test_canted_lattice_pbc_distance :
  check (do L0 <- lat canted (PBool true); do L <- get_scaled_lattice FA L0 [2; 2];
    let d a b := cartesian_periodic_distance FA L (pt 4 a) (pt 4 b) in
    Ok (gives1 (d [3; 2] [7; 2]) (num 1) && gives1 (d [3; 2] [0; 2]) (frac 3 4) &&
        gives1 (d [10; 1] [2; 1]) (num 0) && gives1 (d [4; 6] [4; 2]) (num 1))) = true.
Proof. vm_compute. reflexivity. Qed.
Example test_canted_rectangular_lattice_point_conversions :
  check (do L <- lat canted (PBool true);
    let pt1 := pt 4 [2; 1] in let pt2 := pt 4 [2; 3] in let pt3 := pt 4 [0; 2] in
    Ok (gives (get_periodized_cartesian_coords FA L pt1) (pt 4 [2; 1]) &&
        gives (get_periodized_cartesian_coords FA L pt2) (pt 4 [6; 3]) &&
        gives (get_periodized_cartesian_coords FA L pt3) (pt 4 [4; 2]) &&
        gives (get_fractional_coords FA L pt1) (pt 4 [1; 1]) &&
        gives (get_fractional_coords FA L pt2) (pt 4 [-1; 3]) &&
        gives (get_fractional_coords FA L pt3) (pt 4 [-2; 2]) &&
        gives (get_cartesian_coords FA L pt1) (pt 4 [3; 1]) &&
        gives (get_cartesian_coords FA L pt2) (pt 4 [5; 3]) &&
        gives (get_cartesian_coords FA L pt3) (pt 4 [2; 2]))) = true.
Proof. vm_compute. reflexivity. Qed.
Example test_periodizing_point :
  (let pt3 := [dec 15 1; dec 8 1; dec (-5) 1] in
   gives (periodize_arg FA [dec 5 1; dec 15 1; dec 8 1] (PBool true)) [dec 5 1; dec 5 1; dec 8 1] &&
   gives (periodize_arg FA (pt 1 [0; 0; 0]) (PBool true)) (pt 1 [0; 0; 0]) &&
   gives (periodize_arg FA pt3 (PBool false)) pt3 &&
   gives (periodize_arg FA pt3 (PFlags [false; false; true])) [dec 15 1; dec 8 1; dec 5 1] &&
   gives (periodize_arg FA pt3 (PFlags [true; false; true])) [dec 5 1; dec 8 1; dec 5 1] &&
   gives (periodize_arg FA (pt 2 [3; 3]) (PFlags [true; false])) (pt 2 [1; 3])) = true.
Proof. vm_compute. reflexivity. Qed.
Definition folds (p : periodic_arg) (v : list b64) : bool :=
  gives (do L <- lat square_2D p; get_periodized_cartesian_coords FA L (pt 2 [3; 3])) v.
Example test_nonperiodic_lattice :
  (folds (PBool false) (pt 2 [3; 3]) && folds (PBool true) (pt 2 [1; 1]) && folds (PFlags [true; false]) (pt 2 [1; 3])) = true.
Proof. vm_compute. reflexivity. Qed.
Example test_partially_periodic_lattice :
  check (do L0 <- lat square_2D (PFlags [true; false]); do L <- get_scaled_lattice FA L0 [3; 3];
    let f a b := gives (get_periodized_cartesian_coords FA L (pt 2 a)) (pt 2 b) in
    Ok (f [-1; 3] [5; 3] && f [3; -1] [3; -1] && f [-1; -1] [5; -1])) = true.
Proof. vm_compute. reflexivity. Qed.
Definition scaled_flags (p : periodic_arg) : res (list bool) :=
  do L0 <- lat square_2D p; do L <- get_scaled_lattice FA L0 [2; 2]; Ok (l_periodic L).
Example test_scaling_lattice_retains_periodicity :
  (check (do f <- scaled_flags (PBool false); Ok (eqb f [false; false])) &&
   check (do f <- scaled_flags (PFlags [false; true]); Ok (eqb f [false; true])) &&
   check (do f <- scaled_flags (PBool true); Ok (eqb f [true; true]))) = true.
Proof. vm_compute. reflexivity. Qed.

(** tests/core/test_lattice_utils.py *)
Example test_pbc_diff_frac_vec :
  (let pt1 := [dec 1 1; num 0] in let pt2 := [dec 9 1; num 0] in let pt3 := [dec 19 1; num 0] in
   let pt4 := [dec 9 1; dec 9 1] in let pt5 := [dec 1 1; dec 1 1] in
   let pt6 := [dec (-1) 1; dec (-1) 1] in let pt7 := [dec 11 1; dec 11 1] in
   let d := pbc_diff_frac_vec FA in
   close (d pt1 pt2 [true; true]) [dec 2 1; num 0] &&
   close (d pt1 pt2 [false; false]) [dec (-8) 1; num 0] &&
   close (d pt1 pt3 [false; false]) [dec (-18) 1; num 0] &&
   close (d pt4 pt5 [true; true]) [dec (-2) 1; dec (-2) 1] &&
   close (d pt4 pt5 [false; false]) [dec 8 1; dec 8 1] &&
   close (d pt4 pt5 [false; true]) [dec 8 1; dec (-2) 1] &&
   close (d pt4 pt5 [true; false]) [dec (-2) 1; dec 8 1] &&
   close (d pt7 pt6 [true; true]) [dec 2 1; dec 2 1] &&
   close (d pt7 pt6 [true; false]) [dec 2 1; dec 12 1] &&
   close (d pt7 pt6 [false; true]) [dec 12 1; dec 2 1] &&
   close (d pt7 pt6 [false; false]) [dec 12 1; dec 12 1]) = true.
Proof. vm_compute. reflexivity. Qed.
Example test_pbc_diff_cart :
  (let pt1 := [dec 1 1; dec 1 1] in let pt2 := [dec 1 1; dec 9 1] in let pt5 := [dec (-9) 1; dec 1 1] in
   let d p q := map (fun per => do L <- lat square_2D per; cartesian_periodic_distance FA L p q)
                    [PBool true; PFlags [false; true]; PFlags [true; false]; PBool false] in
   forallb (fun x => close1 (fst x) (snd x)) (combine (d pt1 pt2) [dec 2 1; dec 2 1; dec 8 1; dec 8 1]) &&
   forallb (fun x => close1 (fst x) (snd x)) (combine (d pt1 pt5) [num 0; num 1; num 0; num 1])) = true.
Proof. vm_compute. reflexivity. Qed.

(** tests/core/test_distance_map.py *)
Definition known (d : res (dict (list b64) b64)) (p : list b64) (v : b64) : bool :=
  check (do m <- d; Ok (match get_dist FA m p with Some w => f_eqb w v | None => false end)).
Example test_distance_map_basics :
  (let d := find_distances FA (euclidean_distance FA) [pt 1 [1; 1]; pt 1 [0; 1]] in
   known d (pt 1 [1; 1]) (dec 141 2) && known d (pt 1 [0; 1]) (num 1)) = true.
Proof. vm_compute. reflexivity. Qed.
Example test_manhattan_distance_map :
  (let d := find_distances FA (manhattan_distance FA) [pt 1 [1; 1]; pt 1 [0; 1]; pt 1 [0; -1]; [dec 25 1; dec 17 1]] in
   known d (pt 1 [1; 1]) (num 2) && known d (pt 1 [0; 1]) (num 1) && known d (pt 1 [0; -1]) (num 1) &&
   known d [dec 25 1; dec 17 1] (dec 42 1)) = true.
Proof. vm_compute. reflexivity. Qed.

(** tests/core/test_coordinate_utils.py *)
Example test_get_points_in_box :
  let pts := get_points_in_box [0; 0] [2; 2] in (Nat.eqb (length pts) 4 && existsb (eqb [0; 0]) pts) = true.
Proof. vm_compute. reflexivity. Qed.
