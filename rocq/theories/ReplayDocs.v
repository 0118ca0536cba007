(** The outputs recorded in the notebooks of the guides (docs/guides/*.ipynb), compared with
    the model in IEEE binary64.  These are checks of the model, not proofs of properties.
    A printed list is compared as a set of values: the guides print neighbours in an order
    that depends on the run. *)
From Coq Require Import Reals.
From Flocq Require Import Core BinarySingleNaN.
From Verif Require Import Prelude Dict Val Arith FloatArith LatticeModel StructModel NbModel GridModel StateModel ResultModel JsonModel SimModel RunnerModel SetupModel RulesModel AnalyzerModel VizModel ReplayCore ReplayLattice ReplayStruct ReplayGrid.
Local Open Scope string_scope.
Local Open Scope Z_scope.

(** the same integers, in any order *)
Definition same_set (l m : list Z) : bool :=
  Nat.eqb (length l) (length m) && forallb (fun x => existsb (Z.eqb x) m) l && forallb (fun x => existsb (Z.eqb x) l) m.


(** docs/guides/lattices.ipynb; the first check is exact, the printed numbers of the others
    have up to 8 decimals *)
Definition oblique : res (lattice b64) := lat [pt 1 [1; 1]; pt 1 [1; 0]] (PBool true).
Example guide_fractional :
  check (do L <- oblique; Ok (gives (get_fractional_coords FA L (pt 4 [2; 1])) (pt 4 [1; 1]) && gives (get_cartesian_coords FA L (pt 4 [1; 1])) (pt 4 [2; 1]))) = true.
Proof. vm_compute. reflexivity. Qed.
Definition wraps (p : periodic_arg) (u v : list b64) : bool := check (do L <- lat square_2D p; Ok (close (get_periodized_cartesian_coords FA L u) v)).
Example guide_periodized :
  wraps (PBool true) (pt 2 [3; 1]) (pt 2 [1; 1]) && wraps (PBool true) [dec (-13) 1; dec (-2) 1] [dec 7 1; dec 8 1] &&
  wraps (PBool false) [dec 15 1; dec 12 1] [dec 15 1; dec 12 1] && wraps (PFlags [true; false]) (pt 2 [3; 3]) (pt 2 [1; 3]) = true.
Proof. vm_compute. reflexivity. Qed.
Definition apart (p : periodic_arg) (d : b64) : bool :=
  check (do L <- lat square_2D p; Ok (close1 (cartesian_periodic_distance FA L [dec 1 1; dec 5 1] [dec 9 1; dec 5 1]) d)).
Example guide_distances : apart (PBool true) (dec 2 1) && apart (PBool false) (dec 8 1) = true.
Proof. vm_compute. reflexivity. Qed.
Example guide_scaled :
  check (do L <- lat square_2D (PBool true); do L2 <- get_scaled_lattice FA L [2; 2];
         Ok (veqb (vec_lengths FA L) (pt 1 [1; 1]) && veqb (vec_lengths FA L2) (pt 1 [2; 2]) &&
             gives (get_periodized_cartesian_coords FA L (pt 2 [3; 3])) (pt 2 [1; 1]) && gives (get_periodized_cartesian_coords FA L2 (pt 2 [3; 3])) (pt 2 [3; 3]))) = true.
Proof. vm_compute. reflexivity. Qed.

(** docs/guides/neighborhoods.ipynb *)
Definition guide_struct : res (structure b64) := square_struct (PBool true) [5; 5] (MList [pt 2 [1; 1]]).
Definition central (s : structure b64) : res (site b64) :=
  do x <- site_at FA s (pt 2 [5; 5]); match x with Some x => Ok x | None => Err TypeError end.
(** the edges the builder draws from the central site *)
Definition guide_nbs (b : res (nb_builder b64)) : res (list (Z * b64)) :=
  do s <- guide_struct; do x <- central s; do b <- b; do l <- get_neighbors FA b s x;
  Ok (flat_map (fun e => match e with (Some i, Some w) => [(i, w)] | _ => [] end) l).
(** the printed neighbours, with their locations and distances *)
Definition printed (r : res (list (Z * b64))) (out : list (Z * list Z * b64)) : bool :=
  check (do s <- guide_struct; do l <- r;
         Ok (same_set (map fst l) (map (fun e => fst (fst e)) out) &&
             forallb (fun e => gives (site_location s (fst (fst e))) (pt 2 (snd (fst e))) &&
                               existsb (fun f => (fst f =? fst (fst e)) && f_eqb (snd f) (snd e)) l) out)).
Definition cross (d : b64) : list (Z * list Z * b64) := [(17, [7; 5], d); (11, [5; 3], d); (13, [5; 7], d); (7, [3; 5], d)].
Definition diagonal (d : b64) : list (Z * list Z * b64) := [(6, [3; 3], d); (16, [7; 3], d); (8, [3; 7], d); (18, [7; 7], d)].
Definition outer (d : b64) : list (Z * list Z * b64) := [(2, [1; 5], d); (14, [5; 9], d); (22, [9; 5], d); (10, [5; 1], d)].
Example guide_distance_101 : printed (guide_nbs (Ok (BDistance (dec 101 2)))) (cross (num 1)) = true.
Proof. vm_compute. reflexivity. Qed.
Example guide_distance_150 : printed (guide_nbs (Ok (BDistance (dec 15 1)))) (cross (num 1) ++ diagonal (dec 1414 3))%list = true.
Proof. vm_compute. reflexivity. Qed.
Example guide_annular : printed (guide_nbs (Ok (BAnnular (dec 13 1) (dec 201 2)))) (diagonal (dec 1414 3) ++ outer (num 2))%list = true.
Proof. vm_compute. reflexivity. Qed.
Example guide_motif :
  printed (guide_nbs (motif_builder FA (map (pt 1) [[0; 2]; [1; 1]; [2; 0]; [1; -1]; [0; -2]; [-1; -1]; [-2; 0]; [-1; 1]])))
          (diagonal (dec 141 2) ++ outer (num 2))%list = true.
Proof. vm_compute. reflexivity. Qed.
(** the ten draws of the guide gave 11, 13, 7 and 17 *)
Example guide_stochastic :
  check (do s <- guide_struct; do bs <- mapM (fun m => motif_builder FA [pt 1 m]) [[0; 1]; [0; -1]; [1; 0]; [-1; 0]];
         do N <- nb_get FA (BStochastic bs) s None;
         do l <- mapM (fun k => neighbors_of (mkOracle (fun l => l) (fun _ => k)) N 12) [0; 1; 2; 3]%nat;
         Ok (eqb l [[13]; [11]; [17]; [7]])) = true.
Proof. vm_compute. reflexivity. Qed.
Example guide_site_class :
  check (do s <- square_struct (PBool true) [3; 3] (MDict [("A", [pt 4 [1; 1]]); ("B", [pt 4 [3; 3]])]);
         do a <- motif_builder FA [pt 1 [0; 1]]; do b <- motif_builder FA [pt 1 [1; 0]];
         do N <- nb_get FA (BSiteClass [("A", a); ("B", b)]) s None;
         do i <- id_at FA s (pt 4 [1; 1]); do j <- id_at FA s (pt 4 [7; 7]);
         match i, j with
         | Some i, Some j =>
             do li <- neighbors_of as_is N i; do lj <- neighbors_of as_is N j;
             Ok (eqb li [2] && eqb lj [15] && gives (site_location s 2) (pt 4 [1; 5]) && gives (site_location s 15) (pt 4 [11; 7]))
         | _, _ => Err KeyError
         end) = true.
Proof. vm_compute. reflexivity. Qed.
(** locations of the neighbours of (0.5, 1.5) and (0.5, 2.5), in halves *)
Definition located (p : periodic_arg) (edge corner : list (list Z)) : bool :=
  check (do s <- square_struct p [3; 3] (MList [pt 2 [1; 1]]); do N <- nb_get FA (BDistance (dec 101 2)) s None;
         let near_ (at_ : list Z) (out : list (list Z)) :=
           do i <- id_at FA s (pt 2 at_);
           match i with
           | Some i => do l <- neighbors_of as_is N i; do ids <- mapM (id_at FA s) (map (pt 2) out); Ok (same_set l (somes ids) && Nat.eqb (length l) (length out))
           | None => Err KeyError
           end in
         do a <- near_ [1; 3] edge; do b <- near_ [1; 5] corner; Ok (a && b)).
Example guide_fully_periodic : located (PBool true) [[5; 3]; [3; 3]; [1; 5]; [1; 1]] [[1; 1]; [3; 5]; [1; 3]; [5; 5]] = true.
Proof. vm_compute. reflexivity. Qed.
Example guide_partially_periodic : located (PFlags [false; true]) [[1; 5]; [1; 1]; [3; 3]] [[3; 5]; [1; 1]; [1; 3]] = true.
Proof. vm_compute. reflexivity. Qed.
Example guide_non_periodic : located (PBool false) [[1; 5]; [3; 3]; [1; 1]] [[1; 3]; [3; 5]] = true.
Proof. vm_compute. reflexivity. Qed.

(** docs/guides/periodic_structures.ipynb *)
Definition site_is_at (s : structure b64) (p : list b64) (c : string) (loc : list b64) (i : Z) : bool :=
  check (do x <- site_at FA s p; Ok (match x with Some x => site_eqb x (mkSite c loc i) | None => false end)).
Example guide_structure :
  check (do s <- square_struct (PBool true) [3; 3] (MList [pt 4 [2; 3]; pt 4 [2; 1]]);
         Ok (forallb (fun p => veqb (fst p) (snd p)) (combine (l_vecs (p_lattice s)) [pt 1 [3; 0]; pt 1 [0; 3]]) &&
             gives (get_periodized_cartesian_coords FA (p_lattice s) (pt 2 [3; 3])) (pt 2 [3; 3]) &&
             Nat.eqb (length (sites s None)) 18 &&
             site_is_at s (pt 4 [2; 3]) "A" (pt 4 [2; 3]) 0 && site_is_at s (pt 4 [14; 15]) "A" (pt 4 [2; 3]) 0 &&
             match get_site s 0 with Some x => site_eqb x (mkSite "A" (pt 4 [2; 3]) 0) | None => false end)) = true.
Proof. vm_compute. reflexivity. Qed.
Example guide_classes :
  check (do s <- square_struct (PBool true) [3; 3] (MDict [("A", [pt 4 [2; 1]]); ("B", [pt 4 [2; 3]])]);
         Ok (Nat.eqb (length (p_ids s)) 18 && Nat.eqb (length (sites s (Some "A"))) 9 && Nat.eqb (length (sites s (Some "B"))) 9 &&
             site_is_at s (pt 4 [2; 1]) "A" (pt 4 [2; 1]) 0 && site_is_at s (pt 4 [6; 1]) "A" (pt 4 [6; 1]) 6 &&
             site_is_at s (pt 4 [2; 3]) "B" (pt 4 [2; 3]) 1 && site_is_at s (pt 4 [2; 7]) "B" (pt 4 [2; 7]) 3)) = true.
Proof. vm_compute. reflexivity. Qed.

(** docs/guides/simulation_state.ipynb *)
Definition my_key : key := str "my state key".
Definition another_key : key := str "another key".
Example guide_state :
  let s1 := set_site_state s_empty (KInt 1) [(my_key, VStr "my state value")] in
  let s2 := set_site_state s1 (KInt 1) [(another_key, VStr "another value")] in
  let s3 := set_site_state s2 (KInt 1) [(my_key, VStr "a brand new value")] in
  get_site_state s_empty (KInt 1) = None /\
  get_site_state s1 (KInt 1) = Some [(SITE_ID, VInt 1); (my_key, VStr "my state value")] /\
  get_site_state s2 (KInt 1) = Some [(SITE_ID, VInt 1); (my_key, VStr "my state value"); (another_key, VStr "another value")] /\
  get_site_state s3 (KInt 1) = Some [(SITE_ID, VInt 1); (my_key, VStr "a brand new value"); (another_key, VStr "another value")] /\
  get_general_state s3 = [] /\ get_general_state (set_general_state s3 [(str "key1", VStr "value1")]) = [(str "key1", VStr "value1")].
Proof. vm_compute. repeat split; reflexivity. Qed.

(** docs/guides/runners.ipynb: the grid has side 10 there and 3 here; the values are drawn
    from 1 to 10.  After ten steps every value is 10. *)
Definition value_of (k : key) (st : sstate) : res Z :=
  match get_site_state st k with
  | Some d => match dget (str "value") d with Some (VInt v) => Ok v | _ => Err TypeError end
  | None => Err AttributeError
  end.
Definition sync_controller : controller unit :=
  mkController (fun c _ => Ok c) (fun c _ => Ok (VNone, c))
    (fun c k st => do v <- value_of k st; Ok (one "value" (VInt (if v <? 10 then v + 1 else v)), c)).
Definition valued (f : Z -> Z) (ids : list Z) : sstate := fold_left (fun st i => set_site_state st (KInt i) [(str "value", VInt (f i))]) ids (from_struct ids).
Example guide_synchronous :
  check (do s <- grid2 3; do o <- run_sync sync_controller tt (valued (fun i => 1 + Z.of_nat (draws (Z.to_nat i))) (p_ids s)) 10;
         do st <- last_step (o_result o); Ok (forallb (fun i => holds st i "value" (VInt 10)) (p_ids s))) = true.
Proof. vm_compute. reflexivity. Qed.
(** The asynchronous example moves one unit between neighbours: the total stays 0.  100
    steps on side 10 in the guide, 20 on side 3 here. *)
Definition async_controller (N : nbhood b64) : controller nat :=
  mkController (fun c _ => Ok c) (fun c st => basic_random_site draws c st)
    (fun c k st =>
      match k with
      | KInt i =>
          do v <- value_of k st; do l <- neighbors_of as_is N i;
          let j := nth (draws c mod length l) l 0 in
          do w <- value_of (KInt j) st;
          let direction := if Nat.even (draws (c + 1)) then -1 else 1 in
          Ok (VDict [(KInt i, one "value" (VInt (v + direction))); (KInt j, one "value" (VInt (w - direction)))], (c + 2)%nat)
      | KStr _ => Err TypeError
      end).
Definition get_total (st : sstate) : res Z :=
  do l <- mapM (fun kv => value_of (fst kv) st) (s_sites st); Ok (fold_right Z.add 0 l).
Example guide_asynchronous :
  check (do s <- grid2 3; do b <- VonNeumannNbHood2DBuilder FA 1; do N <- nb_get FA b s None;
         do o <- run_async (async_controller N) 0%nat (valued (fun _ => 0) (p_ids s)) 20;
         do l <- mapM (fun k => do st <- get_step (o_result o) k; get_total st) (zrange 0 21);
         do st <- last_step (o_result o);
         Ok (forallb (Z.eqb 0) l && negb (forallb (fun i => holds st i "value" (VInt 0)) (p_ids s)))) = true.
Proof. vm_compute. reflexivity. Qed.

(** docs/guides/square_grids.ipynb, the interface of side 4: the sites, the state of site 0
    and the size of the picture *)
Example guide_sites :
  check (do sim <- interface4;
         Ok (Nat.eqb (length (sites (sim_struct sim) None)) 16 &&
             forallb (fun p => site_eqb (fst p) (snd p))
               (combine (sites (sim_struct sim) None) (map (fun i => mkSite "_A" (pt 1 [i mod 4; i / 4]) i) (zrange 0 16))))) = true.
Proof. vm_compute. reflexivity. Qed.
Example guide_interface :
  check (do sim <- interface4; Ok (match get_site_state (sim_state sim) (KInt 0) with
                                   | Some d => val_eqb (VDict d) (VDict [(SITE_ID, VInt 0); (DISCRETE_OCCUPANCY, VStr "A")])
                                   | None => false
                                   end)) = true.
Proof. vm_compute. reflexivity. Qed.
Example guide_picture :
  check (do sim <- interface4; do ca <- from_discrete_state (fun l => l) (sim_state sim) None None;
         do im <- artist_2d FA f_int no_glyphs (sim_struct sim) (as_artist text ca) (sim_state sim) (mkKw None (Some 30) None);
         Ok ((im_w im =? 305) && (im_h im =? 120))) = true.
Proof. vm_compute. reflexivity. Qed.

(** docs/guides/game_of_life.ipynb: the eight neighbours of (5,5) in a 20 x 20 grid;
    the printed locations are rounded to 8 decimals *)
Example guide_life_neighbours :
  check (do s <- square_struct (PBool true) [20; 20] (MList [pt 1 [0; 0]]); do x <- site_at FA s (pt 1 [5; 5]);
         match x with
         | Some x => do l <- get_neighbors FA (BDistance (dec 15 1)) s x;
                     Ok (same_set (somes (map fst l)) [86; 106; 124; 84; 125; 126; 104; 85] &&
                         forallb (fun e => close (site_location s (fst e)) (pt 1 (snd e)))
                           [(86, [4; 6]); (106, [5; 6]); (124, [6; 4]); (84, [4; 4]); (125, [6; 5]); (126, [6; 6]); (104, [5; 4]); (85, [4; 5])])
         | None => Err TypeError
         end) = true.
Proof. vm_compute. reflexivity. Qed.
