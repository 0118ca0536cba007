(** Model of src/pylattica/structures/square_grid/grid_setup.py.

    Random numbers: every call of [random.choice] or [np.random.choice] takes
    its outcome from a stream given as an argument; quantifying over the stream
    covers every behaviour of the generators. *)
From Verif Require Import Prelude Val Arith LatticeModel StructModel StateModel NbModel GridModel SimModel.

(** src/pylattica/discrete/state_constants.py:1-2 *)
Definition VACANT : string := "VACANT".
Definition DISCRETE_OCCUPANCY : key := KStr "DISCRETE_OCCUPANCY".

(** [{DISCRETE_OCCUPANCY: v}] *)
Definition occ (v : val) : pdict := [(DISCRETE_OCCUPANCY, v)].

(** [random.choice(l)]: the stream gives a number, reduced modulo the length;
    an empty list is an IndexError. *)
Definition choice {B} (l : list B) (k : nat) : res B :=
  match nth_error l (Nat.modulo k (length l)) with Some x => Ok x | None => Err IndexError end.

(** [state.get_site_state(i)[DISCRETE_OCCUPANCY]]: [None[...]] is a TypeError,
    a missing key a KeyError. *)
Definition occupancy (st : sstate) (i : Z) : res val :=
  match get_site_state st (KInt i) with
  | None => Err TypeError
  | Some d => dgetE DISCRETE_OCCUPANCY d
  end.

(** The result of numpy's division by a number that may be zero (a warning, no
    exception). *)
Inductive npnum (F : Type) := Fin (x : F) | PosInf | NegInf | NaN.
Arguments Fin {F}. Arguments PosInf {F}. Arguments NegInf {F}. Arguments NaN {F}.

Section Setup.
  Context {F : Type} (A : arith F).

  (** grid_setup.py:39-42: the attribute [_builder]; for other dimensions it is
      never set and using it is an AttributeError. *)
  Definition setup_builder (dim : Z) : res (builder F) :=
    if (dim =? 2)%Z then SimpleSquare2DStructureBuilder A
    else if (dim =? 3)%Z then SimpleSquare3DStructureBuilder A
    else Err AttributeError.

  (** grid_setup.py:53-66 [build_structure] *)
  Definition build_structure (dim : Z) (size : size_arg) : res (structure F) :=
    do b <- setup_builder dim; build A b size.

  (** grid_setup.py:45-51 [_build_blank_state] *)
  Definition build_blank_state (s : structure F) (fill : val) : sstate :=
    fold_left (fun st x => set_site_state st (KInt (s_id x)) (occ fill)) (sites s None) s_empty.

  (** grid_setup.py:68-86 [setup_solid_phase] *)
  Definition setup_solid_phase (s : structure F) (phase_name : string) : sstate :=
    build_blank_state s (VStr phase_name).

  (** [structure.lattice.vec_lengths[0]] *)
  Definition first_length (s : structure F) : res F := list_getE (vec_lengths A (p_lattice s)) 0.

  (** grid_setup.py:88-114 [setup_interface].  [int(...)] of the non-negative
      half length is its floor. *)
  Definition setup_interface (dim : Z) (size : size_arg) (p1 p2 : string) : res (simulation F) :=
    do s <- build_structure dim size;
    let state := build_blank_state s VNone in
    do len <- first_length s;
    let half := a_floor A (a_div A len (a_ofZ A 2)) in
    do state <- foldM (fun st x =>
      do x0 <- list_getE (s_loc x) 0;
      Ok (if a_ltb A x0 half then set_site_state st (KInt (s_id x)) (occ (VStr p1))
          else set_site_state st (KInt (s_id x)) (occ (VStr p2)))) (sites s None) state;
    Ok (mkSim state s).

  (** grid_setup.py:191-224 [add_particle_to_state] *)
  Definition add_particle_to_state (s : structure F) (state : sstate) (center : list F) (radius : F) (particle_phase : string)
    : res sstate :=
    foldM (fun st x =>
      do d <- distance A (s_loc x) center;
      Ok (if a_ltb A d radius then set_site_state st (KInt (s_id x)) (occ (VStr particle_phase)) else st))
    (sites s None) state.

  (** grid_setup.py:116-146 [setup_particle] *)
  Definition setup_particle (dim : Z) (size : size_arg) (radius : F) (bulk_phase particle_phase : string) : res (simulation F) :=
    do s <- build_structure dim size;
    let state := setup_solid_phase s bulk_phase in
    do center <- mapM (fun _ => do len <- first_length s; Ok (a_div A len (a_ofZ A 2))) (seq 0 (p_dim s));
    do state <- add_particle_to_state s state center radius particle_phase;
    Ok (mkSim state s).

  (** grid_setup.py:148-189 [setup_random_particles].  [pos i k] is the number
      drawn by [np.random.choice] for coordinate [k] of particle [i] (its range
      [0, int(vec_lengths[0])) is not used below; a zero range is a
      ValueError), [ph i] the number drawn by [random.choice].
      [particle_phases] is a list of names. *)
  Definition setup_random_particles (dim : Z) (size : size_arg) (radius : F) (num_particles : Z) (bulk_phase : string)
      (particle_phases : list string) (pos : nat -> nat -> Z) (ph : nat -> nat) : res (simulation F) :=
    do s <- build_structure dim size;
    let state := setup_solid_phase s bulk_phase in
    do state <- foldM (fun st i =>
      do rand_coords <- mapM (fun k =>
        do len <- first_length s;
        if a_ltb A len (a_ofZ A 1) then Err ValueError else Ok (a_ofZ A (pos i k))) (seq 0 (p_dim s));
      do phase <- choice particle_phases (ph i);
      add_particle_to_state s st rand_coords radius phase) (seq 0 (Z.to_nat num_particles)) state;
    Ok (mkSim state s).

  (** grid_setup.py:226-253 [setup_coords] *)
  Definition setup_coords (dim : Z) (size : size_arg) (background_state : string) (coordinates : dict string (list (list F)))
    : res (simulation F) :=
    do s <- build_structure dim size;
    let state := setup_solid_phase s background_state in
    do state <- foldM (fun st pc =>
      foldM (fun st coords =>
        do x <- site_at A s coords;
        match x with
        | None => Err TypeError
        | Some x => Ok (set_site_state st (KInt (s_id x)) (occ (VStr (fst pc))))
        end) (snd pc) st) coordinates state;
    Ok (mkSim state s).

  (** grid_setup.py:255-277 [setup_noise] *)
  Definition setup_noise (dim : Z) (size : size_arg) (phases : list string) (rnd : nat -> nat) : res (simulation F) :=
    do s <- build_structure dim size;
    let state := build_blank_state s VNone in
    do state <- foldM (fun st kx =>
      do p <- choice phases (rnd (fst kx));
      Ok (set_site_state st (KInt (s_id (snd kx))) (occ (VStr p)))) (combine (seq 0 (length (sites s None))) (sites s None)) state;
    Ok (mkSim state s).

  (** [x / s] of numpy *)
  Definition np_div (x s : F) : npnum F :=
    if a_eqb A s (a_ofZ A 0) then
      if a_ltb A (a_ofZ A 0) x then PosInf
      else if a_ltb A x (a_ofZ A 0) then NegInf
      else NaN
    else Fin (a_div A x s).

  (** [x * n] for a positive number [n] (the products are only looked at when
      [n > 0]) *)
  Definition np_mul (x : npnum F) (n : F) : npnum F :=
    match x with Fin y => Fin (a_mul A y n) | _ => x end.

  (** [k < x] for an integer [k] *)
  Definition np_below (k : Z) (x : npnum F) : bool :=
    match x with
    | Fin y => a_ltb A (a_ofZ A k) y
    | PosInf => true
    | NegInf | NaN => false
    end.

  (** grid_setup.py:323-333: the dictionary [ideal_num_sites].  [np_sum] is
      numpy's sum; the order of its additions is left open. *)
  Definition ideal_num_sites (np_sum : list F -> F) (nuc_amts : dict string F) (n : Z) : dict string (npnum F) :=
    let nuc_ratios := map snd nuc_amts in
    let total := np_sum nuc_ratios in
    combine (map fst nuc_amts) (map (fun r => np_mul (np_div r total) (a_ofZ A n)) nuc_ratios).

  (** grid_setup.py:335-346: the loop that fixes the phases of the nuclei.
      [species] is the whole list, [rest] what the [cycle] has left in this
      round; [next] of an empty cycle raises StopIteration.  [None]: the fuel
      ran out. *)
  Fixpoint nucleus_identities (fuel : nat) (n : Z) (species rest : list string) (ideal : dict string (npnum F))
      (real : dict string Z) (ids : list string) {struct fuel} : option (res (list string)) :=
    if (Z.of_nat (length ids) <? n)%Z then
      match fuel with
      | O => None
      | S fuel =>
          let turn phase rest :=
            match dget phase real, dget phase ideal with
            | Some r, Some i =>
                if np_below r i
                then nucleus_identities fuel n species rest ideal (dset phase (r + 1)%Z real) (ids ++ [phase])
                else nucleus_identities fuel n species rest ideal real ids
            | _, _ => Some (Err TypeError)
            end in
          match rest with
          | phase :: rest => turn phase rest
          | [] => match species with
                  | phase :: rest => turn phase rest
                  | [] => Some (Err StopIteration)
                  end
          end
      end
    else Some (Ok ids).

  (** grid_setup.py:362-369: is some neighbour not background? *)
  Definition nucleus_nearby (o : @nb_oracle F) (nb_graph : option (nbhood F)) (st : sstate) (bg : string) (i : Z) : res bool :=
    match nb_graph with
    | None => Ok false
    | Some N =>
        do nbs <- neighbors_of o N i;
        foldM (fun found j => do v <- occupancy st j; Ok (if negb (val_eqb v (VStr bg)) then true else found)) nbs false
    end.

  (** grid_setup.py:348-380: the planting loop.  Attempt number [t] (counted by
      [total_attempts]) draws the site [rnd t] and sees the neighbours in the
      order [ords t].  [None]: the fuel ran out. *)
  Fixpoint plant (fuel : nat) (rnd : nat -> nat) (ords : nat -> @nb_oracle F) (n : Z) (bg : string) (nb_graph : option (nbhood F))
      (all_sites : list (site F)) (ids : list string) (planted total_attempts : Z) (st : sstate) {struct fuel} : option (res sstate) :=
    if (planted <? n)%Z then
      match fuel with
      | O => None
      | S fuel =>
          if (total_attempts >? 1000 * n)%Z then Some (Err RuntimeError)
          else
            let t := Z.to_nat total_attempts in
            match choice all_sites (rnd t) with
            | Err e => Some (Err e)
            | Ok x =>
                match occupancy st (s_id x) with
                | Err e => Some (Err e)
                | Ok v =>
                    if negb (val_eqb v (VStr bg))
                    then plant fuel rnd ords n bg nb_graph all_sites ids planted (total_attempts + 1) st
                    else match nucleus_nearby (ords t) nb_graph st bg (s_id x) with
                         | Err e => Some (Err e)
                         | Ok true => plant fuel rnd ords n bg nb_graph all_sites ids planted (total_attempts + 1) st
                         | Ok false =>
                             match list_getE ids planted with
                             | Err e => Some (Err e)
                             | Ok chosen_spec =>
                                 plant fuel rnd ords n bg nb_graph all_sites ids (planted + 1) (total_attempts + 1)
                                   (set_site_state st (KInt (s_id x)) (occ (VStr chosen_spec)))
                             end
                         end
                end
            end
      end
    else Some (Ok st).

  (** grid_setup.py:279-382 [setup_random_sites].  [num_sites_desired] is a
      whole number, so [round] at line 313 does nothing. *)
  Definition setup_random_sites (fuel1 fuel2 : nat) (np_sum : list F -> F) (rnd : nat -> nat) (ords : nat -> @nb_oracle F) (dim : Z) (size : size_arg)
      (num_sites_desired : Z) (background_spec : string) (nuc_amts : dict string F) (buffer : option Z)
      : option (res (simulation F)) :=
    match (do s <- build_structure dim size;
           let state := setup_solid_phase s background_spec in
           do nb_graph <- match buffer with
                          | None => Ok None
                          | Some r => do b <- MooreNbHoodBuilder A r (p_dim s);
                                      do N <- nb_get A b s None; Ok (Some N)
                          end;
           Ok (s, state, nb_graph)) with
    | Err e => Some (Err e)
    | Ok (s, state, nb_graph) =>
        let species := map fst nuc_amts in
        match nucleus_identities fuel1 num_sites_desired species species
                (ideal_num_sites np_sum nuc_amts num_sites_desired) (dict_of (map (fun p => (p, 0%Z)) species)) [] with
        | None => None
        | Some (Err e) => Some (Err e)
        | Some (Ok ids) =>
            match plant fuel2 rnd ords num_sites_desired background_spec nb_graph (sites s None) ids 0 0 state with
            | None => None
            | Some (Err e) => Some (Err e)
            | Some (Ok st) => Some (Ok (mkSim st s))
            end
        end
    end.
End Setup.
