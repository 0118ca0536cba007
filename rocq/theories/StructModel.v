(** Model of src/pylattica/core/periodic_structure.py and
    core/structure_builder.py. *)
From Verif Require Import Prelude Arith LatticeModel JsonModel.

(** One entry of [PeriodicStructure._sites]: the dictionary built at
    periodic_structure.py:178-182 with keys SITE_CLASS, LOCATION, SITE_ID.
    Site classes are strings. *)
Record site (F : Type) := mkSite {
  s_class : string;
  s_loc : list F;
  s_id : Z
}.
Arguments mkSite {F}. Arguments s_class {F}. Arguments s_loc {F}. Arguments s_id {F}.

(** src/pylattica/core/periodic_structure.py:104-118, the attributes of a
    [PeriodicStructure].  [_offset_vector] is a constant function of [dim]. *)
Record structure (F : Type) := mkStruct {
  p_lattice : lattice F;
  p_dim : nat;
  p_sites : dict Z (site F);
  p_ids : list Z;
  p_lookup : dict (list F) Z
}.
Arguments mkStruct {F}. Arguments p_lattice {F}. Arguments p_dim {F}.
Arguments p_sites {F}. Arguments p_ids {F}. Arguments p_lookup {F}.

(** The [site_motif] argument of [build_from]: a dictionary, or just a list of
    positions (periodic_structure.py:78-79). *)
Inductive motif_arg (F : Type) :=
| MDict (d : dict string (list (list F)))
| MList (l : list (list F)).
Arguments MDict {F}. Arguments MList {F}.

(** src/pylattica/core/periodic_structure.py:12 *)
Definition DEFAULT_SITE_CLASS : string := "A".

Section Structure.
  Context {F : Type} (A : arith F).

  (** Keys of [_location_lookup] are tuples of floats, compared with [==]. *)
  Instance Eqb_vec : Eqb (list F) := vec_eqb A.

  (** src/pylattica/core/periodic_structure.py:104-118 [__init__] *)
  Definition struct_init (L : lattice F) : structure F := mkStruct L (l_dim L) [] [] [].

  (** src/pylattica/core/periodic_structure.py:11, 118: VEC_OFFSET = 0.001,
      [_offset_vector] *)
  Definition VEC_OFFSET : F := a_div A (a_ofZ A 1) (a_ofZ A 1000).
  Definition offset_vector (s : structure F) : list F := repeat VEC_OFFSET (p_dim s).

  (** src/pylattica/core/periodic_structure.py:140-141 *)
  Definition get_rounded_coords (loc : list F) : list F := map (roundk A 1000) loc.

  (** src/pylattica/core/periodic_structure.py:143-144 *)
  Definition coords_with_offset (s : structure F) (loc : list F) : res (list F) :=
    do x <- bcast (a_add A) loc (offset_vector s);
    Ok (get_rounded_coords x).

  (** src/pylattica/core/periodic_structure.py:146-149 *)
  Definition transformed_coords (s : structure F) (loc : list F) : res (list F) :=
    do c <- get_periodized_cartesian_coords A (p_lattice s) loc;
    coords_with_offset s c.

  (** src/pylattica/core/periodic_structure.py:151-186 [add_site]: the structure
      after the call and the outcome. *)
  Definition add_site (s : structure F) (cls : string) (loc : list F) : structure F * res Z :=
    let new_site_id := Z.of_nat (length (p_sites s)) in
    match get_periodized_cartesian_coords A (p_lattice s) loc with
    | Err e => (s, Err e)
    | Ok c =>
        let periodized_coords := get_rounded_coords c in
        match transformed_coords s loc with
        | Err e => (s, Err e)
        | Ok key =>
            match dget key (p_lookup s) with
            | Some _ => (s, Err AssertionError)
            | None =>
                (mkStruct (p_lattice s) (p_dim s)
                   (dset new_site_id (mkSite cls periodized_coords new_site_id) (p_sites s))
                   (p_ids s ++ [new_site_id])
                   (dset key new_site_id (p_lookup s)),
                 Ok new_site_id)
            end
        end
    end.

  (** src/pylattica/core/periodic_structure.py:229-242 *)
  Definition get_site (s : structure F) (i : Z) : option (site F) := dget i (p_sites s).

  (** src/pylattica/core/periodic_structure.py:188-207 *)
  Definition site_at (s : structure F) (loc : list F) : res (option (site F)) :=
    do key <- transformed_coords s loc;
    Ok (match dget key (p_lookup s) with
        | Some i => get_site s i
        | None => None
        end).

  (** src/pylattica/core/periodic_structure.py:209-214 *)
  Definition id_at (s : structure F) (loc : list F) : res (option Z) :=
    do x <- site_at s loc; Ok (option_map s_id x).

  (** src/pylattica/core/periodic_structure.py:216-221 *)
  Definition class_at (s : structure F) (loc : list F) : res (option string) :=
    do x <- site_at s loc; Ok (option_map s_class x).

  (** src/pylattica/core/periodic_structure.py:223-224 ([None[...]] is a
      TypeError) *)
  Definition site_class (s : structure F) (i : Z) : res string :=
    match get_site s i with Some x => Ok (s_class x) | None => Err TypeError end.

  (** src/pylattica/core/periodic_structure.py:226-227 *)
  Definition site_location (s : structure F) (i : Z) : res (list F) :=
    match get_site s i with Some x => Ok (s_loc x) | None => Err TypeError end.

  (** src/pylattica/core/periodic_structure.py:254-271 *)
  Definition sites (s : structure F) (cls : option string) : list (site F) :=
    match cls with
    | None => dvals (p_sites s)
    | Some c => filter (fun x => eqb (s_class x) c) (dvals (p_sites s))
    end.

  (** src/pylattica/core/periodic_structure.py:244-252: a set turned into a
      list; [ord] is the unspecified iteration order of the set. *)
  Definition all_site_classes (ord : list string -> list string) (s : structure F) : list string :=
    ord (dedup (map s_class (sites s None))).

  (** One [struct.add_site(...)] call inside a building loop: an exception ends
      the loop. *)
  Definition add_site_or_raise (s : structure F) (x : string * list F) : res (structure F) :=
    match add_site s (fst x) (snd x) with
    | (s', Ok _) => Ok s'
    | (_, Err e) => Err e
    end.

  (** src/pylattica/core/periodic_structure.py:82-100, one pass of the
      innermost loop: the Cartesian location of one motif vector in one cell. *)
  Definition motif_loc (L : lattice F) (frac_coords : bool) (coeffs : list Z) (vec : list F) : res (list F) :=
    let c := map (a_ofZ A) coeffs in
    do point <- (if frac_coords then Ok c else matvec A (l_matrix L) c);   (* 84-87 *)
    do loc <- bcast (a_add A) point vec;                                   (* 92 *)
    if frac_coords then get_cartesian_coords A L loc else Ok loc.          (* 94-97 *)

  (** src/pylattica/core/periodic_structure.py:74-102 [build_from] *)
  Definition build_from (L : lattice F) (num_cells : list Z) (motif : motif_arg F) (frac_coords : bool)
    : res (structure F) :=
    do newL <- get_scaled_lattice A L num_cells;
    let m := match motif with MDict d => d | MList l => [(DEFAULT_SITE_CLASS, l)] end in
    let vec_coeffs := get_points_in_box (repeat 0%Z (l_dim newL)) num_cells in
    foldM (fun s coeffs =>
      foldM (fun s cv =>
        foldM (fun s vec =>
          do loc <- motif_loc L frac_coords coeffs vec;
          add_site_or_raise s (fst cv, loc))
        (snd cv) s)
      m s)
    vec_coeffs (struct_init newL).

  (** src/pylattica/core/periodic_structure.py:120-128 [as_dict] followed by a
      JSON round trip: the keys of [_sites] become decimal strings, tuples
      become lists, numbers are kept exactly.  The two dictionaries with fixed
      keys are modelled as a pair and as the [site] record. *)
  Definition struct_json (s : structure F) : (list (list F) * list bool) * dict string (site F) :=
    (lattice_as_dict (p_lattice s), dict_of (map (fun kv => (str_of_Z (fst kv), snd kv)) (p_sites s))).

  (** src/pylattica/core/periodic_structure.py:130-138 [from_dict] *)
  Definition struct_from_dict (d : (list (list F) * list bool) * dict string (site F)) : res (structure F) :=
    do L <- lattice_from_dict (fst d);
    do items <- mapM (fun kv => do k <- int_of_str (fst kv); Ok (k, snd kv)) (snd d);
    foldM (fun s kv => add_site_or_raise s (s_class (snd kv), s_loc (snd kv))) (dict_of items) (struct_init L).
End Structure.

(** The [size] argument of [StructureBuilder.build]. *)
Inductive size_arg :=
| SzTuple (l : list Z)
| SzInt (k : Z).

(** src/pylattica/core/structure_builder.py:8-30: a builder is a lattice, a
    motif and the [frac_coords] flag. *)
Record builder (F : Type) := mkBuilder {
  b_lattice : lattice F;
  b_motif : motif_arg F;
  b_frac : bool
}.
Arguments mkBuilder {F}. Arguments b_lattice {F}. Arguments b_motif {F}. Arguments b_frac {F}.

(** src/pylattica/core/structure_builder.py:53-64 [build].  A list given as
    [size] is not modelled (only a tuple is recognised by line 52; a list would
    be repeated and fail in [range]). *)
Definition build {F} (A : arith F) (b : builder F) (size : size_arg) : res (structure F) :=
  match size with
  | SzTuple l =>
      if negb (Nat.eqb (length l) (l_dim (b_lattice b))) then Err ValueError
      else build_from A (b_lattice b) l (b_motif b) (b_frac b)
  | SzInt k => build_from A (b_lattice b) (repeat k (l_dim (b_lattice b))) (b_motif b) (b_frac b)
  end.
