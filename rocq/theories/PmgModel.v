(** Model of src/pylattica/atomic/pymatgen_struct_converter.py. *)
From Verif Require Import Prelude Val Arith LatticeModel StructModel StateModel.

(** What the converter uses of pymatgen's [Structure] (not part of /repo): the
    lattice matrix and boundary flags, and per site its [species_string] and
    [frac_coords].  [coords] is computed by [pmg_coords]. *)
Record pmg_struct (F : Type) := mkPmg {
  g_matrix : list (list F);
  g_pbc : list bool;
  g_sites : list (string * list F)
}.
Arguments mkPmg {F}. Arguments g_matrix {F}. Arguments g_pbc {F}. Arguments g_sites {F}.

Section Pmg.
  Context {F : Type} (A : arith F).

  (** pymatgen: [PeriodicSite.coords = np.dot(frac_coords, lattice.matrix)] *)
  Definition pmg_coords (P : pmg_struct F) (frac : list F) : res (list F) := vecmat A frac (g_matrix P).

  (** pymatgen: [Lattice(matrix)], which reshapes to 3x3 (ValueError unless
      there are nine numbers) and is periodic in all directions. *)
  Definition pmg_lattice (vecs : list (list F)) : res (list (list F)) :=
    if Nat.eqb (length (concat vecs)) 9 then Ok (chunks 3 3 (concat vecs)) else Err ValueError.

  (** pymatgen: [Structure(lattice, species, coords)].  [species] turns the
      string given into the [species_string] of the parsed species, or raises. *)
  Definition pmg_new (species : string -> res string) (M : list (list F)) (l : list (string * list F)) : res (pmg_struct F) :=
    do l' <- mapM (fun x => do c <- species (fst x); Ok (c, snd x)) l;
    Ok (mkPmg M [true; true; true] l').

  (** pymatgen_struct_converter.py:20-34 *)
  Definition to_pylattica_lattice (P : pmg_struct F) : res (lattice F) := lattice_init (g_matrix P) (PBool true).

  (** pymatgen_struct_converter.py:55-64, the loop collecting the motif *)
  Definition struct_motif (l : list (string * list F)) : dict string (list (list F)) :=
    fold_left (fun m site =>
      match dget (fst site) m with
      | Some fs => dset (fst site) (fs ++ [snd site]) m
      | None => dset (fst site) [snd site] m
      end) l [].

  (** pymatgen_struct_converter.py:36-68 *)
  Definition to_pylattica_structure_builder (P : pmg_struct F) : res (builder F) :=
    do lat <- to_pylattica_lattice P;
    Ok (mkBuilder lat (MDict (struct_motif (g_sites P))) true).

  (** pymatgen_struct_converter.py:70-95 ([None[SITE_ID]] is a TypeError) *)
  Definition to_pylattica_structure_and_state (P : pmg_struct F) : res (structure F * sstate) :=
    do b <- to_pylattica_structure_builder P;
    do s <- build A b (SzInt 1);
    do st <- foldM (fun st site =>
               do c <- pmg_coords P (snd site);
               do x <- site_at A s c;
               match x with
               | None => Err TypeError
               | Some x => Ok (set_site_state st (KInt (s_id x)) [(KStr "DISCRETE_OCCUPANCY", VStr (fst site))])
               end) (g_sites P) (from_struct (p_ids s));
    Ok (s, st).

  (** pymatgen_struct_converter.py:97-110 *)
  Definition to_pymatgen_lattice (L : lattice F) : res (list (list F)) := pmg_lattice (l_vecs L).

  (** pymatgen_struct_converter.py:112-136 *)
  Definition to_pymatgen_structure (species : string -> res string) (s : structure F) : res (pmg_struct F) :=
    do M <- to_pymatgen_lattice (p_lattice s);
    do l <- mapM (fun sid =>
              do c <- site_class s sid;
              do loc <- site_location s sid;
              do f <- get_fractional_coords A (p_lattice s) loc;
              Ok (c, f)) (p_ids s);
    pmg_new species M l.
End Pmg.
