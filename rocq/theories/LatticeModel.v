(** Model of src/pylattica/core/lattice.py and core/coordinate_utils.py. *)
From Verif Require Import Prelude Arith.

(** The [periodic] argument of [Lattice(...)]: one flag, or a tuple/list of
    flags (lattice.py:109, 126-129). *)
Inductive periodic_arg :=
| PBool (b : bool)
| PFlags (l : list bool).

(** src/pylattica/core/lattice.py:87-143, the attributes of a [Lattice]:
    [vecs] (the array as given), [periodic], [_matrix] and [dim].
    [_inv_matrix] is a cache of [np.linalg.inv(_matrix)] and is recomputed
    here; [vec_lengths] (line 140) is computed by [vec_lengths] below;
    [_periodic_bool] is never read. *)
Record lattice (F : Type) := mkLattice {
  l_vecs : list (list F);
  l_periodic : list bool;
  l_matrix : list (list F);
  l_dim : nat
}.
Arguments mkLattice {F}. Arguments l_vecs {F}. Arguments l_periodic {F}.
Arguments l_matrix {F}. Arguments l_dim {F}.

Section Lattice.
  Context {F : Type} (A : arith F).

  (** src/pylattica/core/lattice.py:27-30 [periodize], once [periodic] is a
      tuple: [frac_coords - np.floor(frac_coords) * np.array(periodic, dtype=int)] *)
  Definition periodize (f : list F) (per : list bool) : res (list F) :=
    do t <- bcast (a_mul A) (map (a_floor A) f) (map (of_bool A) per);
    bcast (a_sub A) f t.

  (** src/pylattica/core/lattice.py:27-28 [periodize] with a single flag *)
  Definition periodize_arg (f : list F) (p : periodic_arg) : res (list F) :=
    match p with
    | PBool b => periodize f (map (fun _ => b) f)
    | PFlags l => periodize f l
    end.

  (** src/pylattica/core/lattice.py:57-58 [pbc_diff_frac_vec] *)
  Definition pbc_diff_frac_vec (f1 f2 : list F) (per : list bool) : res (list F) :=
    do d <- bcast (a_sub A) f1 f2;
    do t <- bcast (a_mul A) (map (a_rint A) d) (map (of_bool A) per);
    bcast (a_sub A) d t.

  (** [np.array(vecs)] accepts only lists of equal length (a ragged list is a
      ValueError since numpy 1.24). *)
  Definition rectangular (vecs : list (list F)) : bool :=
    forallb (fun v => Nat.eqb (length v) (width vecs)) vecs.

  (** src/pylattica/core/lattice.py:109-143 [Lattice.__init__].  The entries of
      [vecs] are numbers (integer arrays are not distinguished from float
      ones).  The assertion at 141-143 cannot fail once [np.array] accepted the
      vectors. *)
  Definition lattice_init (vecs : list (list F)) (p : periodic_arg) : res (lattice F) :=
    if negb (rectangular vecs) then Err ValueError            (* 124 np.array(vecs) *)
    else
      let per := match p with PBool b => map (fun _ => b) vecs | PFlags l => l end in  (* 126-129 *)
      let flat := concat vecs in
      let d := Nat.sqrt (length flat) in                       (* 133 *)
      if negb (Nat.eqb (d * d) (length flat)) then Err ValueError   (* 134 reshape *)
      else match vecs with
           | [] => Err IndexError                              (* 140 vecs[0] *)
           | v :: _ => Ok (mkLattice vecs per (chunks d d flat) (length v))
           end.

  (** src/pylattica/core/lattice.py:140 [vec_lengths] *)
  Definition vec_lengths (L : lattice F) : list F := map (norm A) (l_vecs L).

  (** src/pylattica/core/lattice.py:153-159 [inv_matrix] *)
  Definition inv_matrix (L : lattice F) : res (list (list F)) := a_inv A (l_matrix L).

  (** src/pylattica/core/lattice.py:161-174 *)
  Definition get_cartesian_coords (L : lattice F) (f : list F) : res (list F) :=
    vecmat A f (l_matrix L).

  (** src/pylattica/core/lattice.py:176-189 *)
  Definition get_fractional_coords (L : lattice F) (c : list F) : res (list F) :=
    do Mi <- inv_matrix L; vecmat A c Mi.

  (** src/pylattica/core/lattice.py:191-206 *)
  Definition get_periodized_cartesian_coords (L : lattice F) (c : list F) : res (list F) :=
    do f <- get_fractional_coords L c;
    do g <- periodize f (l_periodic L);
    get_cartesian_coords L g.

  (** src/pylattica/core/lattice.py:208-225 (the flags are passed as a tuple) *)
  Definition get_scaled_lattice (L : lattice F) (num_cells : list Z) : res (lattice F) :=
    lattice_init (zipwith (fun amt v => map (fun x => a_mul A x (a_ofZ A amt)) v) num_cells (l_vecs L))
                 (PFlags (l_periodic L)).

  (** src/pylattica/core/lattice.py:61-84 [pbc_diff_cart]; OFFSET_PRECISION = 3 *)
  Definition pbc_diff_cart (c1 c2 : list F) (L : lattice F) : res F :=
    do f1 <- get_fractional_coords L c1;
    do f2 <- get_fractional_coords L c2;
    do fd <- pbc_diff_frac_vec f1 f2 (l_periodic L);
    do c <- get_cartesian_coords L fd;
    Ok (roundk A 1000 (norm A c)).

  (** src/pylattica/core/lattice.py:227-246 *)
  Definition cartesian_periodic_distance (L : lattice F) (loc1 loc2 : list F) : res F :=
    pbc_diff_cart loc1 loc2 L.

  (** src/pylattica/core/lattice.py:145-146 [as_dict] (the dictionary with keys
      "vectors" and "periodic" as a pair) *)
  Definition lattice_as_dict (L : lattice F) : list (list F) * list bool := (l_vecs L, l_periodic L).

  (** src/pylattica/core/lattice.py:105-107 [from_dict]; after JSON the flags
      are a list, which [__init__] treats like a tuple. *)
  Definition lattice_from_dict (d : list (list F) * list bool) : res (lattice F) :=
    lattice_init (fst d) (PFlags (snd d)).
End Lattice.

(** [itertools.product( *args )]: the last argument varies fastest. *)
Fixpoint product {B} (args : list (list B)) : list (list B) :=
  match args with
  | [] => [[]]
  | l :: t => flat_map (fun x => map (cons x) (product t)) l
  end.

(** src/pylattica/core/coordinate_utils.py:45-46 [get_points_in_box] *)
Definition get_points_in_box (lbs ubs : list Z) : list (list Z) :=
  product (zipwith zrange lbs ubs).

(** src/pylattica/core/coordinate_utils.py:22 [get_points_in_cube] *)
Definition get_points_in_cube (lb ub : Z) (dim : nat) : list (list Z) :=
  get_points_in_box (repeat lb dim) (repeat ub dim).
