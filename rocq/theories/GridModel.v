(** Model of src/pylattica/structures/square_grid/{lattice,structure_builders,
    neighborhoods}.py and structures/honeycomb/. *)
From Verif Require Import Prelude Arith LatticeModel StructModel NbModel.

Section Grid.
  Context {F : Type} (A : arith F).

  (** Integer tuples as numbers. *)
  Definition nums (l : list Z) : list F := map (a_ofZ A) l.

  (** structures/square_grid/lattice.py:4-9 *)
  Definition SquareGridLattice2D : res (lattice F) := lattice_init (map nums [[0; 1]; [1; 0]]%Z) (PBool true).

  (** structures/square_grid/lattice.py:12-17 *)
  Definition SquareGridLattice3D : res (lattice F) :=
    lattice_init (map nums [[0; 1; 0]; [1; 0; 0]; [0; 0; 1]]%Z) (PBool true).

  (** structures/square_grid/structure_builders.py:4-17 *)
  Definition SimpleSquare2DStructureBuilder : res (builder F) :=
    do L <- SquareGridLattice2D; Ok (mkBuilder L (MDict [("_A"%string, [nums [0; 0]%Z])]) false).

  (** structures/square_grid/structure_builders.py:20-31 *)
  Definition SimpleSquare3DStructureBuilder : res (builder F) :=
    do L <- SquareGridLattice3D; Ok (mkBuilder L (MDict [("_A"%string, [nums [0; 0; 0]%Z])]) false).

  (** [sum(np.abs(p) for p in point)], neighborhoods.py:25, 46 *)
  Definition abs_sum (p : list Z) : Z := fold_right Z.add 0%Z (map Z.abs p).

  (** structures/square_grid/neighborhoods.py:10-28 (dim 2) and 31-49 (dim 3) *)
  Definition von_neumann_points (size : Z) (dim : nat) : list (list Z) :=
    filter (fun p => (abs_sum p <=? size)%Z) (get_points_in_cube (- size) (size + 1) dim).
  Definition VonNeumannNbHood2DBuilder (size : Z) : res (nb_builder F) :=
    motif_builder A (map nums (von_neumann_points size 2)).
  Definition VonNeumannNbHood3DBuilder (size : Z) : res (nb_builder F) :=
    motif_builder A (map nums (von_neumann_points size 3)).

  (** structures/square_grid/neighborhoods.py:52-66 *)
  Definition MooreNbHoodBuilder (size : Z) (dim : nat) : res (nb_builder F) :=
    motif_builder A (map nums (get_points_in_cube (- size) (size + 1) dim)).

  (** structures/square_grid/neighborhoods.py:69-70 *)
  Definition CircularNeighborhoodBuilder (cutoff : F) : nb_builder F := BDistance cutoff.

  (** [StochasticNeighborhoodBuilder([MotifNeighborhoodBuilder(m) for m in motifs])] *)
  Definition stochastic_motifs (motifs : list (list (list Z))) : res (nb_builder F) :=
    do bs <- mapM (fun m => motif_builder A (map nums m)) motifs; Ok (BStochastic bs).

  (** structures/square_grid/neighborhoods.py:73-93 *)
  Definition hex2_motifs : list (list (list Z)) :=
    [ [[1;0];[0;1];[-1;0];[0;-1];[1;1];[-1;-1]];
      [[1;0];[0;1];[-1;0];[0;-1];[-1;1];[1;-1]] ]%Z.
  Definition PseudoHexagonalNeighborhoodBuilder2D : res (nb_builder F) := stochastic_motifs hex2_motifs.

  (** structures/square_grid/neighborhoods.py:96-130 *)
  Definition hex3_common : list (list Z) := [[1;0;0];[-1;0;0];[0;1;0];[0;-1;0];[0;0;1];[0;0;-1]]%Z.
  Definition hex3_motifs : list (list (list Z)) :=
    [ hex3_common ++ [[-1;-1;1];[1;1;-1]];
      hex3_common ++ [[-1;1;1];[1;-1;-1]];
      hex3_common ++ [[1;1;1];[-1;-1;-1]];
      hex3_common ++ [[1;-1;1];[-1;1;-1]] ]%Z.
  Definition PseudoHexagonalNeighborhoodBuilder3D : res (nb_builder F) := stochastic_motifs hex3_motifs.

  (** structures/square_grid/neighborhoods.py:133-167 *)
  Definition pent_motifs : list (list (list Z)) :=
    [ [[-1;0];[1;0];[-1;-1];[0;-1];[1;-1]];
      [[-1;1];[0;1];[1;1];[-1;0];[1;0]];
      [[0;1];[1;1];[1;0];[0;-1];[1;-1]];
      [[-1;1];[0;1];[-1;0];[-1;-1];[0;-1]] ]%Z.
  Definition PseudoPentagonalNeighborhoodBuilder : res (nb_builder F) := stochastic_motifs pent_motifs.

  (** structures/honeycomb/lattice.py:5-17 *)
  Definition half : F := a_div A (a_ofZ A 1) (a_ofZ A 2).
  Definition RhombohedralLattice : res (lattice F) :=
    lattice_init [[a_ofZ A 1; a_ofZ A 0];
                  [half; a_div A (a_mul A (a_sqrt A (a_ofZ A 3)) (a_ofZ A 1)) (a_ofZ A 2)]] (PBool true).

  (** structures/honeycomb/structure_builders.py:5-13 *)
  Definition HoneycombTilingBuilder : res (builder F) :=
    do L <- RhombohedralLattice; Ok (mkBuilder L (MDict [("A"%string, [[half; half]])]) true).

  (** structures/honeycomb/neighborhoods.py:7-11: cutoff = 1 + 0.01 *)
  Definition HoneycombNeighborhoodBuilder : nb_builder F :=
    BDistance (a_add A (a_ofZ A 1) (a_div A (a_ofZ A 1) (a_ofZ A 100))).
End Grid.
