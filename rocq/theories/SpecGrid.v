(** Vocabulary for square grids. *)
From Coq Require Import Reals.
From Verif Require Import Prelude Arith RVec RealArith LatticeModel StructModel NbModel GridModel SpecGeom SpecNb.
Local Open Scope Z_scope.

(** The point with integer coordinates [p]. *)
Definition at_ (p : list Z) : list R := map IZR p.

(** [s] is the 2D or 3D square grid built with the given size. *)
Definition square_grid (size : list Z) (s : structure R) : Prop :=
  Forall (fun k => 0 < k) size /\
  ((length size = 2%nat /\ exists b, SimpleSquare2DStructureBuilder RA = Ok b /\ build RA b (SzTuple size) = Ok s) \/
   (length size = 3%nat /\ exists b, SimpleSquare3DStructureBuilder RA = Ok b /\ build RA b (SzTuple size) = Ok s)).

(** Extents along x, y, z: the first two entries of the size are swapped. *)
Definition extents (size : list Z) : list Z :=
  match size with a :: b :: t => b :: a :: t | _ => size end.

(** Two integer points are the same cell of the torus. *)
Definition same_cell (w p q : list Z) : Prop :=
  length p = length w /\ length q = length w /\
  forall k m a b, nth_error w k = Some m -> nth_error p k = Some a -> nth_error q k = Some b -> (m | a - b).

(** [x + d] *)
Definition shift (x d : list Z) : list Z := zipwith Z.add x d.

(** The cell at [p] has id [i]. *)
Definition cell (s : structure R) (p : list Z) (i : Z) : Prop := id_at RA s (at_ p) = Ok (Some i).

(** Offsets of the Moore and of the von Neumann neighbourhood of radius [r]. *)
Definition within_moore (r : Z) (d : list Z) : Prop := Forall (fun a => Z.abs a <= r) d.
Definition within_vn (r : Z) (d : list Z) : Prop := fold_right (fun a t => Z.abs a + t) 0 d <= r.

(** [N] is the neighbourhood with the offsets [P] on the torus. *)
Definition torus_nb (size : list Z) (s : structure R) (P : list Z -> Prop) (N : nbhood R) : Prop :=
  forall x i, length x = length size -> cell s x i ->
    neighbours N i (fun j => j <> i /\ exists d, length d = length size /\ P d /\ cell s (shift x d) j).

(** The Moore or von Neumann builder of the dimension of the grid. *)
Definition grid_builder (size : list Z) (r : Z) (b : nb_builder R) : Prop :=
  MooreNbHoodBuilder RA r (length size) = Ok b \/
  (length size = 2%nat /\ VonNeumannNbHood2DBuilder RA r = Ok b) \/
  (length size = 3%nat /\ VonNeumannNbHood3DBuilder RA r = Ok b).

(** The unit vectors along the axes. *)
Fixpoint axes (n : nat) : list (list R) :=
  match n with O => [] | S n => (1%R :: vzero n) :: map (cons 0%R) (axes n) end.

(** Cell [c'] is reached from cell [c] by the offset [d] in a block of size [k]:
    wrapping around along periodic directions, not along open ones. *)
Definition reaches (per : list bool) (k c d c' : list Z) : Prop :=
  length c = length k /\ length d = length k /\ length c' = length k /\
  forall a b m x y z, nth_error per a = Some b -> nth_error k a = Some m ->
    nth_error c a = Some x -> nth_error d a = Some y -> nth_error c' a = Some z ->
    if b then (m | x + y - z) else x + y = z.

(** The square of the length of an offset. *)
Definition sq (d : list Z) : Z := fold_right (fun a t => a * a + t) 0 d.

(** The site [i] is the one at position [p] of the cell [c]. *)
Definition site_in (s : structure R) (p : list R) (c : list Z) (i : Z) : Prop :=
  exists x, get_site s i = Some x /\ s_loc x = vplus (at_ c) p.

(** A position in the unit cell, given in thousandths. *)
Definition milli_position (n : nat) (p : list R) : Prop :=
  length p = n /\ Forall (fun a => exists z, 0 <= z < 1000 /\ a = (IZR z / 1000)%R) p.

(** The shapes of the pseudo-hexagonal and pseudo-pentagonal neighbourhoods: the cells next
    to the centre along the axes and along one diagonal [e]; the half of the Moore
    neighbourhood on the side of the axis direction [u] (with the cells beside the centre). *)
Definition diagonal_of (n : nat) (e : list Z) : Prop := length e = n /\ Forall (fun a => Z.abs a = 1) e.
Definition hexagonal (e d : list Z) : Prop := within_vn 1 d \/ d = e \/ d = map Z.opp e.
Definition direction_of (n : nat) (u : list Z) : Prop := length u = n /\ fold_right (fun a t => Z.abs a + t) 0 u = 1.
Definition half_moore (u d : list Z) : Prop := within_moore 1 d /\ 0 <= fold_right Z.add 0 (map (fun p => fst p * snd p) (combine u d)).

(** Each call of [N] draws a parameter satisfying [E] and answers with the cells at the
    offsets of the shape with this parameter; each such parameter can be drawn. *)
Definition draws_shape (size : list Z) (s : structure R) (E : list Z -> Prop) (shape : list Z -> list Z -> Prop) (N : nbhood R) : Prop :=
  let answers o e := forall x i, length x = length size -> cell s x i ->
    exists l, neighbors_of o N i = Ok l /\ NoDup l /\
      forall j, In j l <-> j <> i /\ exists d, length d = length size /\ shape e d /\ cell s (shift x d) j in
  (forall o, legal o -> exists e, E e /\ answers o e) /\ (forall e, E e -> exists o, legal o /\ answers o e).
