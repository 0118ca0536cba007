(** Vocabulary for the floating point property. *)
From Coq Require Import Reals.
From Flocq Require Import Core BinarySingleNaN.
From Verif Require Import Prelude Arith FloatArith LatticeModel StructModel NbModel GridModel SpecNb SpecGrid.

(** A real rounded to the nearest number with 53 significant bits (ties to
    even; the exponent range is that of binary64 at the lower end). *)
Definition rnd (x : R) : R := round radix2 (FLT_exp (-1074) 53) ZnearestE x.

(** The float [v] is finite and denotes the real [x]. *)
Definition denotes (v : b64) (x : R) : Prop := is_finite v = true /\ B2R v = x.

(** The point with the integer coordinates [p], as floats. *)
Definition fl_at (p : list Z) : list b64 := map f_ofZ p.

(** [s] is the 2D square grid built with [size] in binary64. *)
Definition fl_grid (size : list Z) (s : structure b64) : Prop :=
  exists b, SimpleSquare2DStructureBuilder FA = Ok b /\ build FA b (SzTuple size) = Ok s.

(** The product of [x] and the reciprocal of [n], both rounded, falls short of
    the whole number [x / n]. *)
Definition falls_short (n x : Z) : Prop :=
  (n | x)%Z /\ (rnd (IZR x * rnd (1 / IZR n)) < IZR x / IZR n)%R.

(** Some coordinate at most [r] steps past the border of a side of [n] cells
    falls short. *)
Definition lost (n r : Z) : Prop := exists x, (- r <= x < n + r)%Z /\ falls_short n x.

(** The lattice whose vectors are the unit vectors along the [n] axes, with the
    periodicity flags [per], in binary64. *)
Definition fl_axes (n : nat) (per : list bool) (L : lattice b64) : Prop :=
  exists p, lattice_init (map (fun i => map (fun a => f_ofZ (if Nat.eqb i a then 1 else 0)) (seq 0 n)) (seq 0 n)) p = Ok L /\
    l_periodic L = per /\ length per = n.

(** The floats nearest to the given numbers of thousandths. *)
Definition thousandths (z : list Z) (p : list b64) : Prop :=
  Forall2 (fun a v => denotes v (rnd (IZR a / 1000))) z p.

(** A position inside the unit cell, in thousandths. *)
Definition cell_position (n : nat) (z : list Z) (p : list b64) : Prop :=
  length z = n /\ Forall (fun a => 0 <= a < 1000)%Z z /\ thousandths z p.

(** The site [i] is the one at position [z] (in thousandths) of the cell [c]. *)
Definition fl_site (s : structure b64) (z c : list Z) (i : Z) : Prop :=
  length c = length z /\ exists x, get_site s i = Some x /\ thousandths (zipwith (fun a b => 1000 * a + b)%Z c z) (s_loc x).

(** The 2D or 3D square grid of the library, built with [size] in binary64. *)
Definition fl_square (size : list Z) (s : structure b64) : Prop :=
  (length size = 2%nat /\ exists b, SimpleSquare2DStructureBuilder FA = Ok b /\ build FA b (SzTuple size) = Ok s) \/
  (length size = 3%nat /\ exists b, SimpleSquare3DStructureBuilder FA = Ok b /\ build FA b (SzTuple size) = Ok s).

(** [d] is a shortest offset from cell [c] to cell [c']. *)
Definition shortest (per : list bool) (k c d c' : list Z) : Prop :=
  reaches per k c d c' /\ forall d', reaches per k c d' c' -> (sq d <= sq d')%Z.

(** The weights of [N] are the lengths of the shortest offsets, up to 0.0006. *)
Definition lengths (per : list bool) (k z : list Z) (s : structure b64) (N : nbhood b64) (c : list Z) (i : Z) : Prop :=
  weights N i (fun j w => exists c' d v t, fl_site s z c' j /\ shortest per k c d c' /\ w = Some v /\ denotes v t /\
    (Rabs (t - sqrt (IZR (sq d))) <= 6 / 10000)%R).

(** A cutoff that leaves the lengths up to [sqrt K] below it, and one that leaves the
    lengths from [sqrt K] on at or above it: at a distance that outweighs the
    rounding to three places, or at a whole number. *)
Definition admits (K : Z) (t : R) : Prop :=
  (sqrt (IZR K) + 6 / 10000 <= t)%R \/ exists r, (0 <= r)%Z /\ K = (r * r)%Z /\ (IZR r < t)%R.
Definition keeps_out (K : Z) (t : R) : Prop :=
  (t <= sqrt (IZR K) - 6 / 10000)%R \/ exists r, (0 <= r)%Z /\ K = (r * r)%Z /\ (t <= IZR r)%R.
(** The same for the inner radius of a ring, which is itself excluded. *)
Definition skips (K : Z) (t : R) : Prop :=
  (sqrt (IZR K) + 6 / 10000 <= t)%R \/ exists r, (0 <= r)%Z /\ K = (r * r)%Z /\ (IZR r <= t)%R.
Definition passes (K : Z) (t : R) : Prop :=
  (t <= sqrt (IZR K) - 6 / 10000)%R \/ exists r, (0 <= r)%Z /\ K = (r * r)%Z /\ (t < IZR r)%R.

(** Along some periodic direction in which the sites lie on the borders of the
    cells, the coordinate reached from the cell [c] by the offset [d] falls short. *)
Definition blocked (per : list bool) (k z c d : list Z) : Prop :=
  exists a m x y, nth_error per a = Some true /\ nth_error k a = Some m /\ nth_error z a = Some 0%Z /\
    nth_error c a = Some x /\ nth_error d a = Some y /\ falls_short m (x + y)%Z.

(** The site [i] is in the cell of the torus to which the point [p] belongs. *)
Definition fl_cell (size : list Z) (s : structure b64) (p : list Z) (i : Z) : Prop :=
  exists c, same_cell (extents size) p c /\ fl_site s (repeat 0%Z (length size)) c i.

(** [N] is the neighbourhood with the offsets [P] on the torus. *)
Definition fl_torus_nb (size : list Z) (s : structure b64) (P : list Z -> Prop) (N : nbhood b64) : Prop :=
  forall x i, length x = length size -> fl_cell size s x i ->
    neighbours N i (fun j => j <> i /\ exists d, length d = length size /\ P d /\ fl_cell size s (shift x d) j).

(** [b] is the Moore or the von Neumann builder of radius [r] in [dim] dimensions, and
    [P] says which offsets lie within a given radius. *)
Definition fl_builder (dim : nat) (r : Z) (P : Z -> list Z -> Prop) (b : nb_builder b64) : Prop :=
  (P = within_moore /\ MooreNbHoodBuilder FA r dim = Ok b) \/
  (P = within_vn /\ dim = 2%nat /\ VonNeumannNbHood2DBuilder FA r = Ok b) \/
  (P = within_vn /\ dim = 3%nat /\ VonNeumannNbHood3DBuilder FA r = Ok b).
