(** Vocabulary for honeycomb tilings in binary64. *)
From Coq Require Import Reals.
From Flocq Require Import Core BinarySingleNaN.
From Verif Require Import Prelude Arith FloatArith LatticeModel StructModel GridModel SpecFloat64.
Local Open Scope R_scope.

(** binary64 with an arbitrary routine for inverting matrices. *)
Definition FAi (inv : list (list b64) -> res (list (list b64))) : arith b64 :=
  mkArith b64 f_add f_sub f_mul f_div f_sqrt f_abs f_ofZ f_floor f_rint f_eqb f_ltb inv.

(** The float [a] times [N] is [X] up to [e]. *)
Definition times_near (N : R) (a : b64) (X e : R) : Prop := is_finite a = true /\ Rabs (N * B2R a - X) <= e.

(** The routine inverts the vectors (n, 0) and (m / 2, m * sqrt 3 / 2), whose last
    entry may be off by a relative error of 2^-49, up to a relative error of 2^-44
    in the units 1 / n and 1 / m. *)
Definition accurate (n m : Z) (inv : list (list b64) -> res (list (list b64))) : Prop :=
  forall v z w h, denotes v (IZR n) -> denotes z 0 -> denotes w (IZR m / 2) -> times_near 1 h (IZR m * (sqrt 3 / 2)) (IZR m / IZR (2 ^ 49)) ->
  exists a b c d, inv [[v; z]; [w; h]] = Ok [[a; b]; [c; d]] /\
    times_near (IZR n) a 1 (/ IZR (2 ^ 44)) /\ times_near (IZR m) b 0 (/ IZR (2 ^ 44)) /\
    times_near (IZR n) c (- / sqrt 3) (/ IZR (2 ^ 44)) /\ times_near (IZR m) d (2 / sqrt 3) (/ IZR (2 ^ 44)).

(** [s] is the honeycomb tiling with [n] x [m] cells. *)
Definition fl_honeycomb inv (n m : Z) (s : structure b64) : Prop :=
  exists b, HoneycombTilingBuilder (FAi inv) = Ok b /\ build (FAi inv) b (SzTuple [n; m]) = Ok s.

(** The floats lie within 0.0006 of the point. *)
Definition close_to (loc : list b64) (p : list R) : Prop := Forall2 (fun v x => is_finite v = true /\ Rabs (B2R v - x) <= 6 / 10000) loc p.
