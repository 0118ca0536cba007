(** IEEE 754 binary64 arithmetic, as used by numpy for float64, as an instance
    of [arith].  The numbers and the operations are Flocq's; every operation
    rounds to nearest, ties to even.  No repository code is modelled here. *)
From Coq Require Import Reals.
From Flocq Require Import Core BinarySingleNaN.
From Verif Require Import Prelude Arith.
Local Open Scope Z_scope.

Definition b64 : Type := binary_float 53 1024.
#[export] Instance prec_pos : Prec_gt_0 53 := eq_refl.
#[export] Instance prec_max : Prec_lt_emax 53 1024 := eq_refl.

Definition f_add : b64 -> b64 -> b64 := Bplus mode_NE.
Definition f_sub : b64 -> b64 -> b64 := Bminus mode_NE.
Definition f_mul : b64 -> b64 -> b64 := Bmult mode_NE.
Definition f_div : b64 -> b64 -> b64 := Bdiv mode_NE.
Definition f_sqrt : b64 -> b64 := Bsqrt mode_NE.
Definition f_abs : b64 -> b64 := Babs.
Definition f_ofZ (z : Z) : b64 := binary_normalize 53 1024 prec_pos prec_max mode_NE z 0 false.
Definition f_floor : b64 -> b64 := Bnearbyint mode_DN.
Definition f_rint : b64 -> b64 := Bnearbyint mode_NE.
Definition f_eqb (x y : b64) : bool := Beqb x y.
Definition f_ltb (x y : b64) : bool := Bltb x y.
(** Python's [int(x)] (visualization/square_grid_artist_2D.py:18 and 36-37,
    square_grid_artist_3D.py:38).  Simplification: 0 for infinities and nan, where
    Python raises. *)
Definition f_int (x : b64) : Z := Btrunc x.
(** Python's [x == z] for a float and an integer, which compares exactly
    (visualization/square_grid_artist_3D.py:27) *)
Definition f_is (x : b64) (z : Z) : bool := is_finite x && f_eqb (f_floor x) x && (f_int x =? z)%Z.

(** [np.linalg.inv]: LU factorisation with partial pivoting and substitution
    against the identity, done here as one Gauss-Jordan elimination with
    partial pivoting of the matrix with the identity appended.  The order in
    which LAPACK adds up products is not modelled; for the matrices of square
    lattices (one non-zero entry per row and column) every sum has at most one
    non-zero term, so the order does not matter; for honeycombs (C96) the
    inversion is a parameter of which only the accuracy is assumed. *)
Section Inverse.
  (** position of the first row, from [k] on, with the largest entry of column [k] *)
  Fixpoint pivot (k i : nat) (best : nat) (bestv : b64) (rows : list (list b64)) : nat :=
    match rows with
    | [] => best
    | r :: t =>
        let v := f_abs (nth k r (f_ofZ 0)) in
        if f_ltb bestv v then pivot k (S i) i v t else pivot k (S i) best bestv t
    end.
  Definition swap (i j : nat) (rows : list (list b64)) : list (list b64) :=
    map (fun p => if Nat.eqb p i then nth j rows [] else if Nat.eqb p j then nth i rows [] else nth p rows [])
        (seq 0 (length rows)).
  Definition eliminate (k : nat) (rows : list (list b64)) : res (list (list b64)) :=
    let p := pivot k k k (f_ofZ 0) (skipn k rows) in
    let rows := swap k p rows in
    let prow := nth k rows [] in
    let pv := nth k prow (f_ofZ 0) in
    if f_eqb pv (f_ofZ 0) then Err LinAlgError
    else
      let prow := map (fun x => f_div x pv) prow in
      Ok (map (fun i => let r := nth i rows [] in
                        if Nat.eqb i k then prow
                        else let c := nth k r (f_ofZ 0) in zipwith (fun x y => f_sub x (f_mul c y)) r prow)
              (seq 0 (length rows))).
  Definition f_inv (M : list (list b64)) : res (list (list b64)) :=
    let n := length M in
    let aug := map (fun i => nth i M [] ++ map (fun j => f_ofZ (if Nat.eqb i j then 1 else 0)) (seq 0 n)) (seq 0 n) in
    do rows <- foldM (fun rows k => eliminate k rows) (seq 0 n) aug;
    Ok (map (skipn n) rows).
End Inverse.

Definition FA : arith b64 :=
  mkArith b64 f_add f_sub f_mul f_div f_sqrt f_abs f_ofZ f_floor f_rint f_eqb f_ltb f_inv.
