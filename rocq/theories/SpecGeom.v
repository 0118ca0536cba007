(** Vocabulary in which the geometric properties are stated: real vectors,
    lattices as lists of independent vectors, periodic images, cells.  Only the
    constructor [lattice_init] of the model is mentioned. *)
From Coq Require Import Reals Lra.
From Verif Require Import Prelude Arith RVec RealArith LatticeModel StructModel.
Open Scope R_scope.

(** The flags meant by the [periodic] argument for [n] vectors. *)
Definition flags (n : nat) (p : periodic_arg) : list bool :=
  match p with PBool b => repeat b n | PFlags l => l end.

(** [L] was made by [Lattice(vs, p)] from [n] independent vectors of dimension
    [n], and [p] means the flags [per]. *)
Definition lattice_on (n : nat) (vs : list vec) (per : list bool) (L : lattice R) : Prop :=
  basis n vs /\ length per = n /\ exists p, flags n p = per /\ lattice_init vs p = Ok L.

(** Coefficients [f] of the point [p] with respect to the vectors. *)
Definition coords (n : nat) (vs : list vec) (f p : vec) : Prop :=
  length f = n /\ lincomb n f vs = p.

(** Whole numbers, zero along the non-periodic directions. *)
Definition whole (per : list bool) (z : list Z) : Prop :=
  Forall2 (fun (b : bool) k => b = false -> k = 0%Z) per z.

(** [q] is a periodic image of [p]. *)
Definition image (n : nat) (vs : list vec) (per : list bool) (p q : vec) : Prop :=
  exists z, whole per z /\ q = vplus p (lincomb n (map IZR z) vs).

(** The point lies in the cell: coefficients in [0,1) along periodic directions. *)
Definition in_cell (n : nat) (vs : list vec) (per : list bool) (q : vec) : Prop :=
  exists f, coords n vs f q /\ Forall2 (fun (b : bool) x => b = true -> 0 <= x < 1) per f.

(** [q] is the image of [p] inside the cell. *)
Definition periodised (n : nat) (vs : list vec) (per : list bool) (p q : vec) : Prop :=
  image n vs per p q /\ in_cell n vs per q.

Definition orthogonal (vs : list vec) : Prop :=
  forall i j u v, i <> j -> nth_error vs i = Some u -> nth_error vs j = Some v -> vdot u v = 0.

(** Every periodic lattice vector is perpendicular to all the other vectors. *)
Definition periods_orthogonal (per : list bool) (vs : list vec) : Prop :=
  forall i j u v, i <> j -> nth_error per i = Some true -> nth_error vs i = Some u -> nth_error vs j = Some v -> vdot u v = 0.

(** Two different periodic lattice vectors that are not perpendicular, by more
    than the rounding of distances to 3 decimals can hide. *)
Definition oblique_pair (per : list bool) (vs : list vec) (i j : nat) (u v : vec) : Prop :=
  i <> j /\ nth_error per i = Some true /\ nth_error per j = Some true /\ nth_error vs i = Some u /\ nth_error vs j = Some v /\
  vlength u + vlength v < 1000 * Rabs (vdot u v).

(** No periodic coefficient of [p - q] is half way between two whole numbers. *)
Definition off_ties (n : nat) (vs : list vec) (per : list bool) (p q : vec) : Prop :=
  exists f, coords n vs f (vminus p q) /\ Forall2 (fun (b : bool) x => b = true -> forall k : Z, x <> IZR k + 1/2) per f.

(** The lattice vectors multiplied by whole numbers. *)
Definition scaled (k : list Z) (vs : list vec) : list vec := zipwith (fun a v => vscale (IZR a) v) k vs.

(** A history of [add_site] calls: the final structure and every outcome. *)
Fixpoint adds {F} (A : arith F) (s : structure F) (calls : list (string * list F)) : structure F * list (res Z) :=
  match calls with
  | [] => (s, [])
  | c :: t =>
      let r := add_site A s (fst c) (snd c) in
      let rest := adds A (fst r) t in
      (fst rest, snd r :: snd rest)
  end.

(** The calls that returned, in order, and what they returned. *)
Fixpoint accepted {B} (calls : list B) (outs : list (res Z)) : list B :=
  match calls, outs with
  | c :: t, Ok _ :: u => c :: accepted t u
  | _ :: t, Err _ :: u => accepted t u
  | _, _ => []
  end.
Fixpoint returned (outs : list (res Z)) : list Z :=
  match outs with [] => [] | Ok i :: t => i :: returned t | Err _ :: t => returned t end.

(** Two points denote the same place: their images in the cell agree once
    rounded to 3 decimals after adding 0.001. *)
Definition place (q : vec) : vec := map (fun x => round3 (x + 1/1000)) q.
Definition same_place (n : nat) (vs : list vec) (per : list bool) (p q : vec) : Prop :=
  exists p' q', periodised n vs per p p' /\ periodised n vs per q q' /\ place p' = place q'.

(** Points whose rounded image stays inside the cell and is not decided by a
    tie of the rounding. *)
Definition settled (n : nat) (vs : list vec) (per : list bool) (p : vec) : Prop :=
  exists q, periodised n vs per p q /\ in_cell n vs per (map round3 q) /\
    Forall (fun x => Rabs (x * 1000 - IZR (zrint (x * 1000))) < 1/2) q.

(** Every whole combination of the periods other than zero moves some coordinate
    by at least 0.002. *)
Definition coarse (n : nat) (vs : list vec) (per : list bool) : Prop :=
  forall z, whole per z -> Forall (fun x => Rabs x < 2/1000) (lincomb n (map IZR z) vs) -> lincomb n (map IZR z) vs = vzero n.

(** The cells of an [k_1 x ... x k_n] block in lexicographic order. *)
Fixpoint cells (k : list Z) : list (list Z) :=
  match k with
  | [] => [[]]
  | m :: t => flat_map (fun i => map (cons i) (cells t)) (zrange 0 m)
  end.

(** What a motif tiled over a block should give: per cell, per class, per
    position, the class and the Cartesian point. *)
Definition tiling (k : list Z) (motif : dict string (list vec)) (place : list Z -> vec -> vec) : list (string * vec) :=
  flat_map (fun c => flat_map (fun cv => map (fun v => (fst cv, place c v)) (snd cv)) motif) (cells k).
Definition frac_place (n : nat) (vs : list vec) (c : list Z) (v : vec) : vec := lincomb n (vplus (map IZR c) v) vs.
Definition cart_place (n : nat) (vs : list vec) (c : list Z) (v : vec) : vec := vplus (lincomb n (map IZR c) vs) v.

(** No two entries of the list denote the same place. *)
Definition no_collision (n : nat) (vs : list vec) (per : list bool) (l : list (string * vec)) : Prop :=
  forall i j c d p q, i <> j -> nth_error l i = Some (c, p) -> nth_error l j = Some (d, q) ->
    ~ same_place n vs per p q.

(** The sites of [s] are the entries of [l], numbered from 0, at their images
    in the cell rounded to 3 decimals. *)
Definition holds_sites (n : nat) (vs : list vec) (per : list bool) (s : structure R) (l : list (string * vec)) : Prop :=
  Forall2 (fun ip x => exists q, periodised n vs per (snd (snd ip)) q /\
             x = mkSite (fst (snd ip)) (map round3 q) (fst ip))
    (enumerate l) (sites s None).

Definition symmetric (n : nat) (vs : list vec) : Prop :=
  forall c, length c = n -> lincomb n c vs = map (fun r => vdot r c) vs.

(** Lexicographic order on integer points. *)
Fixpoint lex_lt (p q : list Z) : Prop :=
  match p, q with
  | x :: p', y :: q' => (x < y)%Z \/ (x = y /\ lex_lt p' q')
  | _, _ => False
  end.

(** Number of positions in a motif. *)
Definition motif_size {B} (motif : dict string (list B)) : nat := list_sum (map (fun cv => length (snd cv)) motif).

(** The motif as a dictionary; a bare list of positions has the class "A". *)
Definition motif_dict {F} (m : motif_arg F) : dict string (list (list F)) :=
  match m with MDict d => d | MList l => [("A"%string, l)] end.
(** Every position has dimension [n]. *)
Definition motif_ok (n : nat) (m : motif_arg R) : Prop :=
  forall c l v, In (c, l) (motif_dict m) -> In v l -> length v = n.
