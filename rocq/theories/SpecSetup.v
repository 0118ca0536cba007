(** Vocabulary for starting states of grids. *)
From Coq Require Import Reals Permutation.
From Verif Require Import Prelude Val Arith RVec RealArith LatticeModel StructModel StateModel NbModel GridModel SimModel SetupModel
  SpecState SpecGeom SpecNb SpecGrid.
Local Open Scope Z_scope.

(** The state has exactly the sites of the structure, in order, nothing in the
    general state, and each site state is exactly its id and a phase [p] with
    [P id p]. *)
Definition configuration {F} (s : structure F) (st : sstate) (P : Z -> string -> Prop) : Prop :=
  site_ids st = map (fun x => KInt (s_id x)) (sites s None) /\ get_general_state st = [] /\
  forall i x, get_site s i = Some x ->
    exists p, get_site_state st (KInt i) = Some [(KStr "_site_id", VInt i); (KStr "DISCRETE_OCCUPANCY", VStr p)] /\ P i p.

(** The size meant by the [size] argument of a [dim]-dimensional setup. *)
Definition grid_size (dim : nat) (sz : size_arg) : list Z :=
  match sz with SzInt k => repeat k dim | SzTuple l => l end.
Definition good_size (dim : nat) (sz : size_arg) : Prop :=
  (dim = 2%nat \/ dim = 3%nat) /\ length (grid_size dim sz) = dim /\ Forall (fun k => 0 < k) (grid_size dim sz).

(** The entries of a coordinate dictionary in the order they are listed. *)
Definition listed {F} (coordinates : dict string (list (list F))) : list (string * list F) :=
  flat_map (fun pc => map (fun c => (fst pc, c)) (snd pc)) coordinates.

(** [q] is the phase of the last entry satisfying [hit], or [d] without any. *)
Definition last_hit {B C} (hit : B -> Prop) (l : list (C * B)) (d q : C) : Prop :=
  (exists l1 b l2, l = l1 ++ (q, b) :: l2 /\ hit b /\ forall e, In e l2 -> ~ hit (snd e)) \/
  ((forall e, In e l -> ~ hit (snd e)) /\ q = d).

(** Euclidean distance. *)
Definition dist (p q : vec) : R := vlength (vminus p q).

(** The ids whose phase is (or is not) the given one. *)
Definition phase_at (st : sstate) (i : Z) (p : string) : bool :=
  match site_entry st (KInt i) (KStr "DISCRETE_OCCUPANCY") with Some (VStr q) => eqb q p | _ => false end.
Definition with_phase {F} (s : structure F) (st : sstate) (p : string) : list Z :=
  filter (fun i => phase_at st i p) (map s_id (sites s None)).
Definition without_phase {F} (s : structure F) (st : sstate) (p : string) : list Z :=
  filter (fun i => negb (phase_at st i p)) (map s_id (sites s None)).

(** Sensible amounts: distinct names other than the background, none negative,
    not all zero. *)
Definition sum (l : list R) : R := fold_right Rplus 0%R l.
Definition amounts_ok (bg : string) (amts : dict string R) : Prop :=
  uniq amts /\ ~ In bg (dkeys amts) /\ (forall p a, In (p, a) amts -> 0 <= a)%R /\ (0 < sum (map snd amts))%R.

(** [x] comes out when the numbers of the list are added up in some order, and
    [np_sum] always adds up in some order. *)
Inductive adds_up {F} (A : arith F) : list F -> F -> Prop :=
  | adds_none : adds_up A [] (a_ofZ A 0)
  | adds_one x : adds_up A [x] x
  | adds_both l1 l2 l x y : adds_up A l1 x -> adds_up A l2 y -> Permutation (l1 ++ l2) l -> adds_up A l (a_add A x y).
Definition summation {F} (A : arith F) (np_sum : list F -> F) : Prop := forall l, adds_up A l (np_sum l).

(** The points are more than [r] apart in some direction. *)
Definition apart (r : Z) (x y : list Z) : Prop := ~ Forall2 (fun a b => Z.abs (a - b) <= r) x y.
Definition separated (s : structure R) (dim : nat) (r : Z) (l : list Z) : Prop :=
  forall i j x y, In i l -> In j l -> i <> j -> length x = dim -> length y = dim -> cell s x i -> cell s y j -> apart r x y.
