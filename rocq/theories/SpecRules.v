(** Vocabulary for the growth model and the Game of Life. *)
From Coq Require Import Reals Ascii.
From Verif Require Import Prelude Val Arith LatticeModel StructModel StateModel ResultModel RunnerModel NbModel SpecState SpecGeom SpecNb SpecGrid SpecSetup.
Local Open Scope Z_scope.

(** Site [i] holds phase [p]. *)
Definition holds (st : sstate) (i : Z) (p : string) : Prop :=
  site_entry st (KInt i) (KStr "DISCRETE_OCCUPANCY") = Some (VStr p).
Definition occupied (bg : string) (st : sstate) (i : Z) : Prop := exists p, holds st i p /\ p <> bg.

(** How many of the sites [l] hold [p]. *)
Definition count_in (st : sstate) (l : list Z) (p : string) : Z :=
  Z.of_nat (length (filter (fun i => phase_at st i p) l)).

(** The sites of the state are exactly [ids], each with a phase. *)
Definition phased (ids : list Z) (st : sstate) : Prop :=
  site_ids st = map KInt ids /\ forall i, In i ids -> exists p, holds st i p.

(** Whatever is chosen, the neighbours of [i] are found and are sites. *)
Definition has_neighbours {F} (ids : list Z) (N : nbhood F) : Prop :=
  forall o i, legal o -> In i ids -> exists l, neighbors_of o N i = Ok l /\ incl l ids.

(** [j] can be reached from [i] in at most [k] hops. *)
Inductive within (nbr : Z -> Z -> Prop) : nat -> Z -> Z -> Prop :=
| within_here k i : within nbr k i i
| within_hop k i m j : nbr i m -> within nbr k m j -> within nbr (S k) i j.

(** [l] lists the sites after [j] on a path from [j] to [i]: each has its
    predecessor among its neighbours. *)
Fixpoint walk (nbr : Z -> Z -> Prop) (j : Z) (l : list Z) (i : Z) : Prop :=
  match l with [] => i = j | a :: l => nbr a j /\ walk nbr a l i end.
(** The elements of the first list occur in the second one in this order. *)
Inductive in_order : list Z -> list Z -> Prop :=
| in_order_nil : in_order [] []
| in_order_take a l m : in_order l m -> in_order (a :: l) (a :: m)
| in_order_skip a l m : in_order l m -> in_order l (a :: m).

(** Life-like automata on the infinite plane (a torus is a periodic pattern). *)
Definition around : list (Z * Z) := [(-1, -1); (-1, 0); (-1, 1); (0, -1); (0, 1); (1, -1); (1, 0); (1, 1)].
Definition alive_around (g : Z -> Z -> bool) (x y : Z) : Z :=
  Z.of_nat (length (filter (fun d => g (x + fst d) (y + snd d)) around)).
Definition life_next (born survive : list Z) (g : Z -> Z -> bool) (x y : Z) : bool :=
  existsb (Z.eqb (alive_around g x y)) (if g x y then survive else born).
Fixpoint life_after (born survive : list Z) (t : nat) (g : Z -> Z -> bool) : Z -> Z -> bool :=
  match t with O => g | S t => life_next born survive (life_after born survive t g) end.

(** The state of the grid shows the pattern. *)
Definition shows (s : structure R) (st : sstate) (g : Z -> Z -> bool) : Prop :=
  forall x y i, cell s [x; y] i -> holds st i (if g x y then "alive" else "dead").

(** The same for a grid of [n] rows and [m] columns with ids row by row. *)
Definition shows_on (n m : Z) (st : sstate) (g : Z -> Z -> bool) : Prop :=
  forall x y, holds st ((y mod n) * m + x mod m) (if g x y then "alive" else "dead").

(** The text of a list of digits. *)
Definition digit_text (l : list Z) : string :=
  string_of_list_ascii (map (fun d => ascii_of_nat (Z.to_nat (48 + d))) l).

(** Translations, mirror images and quarter turns of the plane. *)
Definition symmetry (T : Z -> Z -> Z * Z) : Prop :=
  exists a b c d, Z.abs c = 1 /\ Z.abs d = 1 /\
    ((forall x y, T x y = (a + c * x, b + d * y)) \/ (forall x y, T x y = (a + c * y, b + d * x))).

(** [st'] is [st] moved by [T]. *)
Definition moved (s : structure R) (T : Z -> Z -> Z * Z) (st st' : sstate) : Prop :=
  forall x y i j p, cell s [x; y] i -> cell s [fst (T x y); snd (T x y)] j -> (holds st i p <-> holds st' j p).

(** Finite patterns on the plane, given by their living cells. *)
Definition pattern (l : list (Z * Z)) (x y : Z) : bool := existsb (fun d => (fst d =? x) && (snd d =? y)) l.
Definition place (a b : Z) (l : list (Z * Z)) : list (Z * Z) := map (fun d => (a + fst d, b + snd d)) l.
(** The pattern lies in a box of [w] by [h] cells. *)
Definition fits (w h : Z) (l : list (Z * Z)) : Prop :=
  exists x0 y0, forall d, In d l -> x0 <= fst d < x0 + w /\ y0 <= snd d < y0 + h.
(** [ls] is the history of a finite pattern on the plane. *)
Definition evolves (born survive : list Z) (ls : nat -> list (Z * Z)) : Prop :=
  forall t x y, In (x, y) (ls (S t)) <-> life_next born survive (pattern (ls t)) x y = true.
(** The living cells of the grid are exactly those at the places of the pattern. *)
Definition draws (s : structure R) (st : sstate) (l : list (Z * Z)) : Prop :=
  forall i x, get_site s i = Some x -> exists b : bool, holds st i (if b then "alive" else "dead") /\
    (b = true <-> exists d, In d l /\ cell s [fst d; snd d] i).
(** The same for a grid of [n] rows and [m] columns with ids row by row. *)
Definition draws_on (n m : Z) (st : sstate) (l : list (Z * Z)) : Prop :=
  forall x y, 0 <= x < m -> 0 <= y < n -> exists b : bool, holds st (y * m + x) (if b then "alive" else "dead") /\
    (b = true <-> exists d, In d l /\ fst d mod m = x /\ snd d mod n = y).
(** Well-known patterns. *)
Definition block : list (Z * Z) := [(0, 0); (1, 0); (0, 1); (1, 1)].
Definition blinker (upright : bool) : list (Z * Z) := if upright then [(0, -1); (0, 0); (0, 1)] else [(-1, 0); (0, 0); (1, 0)].
Definition glider : list (Z * Z) := [(1, 0); (2, 1); (0, 2); (1, 2); (2, 2)].

(** Serial runs and parallel runs under every schedule succeed, and the state after [t]
    steps satisfies [P t]. *)
Definition every_run {C} (ctl : controller C) (c0 : C) (init : sstate) (k : Z) (P : nat -> sstate -> Prop) : Prop :=
  (exists o, run_sync ctl c0 init k = Ok o /\ rlen (o_result o) = Z.max 0 k + 1 /\
     forall t, Z.of_nat t <= Z.max 0 k -> exists st, get_step (o_result o) (Z.of_nat t) = Ok st /\ P t st) /\
  (forall p sched, 1 <= p -> exists o, run_parallel ctl p sched c0 init k = Ok o /\ rlen (o_result o) = Z.max 0 k + 1 /\
     forall t, Z.of_nat t <= Z.max 0 k -> exists st, get_step (o_result o) (Z.of_nat t) = Ok st /\ P t st).
