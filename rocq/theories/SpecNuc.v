(** Vocabulary for nucleation in binary64. *)
From Coq Require Import Reals.
From Flocq Require Import Core BinarySingleNaN.
From Verif Require Import Prelude Arith FloatArith StructModel SetupModel SpecState SpecGrid SpecSetup SpecFloat64.
Local Open Scope Z_scope.

(** Sensible amounts: distinct names other than the background, finite, none
    negative, not all zero, with a sum that is half the largest float or less. *)
Definition total_of (amts : dict string b64) : R := sum (map B2R (map snd amts)).
Definition fl_amounts (bg : string) (amts : dict string b64) : Prop :=
  uniq amts /\ ~ In bg (dkeys amts) /\ (forall p a, In (p, a) amts -> is_finite a = true /\ (0 <= B2R a)%R) /\
  (0 < total_of amts <= bpow radix2 1023)%R.

(** [s] is the grid of a setup in [dim] dimensions with the given size, in binary64. *)
Definition fl_setup (dim : nat) (sz : size_arg) (s : structure b64) : Prop :=
  good_size dim sz /\ Forall (fun m => m <= 2 ^ 20) (grid_size dim sz) /\ fl_square (grid_size dim sz) s.

(** No buffer, or one for which the Moore neighbourhood can be made in binary64. *)
Definition fl_buffer (size : list Z) (buffer : option Z) : Prop :=
  match buffer with None => True | Some r => 0 <= r <= 2 ^ 20 /\ Forall (fun m => ~ lost m r) size end.
Definition bad_buffer (size : list Z) (buffer : option Z) : Prop :=
  exists r, buffer = Some r /\ 0 <= r <= 2 ^ 20 /\ Exists (fun m => lost m r) size.

(** Two different sites of the list are more than [r] apart on the torus. *)
Definition fl_separated (size : list Z) (s : structure b64) (r : Z) (l : list Z) : Prop :=
  forall p d i j, fl_cell size s p i -> In i l -> In j l -> i <> j ->
    length d = length size -> within_moore r d -> ~ fl_cell size s (shift p d) j.

(** Integer coordinates listed by phase, as floats. *)
Definition fl_coords (coords : dict string (list (list Z))) : dict string (list (list b64)) :=
  map (fun pc => (fst pc, map fl_at (snd pc))) coords.
(** Some coordinate of the point falls short. *)
Definition missed (size : list Z) (x : list Z) : Prop :=
  exists a m v, nth_error (extents size) a = Some m /\ nth_error x a = Some v /\ falls_short m v.

(** [s'] shows the same lattice, sites and lookups as [s]; locations are the same
    numbers (zero may have another sign). *)
Definition reloaded (s s' : structure b64) : Prop :=
  p_lattice s' = p_lattice s /\ p_dim s' = p_dim s /\ map s_id (sites s' None) = map s_id (sites s None) /\
  (forall i x, get_site s i = Some x -> exists x', get_site s' i = Some x' /\ s_class x' = s_class x /\
     Forall2 (fun a b => exists r, denotes a r /\ denotes b r) (s_loc x) (s_loc x')) /\
  forall v, id_at FA s' v = id_at FA s v.
