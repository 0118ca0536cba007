(** Vocabulary for the placement of nuclei in binary64 and the builders given to [grow] (C113). *)
From Coq Require Import Reals.
From Flocq Require Import Core BinarySingleNaN.
From Verif Require Import Prelude Dict Arith RealArith FloatArith StructModel NbModel GridModel SpecGrid SpecNb SpecSetup SpecFloat64.
Local Open Scope Z_scope.

(** Two different sites not farther apart than the buffer, if there is one. *)
Definition fl_too_near (size : list Z) (s : structure b64) (buffer : option Z) (i j : Z) : Prop :=
  i <> j /\ exists r p d, buffer = Some r /\ length p = length size /\ length d = length size /\ within_moore r d /\ fl_cell size s p i /\ fl_cell size s (shift p d) j.

(** The shares of the phases as computed: the amount divided by the computed sum,
    times the number of nuclei. *)
Definition computed_shares (n : Z) (amts : dict string b64) (np_sum : list b64 -> b64) : list (string * R) :=
  map (fun pa => (fst pa, B2R (a_mul FA (a_div FA (snd pa) (np_sum (map snd amts))) (a_ofZ FA n)))) amts.

(** [b] is what [grow] may be given: nothing (a Moore neighbourhood of radius 1),
    or a Moore or von Neumann builder; neighbours are at the offsets in [P r]. *)
Definition grow_builder (dim : nat) (r : Z) (P : Z -> list Z -> Prop) (b : option (nb_builder R)) : Prop :=
  (P = within_moore /\ (b = None /\ r = 1 \/ exists b', MooreNbHoodBuilder RA r dim = Ok b' /\ b = Some b')) \/
  (P = within_vn /\ exists b', (dim = 2%nat /\ VonNeumannNbHood2DBuilder RA r = Ok b' \/ dim = 3%nat /\ VonNeumannNbHood3DBuilder RA r = Ok b') /\ b = Some b').
