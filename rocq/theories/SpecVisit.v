(** Specification vocabulary for growth that visits one drawn site per step, with
    neighbourhoods that are drawn at every visit. *)
From Verif Require Import Prelude SpecGeom SpecGrid.
Local Open Scope Z_scope.

(** Before step [t] site [i] has been reached: it was occupied from the start, or it was
    drawn at an earlier step [k] at which one of the neighbours drawn with it had been reached. *)
Inductive reached (start : Z -> Prop) (draw : nat -> Z) (nbr : nat -> Z -> Z -> Prop) : nat -> Z -> Prop :=
| reached_start t i : start i -> reached start draw nbr t i
| reached_hop t k j : (k < t)%nat -> nbr k (draw k) j -> reached start draw nbr k j -> reached start draw nbr t (draw k).

(** Different cells at an offset allowed by [P], where [C p i] says that site [i] is the
    cell at the point [p] of the [D]-dimensional grid. *)
Definition offset_by (C : list Z -> Z -> Prop) (D : nat) (P : list Z -> Prop) (i j : Z) : Prop :=
  j <> i /\ exists p d, length p = D /\ length d = D /\ P d /\ C p i /\ C (shift p d) j.
