(** Vocabulary for C115. *)
From Coq Require Import Reals.
From Verif Require Import Prelude FloatArith SpecFloat64.

(** The power function [pow] is accurate to one part in 2^20 where it is asked
    for the power of [x] to the float nearest to one third (C libraries promise
    one part in 2^51 or better). *)
Definition fair_power (pow : b64 -> b64 -> b64) (x : Z) : Prop :=
  forall a b, denotes a (IZR x) -> denotes b (rnd (1 / 3)) ->
    exists r, denotes (pow a b) r /\ (Rabs (r - Rpower (IZR x) (rnd (1 / 3))) <= / IZR (2 ^ 20) * Rpower (IZR x) (rnd (1 / 3)))%R.
