(** Readable variant strings of the Game of Life (specification for C53). *)
From Coq Require Import Ascii String.
From Verif Require Import Prelude.

(** The decimal digits. *)
Definition decimal (a : ascii) : Prop := (48 <= nat_of_ascii a <= 57)%nat.
(** No slash occurs. *)
Definition slashless (s : string) : Prop := ~ In "/"%char (list_ascii_of_string s).
(** Everything after the first character is a decimal digit. *)
Definition readable (s : string) : Prop := Forall decimal (tl (list_ascii_of_string s)).
