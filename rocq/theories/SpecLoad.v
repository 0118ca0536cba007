(** Keys of reloaded dictionaries. *)
From Coq Require Import Ascii.
From Verif Require Import Prelude Val.

(** A decimal digit; a Latin letter. *)
Definition is_digit (a : ascii) : Prop := (48 <= nat_of_ascii a <= 57)%nat.
Definition is_letter (a : ascii) : Prop := (65 <= nat_of_ascii a <= 90)%nat \/ (97 <= nat_of_ascii a <= 122)%nat.

(** An integer, or a string of digits, maybe behind a minus sign. *)
Definition legible (k : key) : Prop :=
  (exists z, k = KInt z) \/
  exists a l, is_digit a /\ Forall is_digit l /\
    (k = KStr (string_of_list_ascii (a :: l)) \/ k = KStr (string_of_list_ascii ("-"%char :: a :: l))).
(** A string that is empty or contains a letter. *)
Definition illegible (k : key) : Prop := exists l, k = KStr (string_of_list_ascii l) /\ (l = [] \/ exists a, In a l /\ is_letter a).

(** A diff that can be reloaded: the keys other than GENERAL are legible. *)
Definition diff_fine (v : val) : Prop := exists d, v = VDict d /\ forall k x, In (k, x) d -> k <> KStr "GENERAL" -> legible k.
(** A diff that cannot: no dictionary, or one with an illegible key. *)
Definition diff_fails (v : val) (e : exn) : Prop :=
  match v with
  | VDict d => e = ValueError /\ exists k x, In (k, x) d /\ k <> KStr "GENERAL" /\ illegible k
  | _ => e = AttributeError
  end.
