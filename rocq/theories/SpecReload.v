(** Vocabulary for the reloading of recorded updates. *)
From Verif Require Import Prelude Val SpecState SpecResult.

(** An entry of a recorded update: JSON data for a site, or one of the two parts that the
    runners record. *)
Definition recorded_entry (kv : key * val) : Prop :=
  ((exists z, fst kv = KInt z) /\ json_clean (snd kv)) \/ fst kv = SITES \/ fst kv = GENERAL.
Definition recorded (v : val) : Prop := exists d, v = VDict d /\ uniq d /\ Forall recorded_entry d.
Definition has_key (k : key) (v : val) : Prop := exists d x, v = VDict d /\ dget k d = Some x.
(** The update without its general part. *)
Definition without_general (d : pdict) : pdict := filter (fun kv => negb (eqb (fst kv) GENERAL)) d.
