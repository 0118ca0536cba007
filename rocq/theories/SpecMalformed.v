(** Malformed site dictionaries, updates and batches. *)
From Verif Require Import Prelude Val StateModel SpecAnalyze.

(** The id stored in the dictionary of a site. *)
Definition stored_id (d : pdict) (k : key) : Prop := dget (KStr "_site_id") d = Some (key_val k).

(** What looking up the stored id and asking the site found for the entries [pairs] runs into. *)
Definition runs_into (st : sstate) (pairs : pdict) (d : pdict) (e : exn) : Prop :=
  match dget (KStr "_site_id") d with
  | None => e = KeyError
  | Some (VList _) | Some (VDict _) => e = TypeError
  | Some v => e = AttributeError /\ pairs <> [] /\ (v = VNone \/ exists k, v = key_val k /\ ~ In k (site_ids st))
  end.

(** The site [k] has the entries [pairs]; a missing entry counts as None. *)
Definition site_has (st : sstate) (pairs : pdict) (k : key) : Prop :=
  exists d, dget k (s_sites st) = Some d /\ forall n v, In (n, v) pairs -> val_eqb (match dget n d with Some x => x | None => VNone end) v = true.

(** None, a truth value or a number: nothing that [dict.update] takes. *)
Definition no_entries (v : val) : Prop := v = VNone \/ (exists b, v = VBool b) \/ (exists z, v = VInt z) \/ (exists m e, v = VFloat m e).
