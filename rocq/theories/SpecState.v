(** Vocabulary for stating properties of simulation states: what a user can observe
    through the API.  Nothing here refers to how updates are carried out. *)
From Verif Require Import Prelude Val StateModel.

(** The value stored under key [k] of site [i], if any. *)
Definition site_entry (s : sstate) (i k : key) : option val :=
  match get_site_state s i with Some d => dget k d | None => None end.

(** Value stored under [k] in the general state. *)
Definition general_entry (s : sstate) (k : key) : option val := dget k (get_general_state s).

(** A dictionary literal has no repeated keys. *)
Definition uniq {K V} (d : dict K V) : Prop := NoDup (dkeys d).

(** States as Python builds them: every dictionary has unique keys. *)
Definition swf (s : sstate) : Prop :=
  uniq (s_sites s) /\ (forall i d, get_site_state s i = Some d -> uniq d) /\ uniq (s_general s).

(** What an update dictionary [u] does to one dictionary entry whose old value is [old]. *)
Definition upd_entry (u : pdict) (k : key) (old : option val) : option val :=
  match dget k u with Some v => Some v | None => old end.

(** Old value of an entry, for a site that may not have been seen before: a new site
    starts with only its id. *)
Definition entry_or_new (s : sstate) (i k : key) : option val :=
  match get_site_state s i with
  | Some d => dget k d
  | None => if eqb k SITE_ID then Some (key_val i) else None
  end.

(** Mutating API calls, with arguments in the documented shapes. *)
Inductive sop : Type :=
| OpSite (i : key) (u : pdict)
| OpGeneral (u : pdict)
| OpBatchFull (sites : dict key pdict) (g : pdict)
| OpBatchSites (sites : dict key pdict).

Definition vsites (sites : dict key pdict) : pdict := map (fun kv => (fst kv, VDict (snd kv))) sites.

Definition apply_sop (s : sstate) (o : sop) : res sstate :=
  match o with
  | OpSite i u => Ok (set_site_state s i u)
  | OpGeneral u => Ok (set_general_state s u)
  | OpBatchFull sites g => batch_update s (VDict [(GENERAL, VDict g); (SITES, VDict (vsites sites))])
  | OpBatchSites sites => batch_update s (VDict (vsites sites))
  end.

(** Arguments are proper dictionaries; a site-only batch does not use the reserved
    key as a site id. *)
Definition sop_ok (o : sop) : Prop :=
  match o with
  | OpSite _ u | OpGeneral u => uniq u
  | OpBatchFull sites g => uniq sites /\ (forall i u, In (i, u) sites -> uniq u) /\ uniq g
  | OpBatchSites sites =>
      uniq sites /\ (forall i u, In (i, u) sites -> uniq u) /\ ~ In GENERAL (dkeys sites)
  end.

(** The (site, update) pairs an operation makes, in order. *)
Definition sop_sites (o : sop) : list (key * pdict) :=
  match o with
  | OpSite i u => [(i, u)]
  | OpGeneral _ => []
  | OpBatchFull sites _ | OpBatchSites sites => sites
  end.

(** Running a history. *)
Definition run_sops (h : list sop) (s : sstate) : res sstate := foldM apply_sop h s.
