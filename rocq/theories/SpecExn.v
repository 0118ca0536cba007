(** Vocabulary for statements about calls that raise. *)
From Verif Require Import Prelude Val StateModel ResultModel HeapModel ExnModel SpecHeap.

(** The entries for sites that a batch of updates brings. *)
Definition site_entries (B : pdict) : pdict :=
  match dget GENERAL B with
  | None => B
  | Some _ => match dget SITES B with Some (VDict d) => d | _ => [] end
  end.

Definition not_dict (v : val) : Prop := forall d, v <> VDict d.

(** [st'] is [st] after the updates [p] of sites. *)
Definition applied (st : sstate) (p : pdict) (st' : sstate) : Prop :=
  batch_update st (VDict [(SITES, VDict p); (GENERAL, VDict [])]) = Ok st'.

(** A controller that only makes new objects, whether its methods return or raise. *)
Definition only_makes {C} (ctl : xcontroller C) : Prop :=
  (forall c s h, extends h (fst (xc_pre_run ctl c s h))) /\
  (forall c s h, extends h (fst (xc_random_site ctl c s h))) /\
  (forall c k s h, extends h (fst (xc_update ctl c k s h))).

(** The same controller without what it leaves behind when it raises. *)
Definition answer {A} (p : heap * res A) : res (A * heap) := match p with (h, Ok x) => Ok (x, h) | (_, Err e) => Err e end.
Definition answers_of {C} (ctl : xcontroller C) : hcontroller C :=
  mkHC C (fun c s h => answer (xc_pre_run ctl c s h))
       (fun c s h => do (vc, h') <- answer (xc_random_site ctl c s h); Ok (fst vc, snd vc, h'))
       (fun c k s h => do (vc, h') <- answer (xc_update ctl c k s h); Ok (fst vc, snd vc, h')).
