(** Vocabulary: states in which a site, or its phase, is missing. *)
From Verif Require Import Prelude Val StateModel SpecState.
Local Open Scope Z_scope.

(** Reading the phase of site [i] finds the value [v]. *)
Definition reads (st : sstate) (i : Z) (v : val) : Prop := site_entry st (KInt i) (KStr "DISCRETE_OCCUPANCY") = Some v.
(** It raises [e]: there is no such site, or the site has no phase. *)
Definition lacks (st : sstate) (i : Z) (e : exn) : Prop :=
  e = TypeError /\ ~ In (KInt i) (site_ids st) \/
  e = KeyError /\ exists d, get_site_state st (KInt i) = Some d /\ dget (KStr "DISCRETE_OCCUPANCY") d = None.
