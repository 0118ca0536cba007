(** Vocabulary for the analyzers. *)
From Coq Require Import Permutation.
From Verif Require Import Prelude Val Arith LatticeModel StructModel StateModel SpecState.
Local Open Scope Z_scope.

(** Every site state carries its own id, as those made by the library do. *)
Definition ided (st : sstate) : Prop :=
  uniq (s_sites st) /\ forall k d, get_site_state st k = Some d -> dget (KStr "_site_id") d = Some (key_val k).

(** Every site has a value under the key [ky], one that can be looked up in sets and dictionaries. *)
Definition valued (ky : key) (st : sstate) : Prop :=
  ided st /\ forall k, In k (site_ids st) -> exists v, site_entry st k ky = Some v /\ hashable v = true.
(** Some site has the value [v] under the key [ky]. *)
Definition held (ky : key) (st : sstate) (v : val) : Prop := exists k, In k (site_ids st) /\ site_entry st k ky = Some v.

(** Every site has a phase: a name, a number, ... *)
Definition discrete (st : sstate) : Prop := valued (KStr "DISCRETE_OCCUPANCY") st.

(** Does site [k] hold phase [p]? *)
Definition has_phase (st : sstate) (p : val) (k : key) : bool :=
  match site_entry st k (KStr "DISCRETE_OCCUPANCY") with Some q => val_eqb q p | None => false end.

(** The number of sites of phase [p]. *)
Definition occurrences (st : sstate) (p : val) : Z := Z.of_nat (length (filter (has_phase st p) (site_ids st))).

(** A phase of the state. *)
Definition present (st : sstate) (p : val) : Prop := held (KStr "DISCRETE_OCCUPANCY") st p.

Definition zsum (l : list Z) : Z := fold_right Z.add 0 l.

(** A condition on site states as a criterion: it must be given a state. *)
Definition on_state (c : pdict -> bool) : option pdict -> res bool :=
  fun o => match o with Some d => Ok (c d) | None => Err TypeError end.

(** Integers, booleans and strings: values with one representation. *)
Definition simple (v : val) : Prop := match v with VInt _ | VBool _ | VStr _ => True | _ => False end.

(** The analyzer was made without a structure, or with one of the same sites. *)
Definition suits {F} (so : option (structure F)) (st : sstate) : Prop :=
  match so with None => True | Some s => Permutation (site_ids st) (map (fun x => KInt (s_id x)) (sites s None)) end.

(** An iteration order of sets. *)
Definition any_order (ord : list val -> list val) : Prop := forall l, Permutation l (ord l).

(** [T n] is the state after [n] of the updates, for every [n], and has phases everywhere. *)
Definition course (init : sstate) (updates : list val) (T : nat -> sstate) : Prop :=
  forall n, (n <= length updates)%nat ->
    fold_left (fun r u => match r with Ok s => batch_update s u | Err e => Err e end) (firstn n updates) (Ok init) = Ok (T n) /\ discrete (T n).
