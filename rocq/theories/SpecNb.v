(** Vocabulary for the neighbourhood properties. *)
From Coq Require Import Permutation.
From Verif Require Import Prelude Arith LatticeModel StructModel NbModel SpecGeom.

(** The structures the API can produce: an empty one plus any [add_site] calls. *)
Definition built {F} (A : arith F) (L : lattice F) (s : structure F) : Prop :=
  exists calls, s = fst (adds A (struct_init L) calls).

(** The unspecified choices: the order of the neighbours is some permutation,
    [random.choice] picks an element of a non-empty list. *)
Definition legal {F} (o : @nb_oracle F) : Prop :=
  (forall l, Permutation l (o_order o l)) /\ (forall l, l <> [] -> (o_choice o l < length l)%nat).

(** [neighbors_of(i)] lists exactly the ids satisfying [P], each once. *)
Definition neighbours {F} (N : nbhood F) (i : Z) (P : Z -> Prop) : Prop :=
  forall o, legal o -> exists l, neighbors_of o N i = Ok l /\ NoDup l /\ forall j, In j l <-> P j.

(** With weights: the same ids in the same order, every weight satisfies [W]. *)
Definition weights {F} (N : nbhood F) (i : Z) (W : Z -> option F -> Prop) : Prop :=
  forall o, legal o -> exists wl, weighted_neighbors_of o N i = Ok wl /\
    neighbors_of o N i = Ok (map fst wl) /\ forall j w, In (j, w) wl -> W j w.

(** The site [i] of [s], restricted to a class if one is given. *)
Definition in_class (cls : option string) (c : string) : Prop :=
  match cls with None => True | Some d => c = d end.
