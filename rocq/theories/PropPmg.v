(** Properties C66 and C73: conversion to and from pymatgen. *)
From Coq Require Import Reals Lra Permutation.
From Verif Require Import Prelude Dict Val Arith RVec RealArith LatticeModel StructModel StateModel SpecGeom SpecNb SpecSetup PmgModel SpecPmg PmgFacts PmgDemo NbDemo LatticeFacts StructMore.
Local Open Scope Z_scope.

(** C66. One site per atom, at its place, with its species as class and as state; AssertionError exactly when two atoms share a place. *)
Theorem C66_to_pylattica : forall P, crystal P ->
  (no_collision 3 (g_matrix P) everywhere (atoms P) ->
     exists s st l, to_pylattica_structure_and_state RA P = Ok (s, st) /\
       Permutation l (atoms P) /\ holds_sites 3 (g_matrix P) everywhere s l /\
       configuration s st (fun i p => exists x, get_site s i = Some x /\ s_class x = p) /\
       forall sp p, In (sp, p) (atoms P) -> exists x, site_at RA s p = Ok (Some x) /\ s_class x = sp) /\
  (~ no_collision 3 (g_matrix P) everywhere (atoms P) ->
     to_pylattica_structure_and_state RA P = Err AssertionError).
Proof. exact C66_to_pylattica_lemma. Qed.
Print Assumptions C66_to_pylattica.
Example C66_example : crystal zro /\ no_collision 3 (g_matrix zro) everywhere (atoms zro) /\ length (atoms zro) = 2%nat.
Proof. split; [exact zro_crystal|]. split; [exact zro_apart|reflexivity]. Qed.

(** C66. The builder made from a crystal repeats all its atoms in every cell. *)
Theorem C66_supercell : forall P, crystal P ->
  exists b, to_pylattica_structure_builder P = Ok b /\
  forall k, length k = 3%nat -> Forall (fun a => 0 < a) k ->
  let all := flat_map (fun c => map (fun a => (fst a, vplus (lincomb 3 (map IZR c) (g_matrix P)) (snd a))) (atoms P)) (cells k) in
  (no_collision 3 (scaled k (g_matrix P)) everywhere all ->
     exists s l, build RA b (SzTuple k) = Ok s /\ Permutation l all /\ holds_sites 3 (scaled k (g_matrix P)) everywhere s l) /\
  (~ no_collision 3 (scaled k (g_matrix P)) everywhere all -> build RA b (SzTuple k) = Err AssertionError).
Proof. exact C66_supercell_lemma. Qed.
Print Assumptions C66_supercell.
Example C66_supercell_example : crystal zro /\ length [2; 1; 3] = 3%nat /\ Forall (fun a => 0 < a) [2; 1; 3].
Proof. split; [exact zro_crystal|]. split; [reflexivity|]. repeat constructor. Qed.

(** C66. Back in pymatgen every site has its class as species and the fractional coordinates of its location; all directions are periodic. *)
Theorem C66_to_pymatgen : forall vs per L s species, lattice_on 3 vs per L -> built RA L s ->
  (forall x, In x (sites s None) -> species (s_class x) = Ok (s_class x)) ->
  exists P, to_pymatgen_structure RA species s = Ok P /\ g_matrix P = vs /\ g_pbc P = everywhere /\
    Forall2 (fun x a => fst a = s_class x /\ coords 3 vs (snd a) (s_loc x)) (sites s None) (g_sites P).
Proof. exact C66_to_pymatgen_lemma. Qed.
Print Assumptions C66_to_pymatgen.
Example C66_to_pymatgen_example : let L := mkLattice cube everywhere cube 3 in let s := fst (adds RA (struct_init L) [("Zr"%string, [0; 0; 0]%R)]) in
  lattice_on 3 cube everywhere L /\ built RA L s.
Proof.
  split; [|eexists; reflexivity].
  apply LatticeFacts.lattice_on_intro; [lia|exact cube_basis|reflexivity].
Qed.

(** C66. There and back: the same lattice and species, positions moved by at most 0.0005 per Cartesian coordinate (up to lattice translations). *)
Theorem C66_round_trip : forall P species, crystal P -> no_collision 3 (g_matrix P) everywhere (atoms P) ->
  (forall sp f, In (sp, f) (g_sites P) -> species sp = Ok sp) ->
  exists s st Q l, to_pylattica_structure_and_state RA P = Ok (s, st) /\ to_pymatgen_structure RA species s = Ok Q /\
    g_matrix Q = g_matrix P /\ g_pbc Q = everywhere /\ Permutation l (atoms P) /\
    Forall2 (fun a b => fst b = fst a /\ exists q, periodised 3 (g_matrix P) everywhere (snd a) q /\ near q (snd b)) l (atoms Q).
Proof. exact C66_round_trip_lemma. Qed.
Print Assumptions C66_round_trip.
Example C66_round_trip_example : exists s st Q, to_pylattica_structure_and_state RA zro = Ok (s, st) /\ to_pymatgen_structure RA (fun c => Ok c) s = Ok Q /\ length (g_sites Q) = 2%nat.
Proof.
  destruct (C66_round_trip_lemma zro (fun c => Ok c) zro_crystal zro_apart) as (s & st & Q & l & E1 & E2 & _ & _ & PM & F); [reflexivity|].
  exists s, st, Q. split; auto. split; auto. apply Permutation_length in PM. cbn in PM.
  assert (E : length l = length (atoms Q)) by (clear -F; induction F; simpl; auto). unfold atoms in E. rewrite map_length in E. congruence.
Qed.

(** C73, part: the vectors are kept, and the whole lattice when it is periodic in every direction. Missing: other periodicities (refuted below). *)
Theorem C73_lattice_partial : forall vs per L, lattice_on 3 vs per L ->
  exists M L', to_pymatgen_lattice L = Ok M /\ to_pylattica_lattice (mkPmg M everywhere []) = Ok L' /\
    l_vecs L' = vs /\ l_matrix L' = vs /\ l_periodic L' = everywhere /\ (per = everywhere -> L' = L).
Proof. exact C73_lattice_lemma. Qed.
Print Assumptions C73_lattice_partial.
Example C73_example : lattice_on 3 cube everywhere (mkLattice cube everywhere cube 3).
Proof. split; [exact cube_basis|]. split; [reflexivity|]. exists (PBool true). split; reflexivity. Qed.

(** C73 is false: periodicity flags are lost. *)
Theorem C73_lattice_refuted : exists vs per L M L', lattice_on 3 vs per L /\ to_pymatgen_lattice L = Ok M /\
  to_pylattica_lattice (mkPmg M everywhere []) = Ok L' /\ l_periodic L' <> l_periodic L.
Proof. exact C73_refuted_lemma. Qed.
Print Assumptions C73_lattice_refuted.

(** C73. Structures that are not three-dimensional are refused with ValueError. *)
Theorem C73_dimension : forall n vs per L s species, n <> 3%nat -> lattice_on n vs per L -> built RA L s ->
  to_pymatgen_structure RA species s = Err ValueError.
Proof. exact C73_dimension_lemma. Qed.
Print Assumptions C73_dimension.
Example C73_dimension_example : 1%nat <> 3%nat /\ lattice_on 1 line [false] open_line /\ built RA open_line two.
Proof. split; [discriminate|]. split; [exact open_on|exact two_built]. Qed.
