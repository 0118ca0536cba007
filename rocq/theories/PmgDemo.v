(** A crystal for the examples. *)
From Coq Require Import Reals Lra Permutation.
From Verif Require Import Prelude Arith RVec RealArith LatticeModel StructModel SpecGeom SpecNb LatticeFacts LatticeMore StructMore StructBuild PmgModel SpecPmg PmgFacts.
Local Open Scope R_scope.

Definition cube : list vec := [[1; 0; 0]; [0; 1; 0]; [0; 0; 1]].
Definition zro : pmg_struct R :=
  mkPmg cube everywhere [("Zr"%string, [1/4; 1/4; 1/4]); ("O"%string, [3/4; 1/4; 3/4])].

Lemma cube_comb a b c : lincomb 3 [a; b; c] cube = [a; b; c].
Proof. unfold lincomb, cube, vplus, vscale, vzero; simpl. repeat f_equal; ring. Qed.

Lemma cube_basis : basis 3 cube.
Proof.
  split; [reflexivity|]. split; [repeat constructor|].
  intros [|a [|b [|c [|]]]] L E; try discriminate. rewrite cube_comb in E. exact E.
Qed.

Lemma cube_in a b c : 0 <= a < 1 -> 0 <= b < 1 -> 0 <= c < 1 -> periodised 3 cube everywhere [a; b; c] [a; b; c].
Proof.
  intros. split.
  - exists [0; 0; 0]%Z. split; [repeat constructor; discriminate|]. cbn [map]. rewrite cube_comb. unfold vplus; simpl. repeat f_equal; ring.
  - exists [a; b; c]. split; [split; [reflexivity|apply cube_comb]|]. do 3 (constructor; [intros _; assumption|]). constructor.
Qed.

Lemma zro_crystal : crystal zro.
Proof. split; [exact cube_basis|repeat constructor]. Qed.

Lemma zro_apart : no_collision 3 (g_matrix zro) everywhere (atoms zro).
Proof.
  unfold atoms. cbn [zro g_sites g_matrix map fst snd]. rewrite !cube_comb.
  destruct (crystal_lattice zro zro_crystal) as (L & _ & HL).
  eapply (no_collision_2 3 cube everywhere L); [exact HL|reflexivity|reflexivity|apply cube_in; lra|apply cube_in; lra|].
  unfold place. cbn [map]. intros E. injection E as E _.
  rewrite (milli 251), (milli 751) in E by (apply Rabs_def1; lra). lra.
Qed.
