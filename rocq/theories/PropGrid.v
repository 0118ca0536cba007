(** Properties C41, C67, C87 and the second half of C42: square grids. *)
From Coq Require Import Reals Lra Permutation.
From Verif Require Import Prelude Dict Arith RVec RealArith LatticeModel StructModel NbModel GridModel SpecGeom SpecNb SpecGrid LatticeFacts GridOpen GridNb GridPoints NbShapes GridMore.
Local Open Scope Z_scope.

(** C67. Every positive 2D or 3D size builds. *)
Theorem C67_build : forall size, Forall (fun k => 0 < k) size -> length size = 2%nat \/ length size = 3%nat ->
  exists s, square_grid size s.
Proof. exact C67_exists_lemma. Qed.
Print Assumptions C67_build.
Example C67_example : exists s, square_grid [3; 5] s.
Proof. apply C67_exists_lemma; [repeat constructor; lia|auto]. Qed.

(** C67. The grid is the discrete torus: one cell per integer point modulo the extents. *)
Theorem C67_grid : forall size s, square_grid size s ->
  Z.of_nat (length (sites s None)) = fold_right Z.mul 1 size /\
  (forall p, length p = length size -> exists i, cell s p i) /\
  (forall p q i j, length p = length size -> length q = length size -> cell s p i -> cell s q j ->
     (i = j <-> same_cell (extents size) p q)) /\
  (forall i x, get_site s i = Some x -> exists p, length p = length size /\
     Forall2 (fun a m => 0 <= a < m) p (extents size) /\ s_loc x = at_ p /\ cell s p i /\ s_class x = "_A"%string) /\
  (forall p i, length p = length size -> cell s p i -> get_site s i <> None).
Proof. exact C67_lemma. Qed.
Print Assumptions C67_grid.
Example C67_same_example : same_cell (extents [3; 5]) [4; 1] [-1; 7].
Proof.
  split; [reflexivity|]. split; [reflexivity|].
  intros [|[|k]] m a b Hm Ha Hb; simpl in *; try congruence; [exists 1|exists (-2)|destruct k; discriminate]; injection Hm as <-; injection Ha as <-; injection Hb as <-; reflexivity.
Qed.

(** C67. What lies at an arbitrary point: the cell of the integer point next to it (nearer than 1/2000, and not below it where that point is a multiple of the extent); no site farther than 1/2000 from every integer; and no site just below a multiple of the extent. *)
Theorem C67_points : forall size s q, square_grid size s -> length q = length size ->
  (forall p i, length p = length size -> cell s p i ->
     (forall k x a m, nth_error q k = Some x -> nth_error p k = Some a -> nth_error (extents size) k = Some m ->
        (Rabs (x - IZR a) < 1/2000)%R /\ ((m | a) -> (IZR a <= x)%R)) ->
     id_at RA s q = Ok (Some i)) /\
  (forall k x, nth_error q k = Some x -> (forall a, (1/2000 < Rabs (x - IZR a))%R) -> id_at RA s q = Ok None) /\
  (forall k x a m, nth_error q k = Some x -> nth_error (extents size) k = Some m -> (m | a) -> (IZR a - 1/2000 <= x < IZR a)%R ->
     id_at RA s q = Ok None).
Proof. exact C67_points_lemma. Qed.
Print Assumptions C67_points.
Example C67_points_example : exists s, square_grid [3; 5] s /\ id_at RA s [(4 + 1/4000)%R; (-1)%R] = id_at RA s [4%R; 2%R] /\ id_at RA s [(5 - 1/4000)%R; 0%R] = Ok None /\ id_at RA s [(1/2)%R; 0%R] = Ok None.
Proof.
  destruct (C67_exists_lemma [3; 5]) as [s SG]; [repeat constructor; lia|auto|]. exists s. split; [exact SG|]. split; [|split].
  - destruct (C67_lemma [3; 5] s SG) as (_ & C & _ & _). destruct (C [4; -1] eq_refl) as [i Ci]. destruct (C [4; 2] eq_refl) as [j Cj].
    assert (E : i = j).
    { destruct (C67_lemma [3; 5] s SG) as (_ & _ & S & _). apply (S [4; -1] [4; 2] i j eq_refl eq_refl Ci Cj). split; [reflexivity|]. split; [reflexivity|].
      intros [|[|k]] m a b Hm Ha Hb; simpl in *; try congruence; [exists 0|exists (-1)|destruct k; discriminate]; injection Hm as <-; injection Ha as <-; injection Hb as <-; reflexivity. }
    subst j. transitivity (Ok (A := option Z) (Some i)).
    + apply (proj1 (C67_points_lemma [3; 5] s [(4 + 1/4000)%R; (-1)%R] SG eq_refl) [4; -1] i eq_refl Ci). intros [|[|k]] x a m Hx Ha Hm; simpl in *; try congruence; [| |destruct k; discriminate]; injection Hx as <-; injection Ha as <-; injection Hm as <-; (split; [apply Rabs_def1; lra|intros [z Hz]; try lra; exfalso; lia]).
    + symmetry. apply (proj1 (C67_points_lemma [3; 5] s [4%R; 2%R] SG eq_refl) [4; 2] i eq_refl Cj). intros [|[|k]] x a m Hx Ha Hm; simpl in *; try congruence; [| |destruct k; discriminate]; injection Hx as <-; injection Ha as <-; injection Hm as <-; (split; [apply Rabs_def1; lra|intros [z Hz]; try lra; exfalso; lia]).
  - destruct (C67_points_lemma [3; 5] s [(5 - 1/4000)%R; 0%R] SG eq_refl) as (_ & _ & K). apply (K 0%nat (5 - 1/4000)%R 5 5 eq_refl eq_refl (Z.divide_refl 5)). lra.
  - destruct (C67_points_lemma [3; 5] s [(1/2)%R; 0%R] SG eq_refl) as (_ & K & _). apply (K 0%nat (1/2)%R eq_refl). intros a.
    assert (D : (a <= 0)%Z \/ (1 <= a)%Z) by lia. destruct D as [D|D]; apply IZR_le in D; unfold Rabs; destruct (Rcase_abs _); lra.
Qed.

(** C41. Moore neighbourhoods of every radius on every grid, with the count. *)
Theorem C41_moore : forall size s r, square_grid size s ->
  exists b N, MooreNbHoodBuilder RA r (length size) = Ok b /\ nb_get RA b s None = Ok N /\
    torus_nb size s (within_moore r) N /\
    (0 <= r -> Forall (fun m => 2 * r + 1 <= m) size -> forall i x o l, get_site s i = Some x -> legal o -> neighbors_of o N i = Ok l ->
       Z.of_nat (length l) = (2 * r + 1) ^ Z.of_nat (length size) - 1).
Proof. exact C41_moore_lemma. Qed.
Print Assumptions C41_moore.
Example C41_moore_example : (2 * 2 + 1) ^ Z.of_nat (length [5; 7; 6]) - 1 = 124 /\ Forall (fun m => 2 * 2 + 1 <= m) [5; 7; 6].
Proof. split; [reflexivity|repeat constructor; lia]. Qed.

(** C41. Von Neumann neighbourhoods in 2D and 3D, with the counts (2D: 2r(r+1); 3D: octahedral numbers less 1). *)
Theorem C41_von_neumann : forall size s r, square_grid size s ->
  (length size = 2%nat -> exists b N, VonNeumannNbHood2DBuilder RA r = Ok b /\ nb_get RA b s None = Ok N /\
    torus_nb size s (within_vn r) N /\
    (0 <= r -> Forall (fun m => 2 * r + 1 <= m) size -> forall i x o l, get_site s i = Some x -> legal o -> neighbors_of o N i = Ok l ->
       Z.of_nat (length l) = 2 * r * (r + 1))) /\
  (length size = 3%nat -> exists b N, VonNeumannNbHood3DBuilder RA r = Ok b /\ nb_get RA b s None = Ok N /\
    torus_nb size s (within_vn r) N /\
    (0 <= r -> Forall (fun m => 2 * r + 1 <= m) size -> forall i x o l, get_site s i = Some x -> legal o -> neighbors_of o N i = Ok l ->
       3 * Z.of_nat (length l) = (2 * r + 1) * (2 * r * r + 2 * r + 3) - 3)).
Proof. exact C41_von_neumann_lemma. Qed.
Print Assumptions C41_von_neumann.
Example C41_von_neumann_example : (exists s, square_grid [5; 7] s) /\ (exists s, square_grid [5; 7; 6] s) /\ Forall (fun m => 2 * 2 + 1 <= m) [5; 7; 6] /\
  2 * 2 * (2 + 1) = 12 /\ (2 * 2 + 1) * (2 * 2 * 2 + 2 * 2 + 3) - 3 = 3 * 24.
Proof. split; [apply C67_exists_lemma; [repeat constructor; lia|auto]|]. split; [apply C67_exists_lemma; [repeat constructor; lia|auto]|]. split; [repeat constructor; lia|split; reflexivity]. Qed.

(** C41. Symmetry and translation invariance. *)
Theorem C41_symmetric : forall size s r b N o, square_grid size s -> grid_builder size r b -> nb_get RA b s None = Ok N -> legal o ->
  (forall i j l l', get_site s i <> None -> get_site s j <> None -> neighbors_of o N i = Ok l -> neighbors_of o N j = Ok l' ->
     (In j l <-> In i l')) /\
  (forall p q t i j i' j' l l', length p = length size -> length q = length size -> length t = length size ->
     cell s p i -> cell s q j -> cell s (shift p t) i' -> cell s (shift q t) j' ->
     neighbors_of o N i = Ok l -> neighbors_of o N i' = Ok l' -> (In j l <-> In j' l')).
Proof. exact C41_symmetric_lemma. Qed.
Print Assumptions C41_symmetric.
Example C41_symmetric_example : exists s b N, square_grid [5; 7] s /\ grid_builder [5; 7] 2 b /\ nb_get RA b s None = Ok N.
Proof.
  destruct (C67_exists_lemma [5; 7]) as [s SG]; [repeat constructor; lia|auto|]. destruct (C41_von_neumann_lemma [5; 7] s 2 SG) as [H _]. destruct (H eq_refl) as (b & N & E1 & E2 & _).
  exists s, b, N. split; [exact SG|]. split; [|exact E2]. unfold grid_builder. auto.
Qed.

(** C42. The pseudo-hexagonal and pseudo-pentagonal neighbourhoods have 6, 8 and 5 distinct neighbours for every choice. *)
Theorem C42_counts : forall size s, square_grid size s -> Forall (fun m => 3 <= m) size ->
  (length size = 2%nat ->
     (exists b N, PseudoHexagonalNeighborhoodBuilder2D RA = Ok b /\ nb_get RA b s None = Ok N /\
        forall i x o, get_site s i = Some x -> legal o -> exists l, neighbors_of o N i = Ok l /\ NoDup l /\ length l = 6%nat) /\
     (exists b N, PseudoPentagonalNeighborhoodBuilder RA = Ok b /\ nb_get RA b s None = Ok N /\
        forall i x o, get_site s i = Some x -> legal o -> exists l, neighbors_of o N i = Ok l /\ NoDup l /\ length l = 5%nat)) /\
  (length size = 3%nat ->
     exists b N, PseudoHexagonalNeighborhoodBuilder3D RA = Ok b /\ nb_get RA b s None = Ok N /\
        forall i x o, get_site s i = Some x -> legal o -> exists l, neighbors_of o N i = Ok l /\ NoDup l /\ length l = 8%nat).
Proof. exact C42_counts_lemma. Qed.
Print Assumptions C42_counts.
Example C42_counts_example : (exists s, square_grid [3; 4] s) /\ (exists s, square_grid [3; 4; 5] s) /\ Forall (fun m => 3 <= m) [3; 4; 5].
Proof. split; [apply C67_exists_lemma; [repeat constructor; lia|auto]|]. split; [apply C67_exists_lemma; [repeat constructor; lia|auto]|]. repeat constructor; lia. Qed.

(** C42. Their shapes, on grids of every size: the axis neighbours and the two ends of one diagonal; the half of the Moore neighbourhood facing one axis direction. The draw is the same for every cell under one choice, and every diagonal and direction can be drawn. *)
Theorem C42_shapes : forall size s, square_grid size s ->
  (length size = 2%nat ->
     (exists b N, PseudoHexagonalNeighborhoodBuilder2D RA = Ok b /\ nb_get RA b s None = Ok N /\ draws_shape size s (diagonal_of 2) hexagonal N) /\
     (exists b N, PseudoPentagonalNeighborhoodBuilder RA = Ok b /\ nb_get RA b s None = Ok N /\ draws_shape size s (direction_of 2) half_moore N)) /\
  (length size = 3%nat ->
     exists b N, PseudoHexagonalNeighborhoodBuilder3D RA = Ok b /\ nb_get RA b s None = Ok N /\ draws_shape size s (diagonal_of 3) hexagonal N).
Proof. exact C42_shapes_lemma. Qed.
Print Assumptions C42_shapes.
Example C42_shapes_example : diagonal_of 2 [-1; 1] /\ hexagonal [-1; 1] [1; -1] /\ ~ hexagonal [-1; 1] [1; 1] /\
  direction_of 2 [1; 0] /\ half_moore [1; 0] [0; -1] /\ ~ half_moore [1; 0] [-1; 0].
Proof.
  split; [repeat constructor|]. split; [right; right; reflexivity|]. split; [intros [H|[H|H]]; [unfold within_vn in H; simpl in H; lia|discriminate|discriminate]|].
  split; [repeat constructor|]. split; [split; [repeat constructor; simpl; lia|simpl; lia]|]. intros [_ H]. simpl in H. lia.
Qed.

(** C87. Distance and annular neighbourhoods on square lattices with periodic and open sides. *)
Theorem C87_cutoffs : forall n per L k p, lattice_on n (axes n) per L -> length k = n -> Forall (fun a => 0 < a) k -> milli_position n p ->
  exists s, build_from RA L k (MList [p]) false = Ok s /\ Z.of_nat (length (sites s None)) = fold_right Z.mul 1 k /\
    (forall i x, get_site s i = Some x -> exists c, Forall2 (fun a m => 0 <= a < m) c k /\ site_in s p c i) /\
    (forall c, Forall2 (fun a m => 0 <= a < m) c k -> exists i, site_in s p c i) /\
    (forall c c' i, length c = n -> length c' = n -> site_in s p c i -> site_in s p c' i -> c = c') /\
    (forall K t, (round3 (sqrt (IZR K)) < t <= round3 (sqrt (IZR (K + 1))))%R ->
       exists N, nb_get RA (BDistance t) s None = Ok N /\ forall c i, length c = n -> site_in s p c i ->
         neighbours N i (fun j => j <> i /\ exists c' d, site_in s p c' j /\ reaches per k c d c' /\ sq d <= K)) /\
    (forall K1 K2 t1 t2, (round3 (sqrt (IZR K1)) <= t1 < round3 (sqrt (IZR (K1 + 1))))%R -> (round3 (sqrt (IZR K2)) < t2 <= round3 (sqrt (IZR (K2 + 1))))%R ->
       exists N, nb_get RA (BAnnular t1 t2) s None = Ok N /\ forall c i, length c = n -> site_in s p c i ->
         neighbours N i (fun j => j <> i /\ exists c', site_in s p c' j /\ (exists d, reaches per k c d c' /\ sq d <= K2) /\ forall d, reaches per k c d c' -> K1 < sq d)).
Proof. exact C87_lemma. Qed.
Print Assumptions C87_cutoffs.
Example C87_example : (exists L, lattice_on 2 (axes 2) [false; true] L) /\ milli_position 2 [1/2; 1/2]%R /\
  reaches [false; true] [3; 3] [0; 2] [0; 1] [0; 0] /\ ~ reaches [false; true] [3; 3] [2; 0] [1; 0] [0; 0].
Proof.
  split; [|split; [|split]].
  - eexists. apply lattice_on_intro; [lia|apply axes_basis|reflexivity].
  - split; [reflexivity|]. repeat constructor; exists 500; (split; [lia|lra]).
  - apply reaches_cons. split; [reflexivity|]. apply reaches_cons. split; [exists 1; reflexivity|]. repeat split. intros [|a]; discriminate.
  - intros H. apply reaches_cons in H as [H _]. discriminate.
Qed.

(** C87. In two dimensions: cutoffs up to 1.414 give von Neumann, cutoffs up to 2 give Moore neighbourhoods. *)
Theorem C87_guide : forall per L k p s, lattice_on 2 (axes 2) per L -> length k = 2%nat -> Forall (fun a => 0 < a) k -> milli_position 2 p ->
  build_from RA L k (MList [p]) false = Ok s ->
  (forall t, (1 < t <= 1414 / 1000)%R -> exists N, nb_get RA (BDistance t) s None = Ok N /\ forall c i, length c = 2%nat -> site_in s p c i ->
     neighbours N i (fun j => j <> i /\ exists c' d, site_in s p c' j /\ reaches per k c d c' /\ within_vn 1 d)) /\
  (forall t, (1414 / 1000 < t <= 2)%R -> exists N, nb_get RA (BDistance t) s None = Ok N /\ forall c i, length c = 2%nat -> site_in s p c i ->
     neighbours N i (fun j => j <> i /\ exists c' d, site_in s p c' j /\ reaches per k c d c' /\ within_moore 1 d)).
Proof. exact C87_guide_lemma. Qed.
Print Assumptions C87_guide.
Example C87_guide_example : (exists L, lattice_on 2 (axes 2) [true; true] L) /\ milli_position 2 [1/4; 1/2]%R /\ (1 < 11/10 <= 1414/1000)%R /\ (1414/1000 < 3/2 <= 2)%R.
Proof.
  split; [eexists; apply lattice_on_intro; [lia|apply axes_basis|reflexivity]|]. split; [|lra].
  split; [reflexivity|]. constructor; [exists 250; split; [lia|lra]|constructor; [exists 500; split; [lia|lra]|constructor]].
Qed.
