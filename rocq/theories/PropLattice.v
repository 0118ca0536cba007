(** Properties C23-C27 and C77: lattices, over the real numbers. *)
From Coq Require Import Reals Lra.
From Verif Require Import Prelude Arith RVec RealArith LatticeModel SpecGeom SpecWide LatticeFacts LatticeMore MalformedLat LatticeOblique LatticeNear.
Open Scope R_scope.

(** C23. Fractional and Cartesian coordinates convert back and forth, in every dimension. *)
Theorem C23_coordinates : forall n vs per L, lattice_on n vs per L ->
  (forall p, length p = n -> exists f,
     get_fractional_coords RA L p = Ok f /\ coords n vs f p /\ get_cartesian_coords RA L f = Ok p) /\
  (forall f, length f = n -> exists p,
     get_cartesian_coords RA L f = Ok p /\ coords n vs f p /\ get_fractional_coords RA L p = Ok f).
Proof. exact C23_lemma. Qed.
Print Assumptions C23_coordinates.
Example C23_example : lattice_on 2 [[8; 0]; [7; 20]] [true; true] (mkLattice oblique [true; true] oblique 2) /\
  coords 2 [[8; 0]; [7; 20]] [4/10; 4/10] [6; 8].
Proof. split; [exact oblique_on|]. split; [reflexivity|]. unfold lincomb, vplus, vscale, vzero; simpl. repeat f_equal; field. Qed.

(** C23. The constructor accepts every list of n independent vectors, with one flag or n flags. *)
Theorem C23_constructor : forall n vs p, (0 < n)%nat -> basis n vs -> length (flags n p) = n ->
  exists L, lattice_init vs p = Ok L /\ lattice_on n vs (flags n p) L /\ l_dim L = n.
Proof. exact C23_exists_lemma. Qed.
Print Assumptions C23_constructor.
Example C23_constructor_example : basis 2 [[8; 0]; [7; 20]] /\ length (flags 2 (PBool true)) = 2%nat.
Proof. split; [apply oblique_on|reflexivity]. Qed.

(** C23, complement. Which lists of vectors the constructor accepts: not ragged ones, not the empty one, and of m vectors with w entries exactly those with m * w a square number; so it accepts some lists of vectors that are no basis, such as one vector with four entries. *)
Theorem C23_accepted : forall F (vecs : list (list F)) p,
  (forall u v, In u vecs -> In v vecs -> length u <> length v -> lattice_init vecs p = Err ValueError) /\
  (vecs = [] -> lattice_init vecs p = Err IndexError) /\
  (forall m w, (0 < m)%nat -> length vecs = m -> (forall v, In v vecs -> length v = w) ->
     (forall d, (m * w = d * d)%nat -> exists L, lattice_init vecs p = Ok L /\ l_dim L = w /\ length (l_matrix L) = d) /\
     ((forall d, (m * w <> d * d)%nat) -> lattice_init vecs p = Err ValueError)).
Proof. exact C23_accepted_lemma. Qed.
Print Assumptions C23_accepted.
Example C23_accepted_example : lattice_init [[1; 2]; [3]] (PBool true) = Err ValueError /\ (exists L, lattice_init [[1; 2; 3; 4]] (PBool true) = Ok L /\ l_dim L = 4%nat /\ length (l_matrix L) = 2%nat) /\
  lattice_init [[1; 2; 3]; [4; 5; 6]] (PBool true) = Err ValueError.
Proof. split; [reflexivity|]. split; [eexists; split; [reflexivity|split; reflexivity]|reflexivity]. Qed.

(** C23, complement. Dependent vectors are accepted by the constructor, but every conversion to fractional coordinates raises. *)
Theorem C23_dependent_vectors : forall n vs p L q, (0 < n)%nat -> length vs = n -> widths n vs -> ~ independent n vs ->
  lattice_init vs p = Ok L -> get_fractional_coords RA L q = Err LinAlgError.
Proof. exact C23_singular_lemma. Qed.
Print Assumptions C23_dependent_vectors.
Example C23_dependent_example : ~ independent 2 [[1; 2]; [2; 4]].
Proof.
  intros I. specialize (I [2; -1] eq_refl). assert (E : lincomb 2 [2; -1] [[1; 2]; [2; 4]] = vzero 2).
  { unfold lincomb, vplus, vscale, vzero; simpl. repeat f_equal; ring. }
  apply I in E. unfold vzero in E; simpl in E. injection E; lra.
Qed.

(** C24. Periodising: whole periods added, into the cell along periodic directions, unchanged along the others, idempotent, one result per class of images. *)
Theorem C24_periodise : forall n vs per L p, lattice_on n vs per L -> length p = n ->
  exists q, get_periodized_cartesian_coords RA L p = Ok q /\
    (exists z, whole per z /\ q = vplus p (lincomb n (map IZR z) vs)) /\
    (exists f g, coords n vs f p /\ coords n vs g q /\
       forall i b x y, nth_error per i = Some b -> nth_error f i = Some x -> nth_error g i = Some y ->
         if b then 0 <= y < 1 else y = x) /\
    get_periodized_cartesian_coords RA L q = Ok q /\
    (forall p', length p' = n ->
       (get_periodized_cartesian_coords RA L p' = Ok q <-> image n vs per p p')).
Proof. exact C24_lemma. Qed.
Print Assumptions C24_periodise.
Example C24_example : whole [true; false] [3%Z; 0%Z] /\ image 2 [[8; 0]; [7; 20]] [true; false] [1; 1] [25; 1].
Proof.
  assert (W : whole [true; false] [3%Z; 0%Z]) by (repeat constructor; discriminate). split; [exact W|].
  exists [3%Z; 0%Z]. split; [exact W|]. unfold lincomb, vplus, vscale, vzero; simpl. repeat f_equal; ring.
Qed.

(** C25. Periodic distance: symmetric, not negative, 0 between images, image-invariant on orthogonal lattices. *)
Theorem C25_distance : forall n vs per L p q, lattice_on n vs per L -> length p = n -> length q = n ->
  exists d, cartesian_periodic_distance RA L p q = Ok d /\ cartesian_periodic_distance RA L q p = Ok d /\
    0 <= d /\ (image n vs per p q -> d = 0) /\
    (orthogonal vs -> forall p' q', image n vs per p p' -> image n vs per q q' ->
       cartesian_periodic_distance RA L p' q' = Ok d).
Proof. exact C25_lemma. Qed.
Print Assumptions C25_distance.
Example C25_example : orthogonal [[0; 3]; [5; 0]].
Proof.
  intros [|[|i]] [|[|j]] u v D Hu Hv; simpl in Hu, Hv; try congruence; try (destruct i; discriminate); try (destruct j; discriminate);
    injection Hu as <-; injection Hv as <-; unfold vdot; simpl; ring.
Qed.

(** C26, part: where every periodic lattice vector is perpendicular to all others the distance is the minimum over all images.  Missing: other lattices (refuted below, for every one with two oblique periodic vectors). *)
Theorem C26_minimum_orthogonal_partial : forall n vs per L p q, lattice_on n vs per L -> periods_orthogonal per vs ->
  length p = n -> length q = n ->
  exists q', image n vs per q q' /\
    cartesian_periodic_distance RA L p q = Ok (round3 (vlength (vminus p q'))) /\
    forall q'', image n vs per q q'' -> vlength (vminus p q') <= vlength (vminus p q'').
Proof. exact C26_periods_lemma. Qed.
Print Assumptions C26_minimum_orthogonal_partial.
Example C26_open_example : periods_orthogonal [true; false; false] [[0; 0; 2]; [8; 0; 0]; [7; 20; 0]].
Proof.
  intros [|[|[|i]]] [|[|[|j]]] u v D P Hu Hv; simpl in P, Hu, Hv; try congruence; try (destruct i; discriminate); try (destruct j; discriminate);
    injection Hu as <-; injection Hv as <-; unfold vdot; simpl; ring.
Qed.

(** C26, part: on every lattice the distance is the distance to some image, hence never below the minimum. *)
Theorem C26_attained_partial : forall n vs per L p q, lattice_on n vs per L -> length p = n -> length q = n ->
  exists q', image n vs per q q' /\ cartesian_periodic_distance RA L p q = Ok (round3 (vlength (vminus p q'))).
Proof. exact C26_upper_lemma. Qed.
Print Assumptions C26_attained_partial.
Example C26_attained_example : lattice_on 2 [[8; 0]; [7; 20]] [true; true] (mkLattice oblique [true; true] oblique 2) /\ length [1; 2] = 2%nat /\ length [30; -4] = 2%nat.
Proof. split; [exact oblique_on|split; reflexivity]. Qed.

(** C26, part: on every lattice, oblique or not, an image nearer than half the width of the cell is the nearest one and its distance is returned.  Missing: larger distances on oblique lattices (refuted below). *)
Theorem C26_near_partial : forall n vs per L w p q q'', lattice_on n vs per L -> wide n vs per w -> length p = n -> length q = n ->
  image n vs per q q'' -> vlength (vminus p q'') < w / 2 ->
  cartesian_periodic_distance RA L p q = Ok (round3 (vlength (vminus p q''))) /\
  forall q', image n vs per q q' -> vlength (vminus p q'') <= vlength (vminus p q').
Proof. exact C26_near_lemma. Qed.
Print Assumptions C26_near_partial.
Example C26_near_example : wide 2 [[1; 0]; [1/2; sqrt 3 / 2]] [true; true] (sqrt 3 / 2) /\ image 2 [[1; 0]; [1/2; sqrt 3 / 2]] [true; true] [9/10; 0] [-1/10; 0] /\
  vlength (vminus [0; 0] [-1/10; 0]) < (sqrt 3 / 2) / 2.
Proof.
  split; [exact hex_wide|]. split.
  - exists [(-1)%Z; 0%Z]. split; [repeat constructor; discriminate|]. unfold lincomb, vplus, vscale, vzero; simpl. f_equal; [field|f_equal; field].
  - assert (1 <= sqrt 3) by (rewrite <- sqrt_1; apply sqrt_le_1_alt; lra).
    unfold vlength, vminus, vdot; simpl. replace (_ + _) with (1/10 * (1/10)) by field. rewrite sqrt_square; lra.
Qed.

(** C26. Every lattice has a cell of some positive width: close enough points have the right distance on every lattice. *)
Theorem C26_width : forall n vs per, basis n vs -> exists w, 0 < w /\ wide n vs per w.
Proof. exact C26_width_lemma. Qed.
Print Assumptions C26_width.
Example C26_width_example : basis 2 [[8; 0]; [7; 20]].
Proof. apply oblique_on. Qed.

(** C26 is false on oblique lattices: another image is nearer. *)
Theorem C26_minimum_refuted : exists n vs per L p q q'' d, lattice_on n vs per L /\ length p = n /\ length q = n /\
  image n vs per q q'' /\ cartesian_periodic_distance RA L p q = Ok d /\ round3 (vlength (vminus p q'')) < d.
Proof. exact C26_refuted_lemma. Qed.
Print Assumptions C26_minimum_refuted.

(** C26 is false on every lattice with two periodic vectors that are not perpendicular (unless all is so small that the rounding to 3 decimals hides it). *)
Theorem C26_oblique_refuted : forall n vs per L i j u v, lattice_on n vs per L -> oblique_pair per vs i j u v ->
  exists p q q'' d, length p = n /\ length q = n /\ image n vs per q q'' /\
    cartesian_periodic_distance RA L p q = Ok d /\ round3 (vlength (vminus p q'')) < d.
Proof. exact C26_oblique_lemma. Qed.
Print Assumptions C26_oblique_refuted.
Example C26_oblique_example : oblique_pair [true; true] [[1; 0]; [1/2; sqrt 3 / 2]] 0 1 [1; 0] [1/2; sqrt 3 / 2].
Proof.
  assert (Q : sqrt 3 * sqrt 3 = 3) by (apply sqrt_sqrt; lra). split; [discriminate|]. repeat (split; [reflexivity|]). unfold vlength, vdot.
  replace (1 * 1 + (0 * 0 + 0)) with (1 * 1) by ring. replace (1/2 * (1/2) + (sqrt 3 / 2 * (sqrt 3 / 2) + 0)) with (1 * 1) by (unfold Rdiv; nra).
  rewrite !sqrt_square by lra. rewrite Rabs_right; lra.
Qed.

(** C26 is false on every lattice, of any scale, with a periodic vector oblique to an open one. *)
Theorem C26_mixed_refuted : forall n vs per L i j u v, lattice_on n vs per L -> nth_error per i = Some true -> nth_error per j = Some false ->
  nth_error vs i = Some u -> nth_error vs j = Some v -> vdot u v <> 0 ->
  exists p q q'' d, length p = n /\ length q = n /\ image n vs per q q'' /\
    cartesian_periodic_distance RA L p q = Ok d /\ round3 (vlength (vminus p q'')) < d.
Proof. exact C26_mixed_lemma. Qed.
Print Assumptions C26_mixed_refuted.
Example C26_mixed_example : nth_error [true; false] 0 = Some true /\ nth_error [true; false] 1 = Some false /\ vdot [1; 0] [1; 1] <> 0.
Proof. split; [reflexivity|]. split; [reflexivity|]. unfold vdot. lra. Qed.

(** C77, part: replacing points by periodic images keeps the distance if the periodic vectors are perpendicular to all others or no periodic coefficient of the difference is half way between whole numbers.  Missing: the ties on oblique lattices (refuted below). *)
Theorem C77_images_partial : forall n vs per L p q p' q', lattice_on n vs per L -> length p = n -> length q = n ->
  periods_orthogonal per vs \/ off_ties n vs per p q -> image n vs per p p' -> image n vs per q q' ->
  cartesian_periodic_distance RA L p' q' = cartesian_periodic_distance RA L p q.
Proof. exact C77_lemma. Qed.
Print Assumptions C77_images_partial.
Example C77_example : off_ties 2 [[8; 0]; [7; 20]] [true; true] [6; 8] [0; 0].
Proof.
  exists [4/10; 4/10]. split; [split; auto; unfold lincomb, vplus, vscale, vzero, vminus; simpl; f_equal; [field|f_equal; field]|].
  assert (H : forall k : Z, 4/10 <> IZR k + 1/2).
  { intros k E. assert (IZR (10 * k) = IZR (-1)) by (rewrite mult_IZR; lra). apply eq_IZR in H. lia. }
  repeat constructor; auto.
Qed.

(** C77 is false on every lattice with two oblique periodic vectors: at a tie of the rounding an image of the same point is nearer. *)
Theorem C77_images_refuted : forall n vs per L i j u v, lattice_on n vs per L -> oblique_pair per vs i j u v ->
  exists p p' q d d', length p = n /\ length q = n /\ image n vs per p p' /\
    cartesian_periodic_distance RA L p q = Ok d /\ cartesian_periodic_distance RA L p' q = Ok d' /\ d' < d.
Proof. exact C77_oblique_lemma. Qed.
Print Assumptions C77_images_refuted.

(** C27. A scaled lattice keeps the flags and identifies exactly the points differing by multiples of the scaled vectors. *)
Theorem C27_scaled : forall n vs per L k, lattice_on n vs per L -> length k = n -> Forall (fun a => a <> 0%Z) k ->
  exists L', get_scaled_lattice RA L k = Ok L' /\ lattice_on n (scaled k vs) per L' /\ l_periodic L' = per /\
    forall p q, length p = n -> length q = n ->
      (get_periodized_cartesian_coords RA L' p = get_periodized_cartesian_coords RA L' q <->
       exists z, whole per z /\ q = vplus p (lincomb n (map IZR (zipwith Z.mul z k)) vs)).
Proof. exact C27_lemma. Qed.
Print Assumptions C27_scaled.
Example C27_example : scaled [2%Z; 3%Z] [[8; 0]; [7; 20]] = [[16; 0]; [21; 60]].
Proof. unfold scaled, vscale; simpl. repeat (f_equal; try ring). Qed.
