(** Properties C37-C40, C43, C45 and the first half of C42: neighbourhoods. *)
From Coq Require Import Reals Lra Permutation.
From Verif Require Import Prelude Dict Arith RVec RealArith LatticeModel StructModel NbModel SpecGeom SpecWide SpecNb StructMore NbDemo NbMore LatticeNear AnnImages NbBuilt NbShapes NucMore LatticeMore.
Local Open Scope Z_scope.

(** C37. Distance neighbourhoods, every lattice and every structure built by the API. *)
Theorem C37_distance : forall n vs per L s cutoff cls, lattice_on n vs per L -> built RA L s ->
  exists N, nb_get RA (BDistance cutoff) s cls = Ok N /\
    forall i x, get_site s i = Some x -> in_class cls (s_class x) ->
      neighbours N i (fun j => j <> i /\ exists y d, get_site s j = Some y /\
        cartesian_periodic_distance RA L (s_loc x) (s_loc y) = Ok d /\ (d < cutoff)%R) /\
      weights N i (fun j w => exists y d, get_site s j = Some y /\
        cartesian_periodic_distance RA L (s_loc x) (s_loc y) = Ok d /\ w = Some d).
Proof. exact C37_lemma. Qed.
Print Assumptions C37_distance.
Example C37_example : lattice_on 1 [[1%R]] [false] open_line /\ built RA open_line two /\ get_site two 1 = Some (mkSite "B" [1%R] 1).
Proof. split; [exact open_on|]. split; [exact two_built|]. apply two_sites. Qed.

(** C37. In terms of periodic images: for every cutoff if the periodic vectors are perpendicular to all others, for cutoffs below half the width of the cell on every lattice, the neighbours are the other sites with an image nearer than the cutoff, weighted with the distance to their nearest image. *)
Theorem C37_images : forall n vs per L s cutoff cls, lattice_on n vs per L -> built RA L s ->
  periods_orthogonal per vs \/ (exists w, wide n vs per w /\ (cutoff + 1/2000 <= w / 2)%R) ->
  exists N, nb_get RA (BDistance cutoff) s cls = Ok N /\
    forall i x, get_site s i = Some x -> in_class cls (s_class x) ->
      neighbours N i (fun j => j <> i /\ exists y q', get_site s j = Some y /\ image n vs per (s_loc y) q' /\
        (round3 (vlength (vminus (s_loc x) q')) < cutoff)%R) /\
      weights N i (fun j d => exists y q', get_site s j = Some y /\ image n vs per (s_loc y) q' /\
        d = Some (round3 (vlength (vminus (s_loc x) q'))) /\
        forall q'', image n vs per (s_loc y) q'' -> (vlength (vminus (s_loc x) q') <= vlength (vminus (s_loc x) q''))%R).
Proof. exact C37_images_lemma. Qed.
Print Assumptions C37_images.
Example C37_images_example : exists L, lattice_on 2 [[1; 0]; [1/2; sqrt 3 / 2]]%R [true; true] L /\
  built RA L (fst (adds RA (struct_init L) [("A"%string, [0; 0]%R); ("B"%string, [9/10; 0]%R)])) /\
  exists w, wide 2 [[1; 0]; [1/2; sqrt 3 / 2]]%R [true; true] w /\ (4/10 + 1/2000 <= w / 2)%R.
Proof.
  assert (S : (17/10 <= sqrt 3)%R) by (rewrite <- (sqrt_square (17/10)) by lra; apply sqrt_le_1_alt; lra).
  destruct (C23_exists_lemma 2 [[1; 0]; [1/2; sqrt 3 / 2]]%R (PBool true)) as (L & _ & H & _); [lia|apply basis_2; lra|reflexivity|].
  exists L. split; [exact H|]. split; [eexists; reflexivity|]. exists (sqrt 3 / 2)%R. split; [exact hex_wide|lra].
Qed.

(** C37. Symmetric, and growing with the cutoff. *)
Theorem C37_symmetric : forall n vs per L s cutoff cutoff' N N' o i j l l' m, lattice_on n vs per L -> built RA L s ->
  nb_get RA (BDistance cutoff) s None = Ok N -> nb_get RA (BDistance cutoff') s None = Ok N' -> legal o ->
  get_site s i <> None -> get_site s j <> None ->
  neighbors_of o N i = Ok l -> neighbors_of o N j = Ok l' -> neighbors_of o N' i = Ok m -> 
  (In j l <-> In i l') /\ ((cutoff <= cutoff')%R -> forall k, In k l -> In k m).
Proof. exact C37_symmetric_lemma. Qed.
Print Assumptions C37_symmetric.
Example C37_symmetric_example : exists N N' l l' m, nb_get RA (BDistance 2%R) two None = Ok N /\ nb_get RA (BDistance 3%R) two None = Ok N' /\ legal plain_oracle /\
  neighbors_of plain_oracle N 0 = Ok l /\ neighbors_of plain_oracle N 1 = Ok l' /\ neighbors_of plain_oracle N' 0 = Ok m.
Proof.
  destruct (C37_lemma 1 line [false] open_line two 2%R None open_on two_built) as (N & E & H). destruct (C37_lemma 1 line [false] open_line two 3%R None open_on two_built) as (N' & E' & H').
  destruct two_sites as [G0 G1]. destruct (H _ _ G0 I) as [K0 _]. destruct (H _ _ G1 I) as [K1 _]. destruct (H' _ _ G0 I) as [K2 _].
  destruct (K0 plain_oracle plain_legal) as (l & E0 & _). destruct (K1 plain_oracle plain_legal) as (l' & E1 & _). destruct (K2 plain_oracle plain_legal) as (m & E2 & _).
  exists N, N', l, l', m. auto 7 using plain_legal.
Qed.

(** C38. Annular neighbourhoods. *)
Theorem C38_annular : forall n vs per L s inner outer cls, lattice_on n vs per L -> built RA L s ->
  exists N, nb_get RA (BAnnular inner outer) s cls = Ok N /\
    forall i x, get_site s i = Some x -> in_class cls (s_class x) ->
      neighbours N i (fun j => j <> i /\ exists y d, get_site s j = Some y /\
        cartesian_periodic_distance RA L (s_loc x) (s_loc y) = Ok d /\ (inner < d < outer)%R) /\
      weights N i (fun j w => exists y d, get_site s j = Some y /\
        cartesian_periodic_distance RA L (s_loc x) (s_loc y) = Ok d /\ w = Some d).
Proof. exact C38_lemma. Qed.
Print Assumptions C38_annular.
Example C38_example : lattice_on 1 [[1%R]] [false] open_line /\ built RA open_line two /\ get_site two 0 = Some (mkSite "A" [0%R] 0) /\ in_class (Some "A"%string) "A"%string.
Proof. split; [exact open_on|]. split; [exact two_built|]. split; [apply two_sites|reflexivity]. Qed.

(** C38. In terms of periodic images: for every cutoff if the periodic vectors are perpendicular to all others, for outer cutoffs below half the width of the cell on every lattice, the neighbours are the other sites whose nearest image lies between the cutoffs, weighted with the distance to it. *)
Theorem C38_images : forall n vs per L s inner outer cls, lattice_on n vs per L -> built RA L s ->
  periods_orthogonal per vs \/ (exists w, wide n vs per w /\ (outer + 1/2000 <= w / 2)%R) ->
  let nearest := fun p q q' => image n vs per q q' /\ forall q'', image n vs per q q'' -> (vlength (vminus p q') <= vlength (vminus p q''))%R in
  exists N, nb_get RA (BAnnular inner outer) s cls = Ok N /\
    forall i x, get_site s i = Some x -> in_class cls (s_class x) ->
      neighbours N i (fun j => j <> i /\ exists y q', get_site s j = Some y /\ nearest (s_loc x) (s_loc y) q' /\
        (inner < round3 (vlength (vminus (s_loc x) q')) < outer)%R) /\
      weights N i (fun j d => exists y q', get_site s j = Some y /\ nearest (s_loc x) (s_loc y) q' /\
        d = Some (round3 (vlength (vminus (s_loc x) q')))).
Proof. exact C38_images_lemma. Qed.
Print Assumptions C38_images.
Example C38_images_example : exists L, lattice_on 2 [[1; 0]; [1/2; sqrt 3 / 2]]%R [true; true] L /\
  built RA L (fst (adds RA (struct_init L) [("A"%string, [0; 0]%R); ("B"%string, [7/10; 0]%R); ("C"%string, [9/10; 0]%R)])) /\
  exists w, wide 2 [[1; 0]; [1/2; sqrt 3 / 2]]%R [true; true] w /\ (4/10 + 1/2000 <= w / 2)%R.
Proof.
  assert (S : (17/10 <= sqrt 3)%R) by (rewrite <- (sqrt_square (17/10)) by lra; apply sqrt_le_1_alt; lra).
  destruct (C23_exists_lemma 2 [[1; 0]; [1/2; sqrt 3 / 2]]%R (PBool true)) as (L & _ & H & _); [lia|apply basis_2; lra|reflexivity|].
  exists L. split; [exact H|]. split; [eexists; reflexivity|]. exists (sqrt 3 / 2)%R. split; [exact hex_wide|lra].
Qed.

(** C38. Symmetric, and the outer neighbourhood minus the sites within the inner radius. *)
Theorem C38_difference : forall n vs per L s inner outer N N' o i j x y d l l' m, lattice_on n vs per L -> built RA L s ->
  nb_get RA (BAnnular inner outer) s None = Ok N -> nb_get RA (BDistance outer) s None = Ok N' -> legal o ->
  get_site s i = Some x -> get_site s j = Some y -> cartesian_periodic_distance RA L (s_loc x) (s_loc y) = Ok d ->
  neighbors_of o N i = Ok l -> neighbors_of o N j = Ok l' -> neighbors_of o N' i = Ok m ->
  (In j l <-> In i l') /\ (In j l <-> In j m /\ ~ (d <= inner)%R).
Proof. exact C38_difference_lemma. Qed.
Print Assumptions C38_difference.
Example C38_difference_example : exists N N' d l l' m, nb_get RA (BAnnular 1%R 2%R) two None = Ok N /\ nb_get RA (BDistance 2%R) two None = Ok N' /\ legal plain_oracle /\
  cartesian_periodic_distance RA open_line [0%R] [1%R] = Ok d /\ neighbors_of plain_oracle N 0 = Ok l /\ neighbors_of plain_oracle N 1 = Ok l' /\ neighbors_of plain_oracle N' 0 = Ok m.
Proof.
  destruct (C38_lemma 1 line [false] open_line two 1%R 2%R None open_on two_built) as (N & E & H). destruct (C37_lemma 1 line [false] open_line two 2%R None open_on two_built) as (N' & E' & H').
  destruct two_sites as [G0 G1]. destruct (H _ _ G0 I) as [K0 _]. destruct (H _ _ G1 I) as [K1 _]. destruct (H' _ _ G0 I) as [K2 _].
  destruct (K0 plain_oracle plain_legal) as (l & E0 & _). destruct (K1 plain_oracle plain_legal) as (l' & E1 & _). destruct (K2 plain_oracle plain_legal) as (m & E2 & _).
  destruct (C25_lemma 1 line [false] open_line [0%R] [1%R] open_on eq_refl eq_refl) as (d & Ed & _).
  exists N, N', d, l, l', m. auto 9 using plain_legal.
Qed.

(** C39. Where a site is found at every offset building succeeds, and the edges carry the rounded lengths of the offsets. *)
Theorem C39_motif_distances : forall n vs per L s motif cls, lattice_on n vs per L -> built RA L s ->
  Forall (fun v => length v = n) motif ->
  (forall i x v, get_site s i = Some x -> in_class cls (s_class x) -> In v motif ->
     id_at RA s (vplus (s_loc x) v) <> Ok None) ->
  exists b N, motif_builder RA motif = Ok b /\ nb_get RA b s cls = Ok N /\
    forall i x, get_site s i = Some x -> in_class cls (s_class x) ->
      neighbours N i (fun j => j <> i /\ exists v, In v motif /\ id_at RA s (vplus (s_loc x) v) = Ok (Some j)) /\
      weights N i (fun j w => exists v, In v motif /\ id_at RA s (vplus (s_loc x) v) = Ok (Some j) /\
        w = Some (round2 (vlength v))).
Proof. exact C39_lemma. Qed.
Print Assumptions C39_motif_distances.
Example C39_example : forall i x v, get_site two i = Some x -> in_class (Some "A"%string) (s_class x) -> In v [[1%R]] ->
  id_at RA two (vplus (s_loc x) v) <> Ok None.
Proof.
  intros i x v Gx Cx [<-|[]]. apply (NbMore.built_get open_line two two_built) in Gx as [Hx _].
  apply (NbMore.sites_in open_line two two_built None) in Hx as [Hx _].
  destruct two_sites as [G0 G1]. pose proof (NbFacts.built_dense RA open_line two two_built) as D.
  assert (Ei : s_id x = 0%Z).
  { pose proof Hx as Hy. apply (NbMore.built_get open_line two two_built) in Hy as [Hy _]. pose proof (NbFacts.dense_id two x D Hy) as B.
    destruct two_adds as (s & E & I). unfold two in *. rewrite E in *. cbn [fst] in *.
    assert (length (sites s None) = 2%nat) as L2. { destruct I as (_ & _ & E3 & _). unfold sites, p_sites in *. rewrite E3. reflexivity. }
    rewrite L2 in B. assert (s_id x = 0 \/ s_id x = 1)%Z as [Z0|Z1] by lia; auto. rewrite Z1, G1 in Hx. injection Hx as <-. discriminate. }
  rewrite Ei, G0 in Hx. injection Hx as <-. cbn [s_loc]. unfold vplus; simpl. replace (0 + 1)%R with (IZR 1) by lra.
  rewrite two_at. discriminate.
Qed.

(** C39. Whenever the neighbourhood can be built, in every arithmetic (reals and binary64), it is exact; and it can only be built when every offset of every site of the class leads to a site. *)
Theorem C39_motif : forall F (A : arith F) L s motif b cls N, built A L s -> motif_builder A motif = Ok b -> nb_get A b s cls = Ok N ->
  forall i x, get_site s i = Some x -> in_class cls (s_class x) ->
    neighbours N i (fun j => j <> i /\ exists v, In v motif /\ id_at A s (zipwith (a_add A) (s_loc x) v) = Ok (Some j)) /\
    (forall v, In v motif -> exists j, id_at A s (zipwith (a_add A) (s_loc x) v) = Ok (Some j)).
Proof. exact C39_built_lemma. Qed.
Print Assumptions C39_motif.
Example C39_built_example : exists b N, motif_builder RA [[1%R]] = Ok b /\ nb_get RA b two (Some "A"%string) = Ok N.
Proof.
  destruct (C39_lemma 1 [[1%R]] [false] open_line two [[1%R]] (Some "A"%string) open_on two_built) as (b & N & E1 & E2 & _);
    [repeat constructor|exact C39_example|]. exists b, N. auto.
Qed.

(** C40. Whenever some offset of some site leads to no site, building the neighbourhood raises TypeError: the desired behaviour never occurs. *)
Theorem C40_missing_offset : forall n vs per L s motif cls i x v, lattice_on n vs per L -> built RA L s ->
  Forall (fun v => length v = n) motif ->
  get_site s i = Some x -> in_class cls (s_class x) -> In v motif -> id_at RA s (vplus (s_loc x) v) = Ok None ->
  exists b, motif_builder RA motif = Ok b /\ nb_get RA b s cls = Err TypeError.
Proof. exact C40_lemma. Qed.
Print Assumptions C40_missing_offset.
Example C40_example : get_site two 1 = Some (mkSite "B" [1%R] 1) /\ id_at RA two (vplus [1%R] [1%R]) = Ok None.
Proof. split; [apply two_sites|]. unfold vplus. simpl. replace (1 + 1)%R with (IZR 2) by lra. exact (two_at 2). Qed.

(** C40 is false: the neighbourhood cannot be built at all. *)
Theorem C40_open_boundaries_refuted : exists n vs per L s motif b, lattice_on n vs per L /\ built RA L s /\ In false per /\
  Forall (fun v => length v = n) motif /\ motif_builder RA motif = Ok b /\ nb_get RA b s None = Err TypeError.
Proof. exact C40_refuted_lemma. Qed.
Print Assumptions C40_open_boundaries_refuted.

(** C42, first half (counts and shapes: PropGrid). Every call answers with the complete list of one alternative. *)
Theorem C42_stochastic : forall F (A : arith F) s bs N o i, nb_get A (BStochastic bs) s None = Ok N -> legal o ->
  (bs = [] -> neighbors_of o N i = Err IndexError) /\
  (bs <> [] -> exists k b M, nth_error bs k = Some b /\ nb_get A b s None = Ok M /\
     neighbors_of o N i = neighbors_of o M i /\ weighted_neighbors_of o N i = weighted_neighbors_of o M i).
Proof. exact C42_lemma. Qed.
Print Assumptions C42_stochastic.
Example C42_stochastic_example : exists N, nb_get RA (BStochastic [BDistance 1%R; BDistance 2%R]) two None = Ok N.
Proof.
  destruct (C37_lemma 1 line [false] open_line two 1%R None open_on two_built) as (N & E & _). destruct (C37_lemma 1 line [false] open_line two 2%R None open_on two_built) as (N' & E' & _).
  cbn [nb_get mapM] in *. rewrite E, E'. eexists. reflexivity.
Qed.

(** C42. Every alternative is drawn by some choice. *)
Theorem C42_every : forall F (A : arith F) s bs N k b ord, nb_get A (BStochastic bs) s None = Ok N -> nth_error bs k = Some b -> (forall l, Permutation l (ord l)) ->
  exists o M, legal o /\ o_order o = ord /\ nb_get A b s None = Ok M /\
    forall i, neighbors_of o N i = neighbors_of o M i /\ weighted_neighbors_of o N i = weighted_neighbors_of o M i.
Proof. exact C42_every_lemma. Qed.
Print Assumptions C42_every.
Example C42_every_example : nth_error [BDistance 1%R; BDistance 2%R] 1 = Some (BDistance 2%R) /\ forall l : list Z, Permutation l (rev l).
Proof. split; [reflexivity|]. intros l. apply Permutation_rev. Qed.

(** C43. Class-based neighbourhoods. *)
Theorem C43_dispatch : forall F (A : arith F) L s bs N o i x, built A L s -> nb_get A (BSiteClass bs) s None = Ok N ->
  get_site s i = Some x ->
  (dget (s_class x) bs = None -> neighbors_of o N i = Ok [] /\ weighted_neighbors_of o N i = Ok []) /\
  (forall b M, dget (s_class x) bs = Some b -> nb_get A b s None = Ok M ->
     neighbors_of o N i = neighbors_of o M i /\ weighted_neighbors_of o N i = weighted_neighbors_of o M i).
Proof. exact C43_lemma. Qed.
Print Assumptions C43_dispatch.
Example C43_example : dget "B"%string [("A"%string, BDistance 2%R); ("B"%string, BAnnular 1%R 3%R)] = Some (BAnnular 1%R 3%R).
Proof. reflexivity. Qed.

(** C45. Distance maps. *)
Theorem C45_distance_map : forall locs,
  (exists d, find_distances RA (euclidean_distance RA) locs = Ok d /\
     (forall v, In v locs -> get_dist RA d v = Some (round2 (vlength v))) /\
     (forall v, ~ In v locs -> get_dist RA d v = None)) /\
  (exists d, find_distances RA (manhattan_distance RA) locs = Ok d /\
     (forall v, In v locs -> get_dist RA d v = Some (fold_right Rplus 0 (map Rabs v))%R) /\
     (forall v, ~ In v locs -> get_dist RA d v = None)).
Proof. exact C45_lemma. Qed.
Print Assumptions C45_distance_map.
Example C45_example : fold_right Rplus 0%R (map Rabs [3; -4]%R) = 7%R /\ (vlength [3; -4]%R = 5%R).
Proof.
  split; [simpl; rewrite Rabs_right, Rabs_left by lra; ring|]. unfold vlength, vdot; simpl.
  replace (3 * 3 + (-4 * -4 + 0))%R with (Rsqr 5) by (unfold Rsqr; ring). apply sqrt_Rsqr; lra.
Qed.
