(** Annular neighbourhoods in terms of periodic images (C38). *)
From Coq Require Import Reals Lra Psatz.
From Verif Require Import Prelude Dict Arith RVec RealArith LatticeModel StructModel NbModel SpecGeom SpecNb SpecWide
  LatticeFacts LatticeMore LatticeOblique StructMore NbFacts NbMore LatticeNear.
Local Open Scope R_scope.

Lemma C38_images_lemma : forall n vs per L s inner outer cls, lattice_on n vs per L -> built RA L s ->
  periods_orthogonal per vs \/ (exists w, wide n vs per w /\ (outer + 1/2000 <= w / 2)%R) ->
  let nearest := fun p q q' => image n vs per q q' /\ forall q'', image n vs per q q'' -> (vlength (vminus p q') <= vlength (vminus p q''))%R in
  exists N, nb_get RA (BAnnular inner outer) s cls = Ok N /\
    forall i x, get_site s i = Some x -> in_class cls (s_class x) ->
      neighbours N i (fun j => j <> i /\ exists y q', get_site s j = Some y /\ nearest (s_loc x) (s_loc y) q' /\
        (inner < round3 (vlength (vminus (s_loc x) q')) < outer)%R) /\
      weights N i (fun j d => exists y q', get_site s j = Some y /\ nearest (s_loc x) (s_loc y) q' /\
        d = Some (round3 (vlength (vminus (s_loc x) q')))).
Proof.
  intros n vs per L s inner outer cls HL HB HO nearest. destruct (C38_lemma n vs per L s inner outer cls HL HB) as (N & EN & H).
  exists N. split; auto. intros i x Gx Ix. destruct (H i x Gx Ix) as [HN HWt]. clear H.
  assert (Lx : length (s_loc x) = n) by (apply (built_loc n vs per L HL s HB); now apply (built_get L s HB) in Gx).
  assert (Hl : forall j y, get_site s j = Some y -> length (s_loc y) = n).
  { intros j y Gy. apply (built_loc n vs per L HL s HB); now apply (built_get L s HB) in Gy. }
  assert (K : forall y, length (s_loc y) = n -> forall q'', image n vs per (s_loc y) q'' -> round3 (vlength (vminus (s_loc x) q'')) < outer ->
    exists q', image n vs per (s_loc y) q' /\ cartesian_periodic_distance RA L (s_loc x) (s_loc y) = Ok (round3 (vlength (vminus (s_loc x) q'))) /\
      forall q''', image n vs per (s_loc y) q''' -> vlength (vminus (s_loc x) q') <= vlength (vminus (s_loc x) q''')).
  { intros y Ly q'' Iq Dq. destruct HO as [O|(w & Ww & Cw)].
    - exact (C26_periods_lemma n vs per L (s_loc x) (s_loc y) HL O Lx Ly).
    - exists q''. split; auto. apply (C26_near_lemma n vs per L w); auto.
      pose proof (round3_bound (vlength (vminus (s_loc x) q''))) as B. pose proof (Rle_abs (vlength (vminus (s_loc x) q'') - round3 (vlength (vminus (s_loc x) q'')))). lra. }
  assert (Hin : forall j, (j <> i /\ exists y d, get_site s j = Some y /\ cartesian_periodic_distance RA L (s_loc x) (s_loc y) = Ok d /\ inner < d < outer) <->
    (j <> i /\ exists y q', get_site s j = Some y /\ nearest (s_loc x) (s_loc y) q' /\ inner < round3 (vlength (vminus (s_loc x) q')) < outer)).
  { intros j. split; intros (Dj & y & d & Gy & H1 & H2); (split; [auto|]); exists y.
    - destruct (C26_upper_lemma n vs per L (s_loc x) (s_loc y) HL Lx (Hl _ _ Gy)) as (q0 & Iq0 & E). rewrite H1 in E. injection E as ->.
      destruct (K y (Hl _ _ Gy) q0 Iq0 (proj2 H2)) as (q' & Iq & E & M). rewrite H1 in E. injection E as E. exists q'. split; [exact Gy|]. split; [split; auto|]. rewrite <- E. exact H2.
    - destruct H1 as [H1 H1']. destruct (K y (Hl _ _ Gy) d H1 (proj2 H2)) as (q' & Iq & E & M). exists (round3 (vlength (vminus (s_loc x) q'))). split; auto. split; auto.
      assert (EQ : vlength (vminus (s_loc x) q') = vlength (vminus (s_loc x) d)) by (apply Rle_antisym; [apply M, H1|apply H1', Iq]). rewrite EQ. exact H2. }
  split.
  - intros o Ho. destruct (HN o Ho) as (l & El & ND & Hj). exists l. split; auto. split; auto. intros j. rewrite Hj. apply Hin.
  - intros o Ho. destruct (HWt o Ho) as (wl & E1 & E2 & Hw). exists wl. split; auto. split; auto. intros j d Ijd.
    destruct (HN o Ho) as (l & El & ND & Hj). rewrite E2 in El. injection El as <-.
    destruct (Hw j d Ijd) as (y & e & Gy & Ed & ->).
    assert (Ij : In j (map fst wl)) by (apply (in_map fst) in Ijd; auto). apply Hj in Ij. destruct Ij as (Dj & y' & e' & Gy' & Ed' & Lt).
    rewrite Gy in Gy'. injection Gy' as <-. rewrite Ed in Ed'. injection Ed' as <-.
    destruct (C26_upper_lemma n vs per L (s_loc x) (s_loc y) HL Lx (Hl _ _ Gy)) as (q0 & I0 & E0). rewrite Ed in E0. injection E0 as ->.
    destruct (K y (Hl _ _ Gy) q0 I0 (proj2 Lt)) as (q' & Iq & E & M). exists y, q'. rewrite Ed in E. injection E as E. rewrite E. split; [exact Gy|]. split; [split; auto|reflexivity].
Qed.
