(** Two sites, at 0 and 1, on a line without periodicity. *)
From Coq Require Import Reals Lra Permutation.
From Verif Require Import Prelude Dict Arith RVec RealArith LatticeModel JsonModel StructModel NbModel
  SpecGeom SpecNb LatticeFacts LatticeMore StructFacts StructMore StructBuild NbFacts NbMore.
Local Open Scope Z_scope.

Definition open_line : lattice R := mkLattice line [false] line 1.
Definition two : structure R := fst (adds RA (struct_init open_line) [("A"%string, [0%R]); ("B"%string, [1%R])]).

Lemma open_on : lattice_on 1 line [false] open_line.
Proof. apply lattice_on_intro; auto. apply line_on. Qed.
Lemma two_built : built RA open_line two.
Proof. now exists [("A"%string, [0%R]); ("B"%string, [1%R])]. Qed.

Lemma open_periodised x : periodised 1 line [false] [x] [x].
Proof.
  split; [apply (image_refl 1 line [false] open_line open_on); auto|]. exists [x].
  split; [split; auto; unfold lincomb, vplus, vscale, line, vzero; simpl; f_equal; ring|]. constructor; [discriminate|constructor].
Qed.
Lemma open_same x y : same_place 1 line [false] [x] [y] -> round3 (x + 1/1000) = round3 (y + 1/1000).
Proof.
  intros (p & q & P & Q & E).
  rewrite (periodised_unique 1 line [false] open_line open_on [x] p [x] eq_refl P (open_periodised x)) in E.
  rewrite (periodised_unique 1 line [false] open_line open_on [y] q [y] eq_refl Q (open_periodised y)) in E.
  now injection E.
Qed.
Lemma whole_milli z : round3 (IZR z + 1/1000) = (IZR z + 1/1000)%R.
Proof. rewrite (milli (z * 1000 + 1)); rewrite plus_IZR, mult_IZR; [field|]. apply Rabs_def1; lra. Qed.

Lemma two_adds : exists s, adds RA (struct_init open_line) [("A"%string, [0%R]); ("B"%string, [1%R])] = (s, [Ok 0; Ok 1]) /\
  Inv RA open_line [("A"%string, [0%R], [(1/1000)%R]); ("B"%string, [1%R], [(1001/1000)%R])] s.
Proof.
  pose proof (add_site_real 1 line [false] open_line open_on [] (struct_init open_line) "A" [0%R] (Inv_init _ _)) as H.
  destruct H as [[H _]|(q & _ & P & [[[] _]|(_ & s1 & E & I)])]; [constructor|exfalso; apply H; reflexivity|].
  assert (q = [0%R]) by (apply (periodised_unique 1 line [false] open_line open_on [0%R]); auto using open_periodised). subst q.
  assert (K0 : place [0%R] = [(1/1000)%R]) by (unfold place; simpl; f_equal; rewrite (whole_milli 0); lra). rewrite K0 in I.
  pose proof (add_site_real 1 line [false] open_line open_on _ s1 "B" [1%R] I) as H.
  assert (K1 : place [1%R] = [(1001/1000)%R]) by (unfold place; simpl; f_equal; rewrite (whole_milli 1); lra).
  destruct H as [[H _]|(q & _ & P1 & H)]; [repeat constructor; simpl; tauto|exfalso; apply H; reflexivity|].
  assert (q = [1%R]) by (apply (periodised_unique 1 line [false] open_line open_on [1%R]); auto using open_periodised). subst q.
  rewrite K1 in H. destruct H as [[[X|[]] _]|(_ & s2 & E2 & I2)]; [unfold place in X; injection X as X; lra|].
  exists s2. split; [cbn [adds fst snd]; rewrite E; cbn [adds fst snd]; rewrite E2; reflexivity|exact I2].
Qed.
Lemma two_sites : get_site two 0 = Some (mkSite "A" [0%R] 0) /\ get_site two 1 = Some (mkSite "B" [1%R] 1).
Proof.
  destruct two_adds as (s & E & I). unfold two. rewrite E. cbn [fst].
  pose proof (get_site_nth RA open_line _ s 0 I) as G. pose proof (get_site_nth RA open_line _ s 1 I) as G'. simpl in G, G'.
  rewrite G, G'. fold (round3 (IZR 0)). fold (round3 (IZR 1)). now rewrite !round3_IZR.
Qed.
Lemma two_at z : id_at RA two [IZR z] = Ok (if z =? 0 then Some 0 else if z =? 1 then Some 1 else None).
Proof.
  destruct two_adds as (s & E & I). unfold two. rewrite E. cbn [fst].
  destruct (C29_lemma 1 line [false] open_line _ s _ open_on E) as [H1 H2]. simpl in H1, H2.
  destruct (Z.eqb_spec z 0) as [->|N0].
  { destruct (H1 0%nat "A"%string [0%R] [0%R] eq_refl) as (x & _ & _ & _ & _ & -> & _); auto. apply (image_refl 1 line [false] open_line open_on); auto. }
  destruct (Z.eqb_spec z 1) as [->|N1].
  { destruct (H1 1%nat "B"%string [1%R] [1%R] eq_refl) as (x & _ & _ & _ & _ & -> & _); auto. apply (image_refl 1 line [false] open_line open_on); auto. }
  destruct (H2 [IZR z] eq_refl) as [(i & c & p & x & Hi & SP & _)|(_ & _ & -> & _)]; auto. exfalso.
  destruct i as [|[|[|i]]]; simpl in Hi; try discriminate; injection Hi as <- <-; apply open_same in SP; rewrite (whole_milli z) in SP.
  - rewrite (whole_milli 0) in SP. apply N0. apply eq_IZR. lra.
  - rewrite (whole_milli 1) in SP. apply N1. apply eq_IZR. lra.
Qed.

Lemma C40_refuted_lemma : exists n vs per L s motif b, lattice_on n vs per L /\ built RA L s /\ In false per /\
  Forall (fun v => length v = n) motif /\ motif_builder RA motif = Ok b /\ nb_get RA b s None = Err TypeError.
Proof.
  destruct (C40_lemma 1 line [false] open_line two [[1%R]; [(-1)%R]] None 0 (mkSite "A" [0%R] 0) [(-1)%R] open_on two_built) as (b & E & EN); auto.
  - apply two_sites.
  - exact I.
  - simpl; auto.
  - cbn [s_loc]. unfold vplus; simpl. replace (0 + -1)%R with (IZR (-1)) by lra. rewrite two_at. reflexivity.
  - exists 1%nat, line, [false], open_line, two, [[1%R]; [(-1)%R]], b. repeat (split; auto using open_on, two_built); simpl; auto.
Qed.
