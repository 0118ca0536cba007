(** Three sites added to the periodic line of length 1, for the examples: the third is an image of the first. *)
From Coq Require Import Reals Lra.
From Verif Require Import Prelude Dict Arith RVec RealArith LatticeModel StructModel SpecGeom LatticeFacts LatticeMore StructFacts StructMore.
Local Open Scope Z_scope.

Definition trio : list (string * vec) := [("A"%string, [(13/4)%R]); ("B"%string, [(1/2)%R]); ("A"%string, [(1/4)%R])].
Definition trio_built : structure R := fst (adds RA (struct_init line_lattice) trio).

Lemma quarter x z k : (0 <= x < 1)%R -> (x * 1000 = IZR k)%R -> settled 1 line [true] [(x + IZR z)%R].
Proof.
  intros H K. exists [x]. assert (C : in_cell 1 line [true] [x]).
  { exists [x]. split; [split; [reflexivity|unfold lincomb, vplus, vscale, vzero; simpl; f_equal; ring]|]. constructor; [intros _; exact H|constructor]. }
  split; [split|split].
  - exists [- z]. split; [repeat constructor; discriminate|]. unfold lincomb, vplus, vscale, vzero; simpl. rewrite opp_IZR. f_equal. ring.
  - exact C.
  - cbn [map]. rewrite (milli k); [|rewrite K; apply Rabs_def1; lra]. replace (IZR k / 1000)%R with x by (rewrite <- K; field). exact C.
  - constructor; [|constructor]. rewrite (zrint_near _ k); rewrite K; apply Rabs_def1; lra.
Qed.
Lemma trio_settled : Forall (fun x => settled 1 line [true] (snd x)) [("A"%string, [(13/4)%R]); ("B"%string, [(1/2)%R])].
Proof.
  constructor; [|constructor; [|constructor]]; cbn [snd].
  - replace (13/4)%R with (1/4 + 3)%R by field. apply (quarter _ 3 250); lra.
  - replace (1/2)%R with (1/2 + 0)%R by field. apply (quarter _ 0 500); lra.
Qed.
Lemma line_inside x q : (0 <= x < 1)%R -> periodised 1 line [true] [x] q -> q = [x].
Proof.
  intros H P. apply (periodised_unique 1 line [true] line_lattice line_on [x] q [x]); auto.
  pose proof (line_periodised x) as Q. rewrite zfloor_unit in Q by lra. replace x with (x - 0)%R at 2 by ring. exact Q.
Qed.
Lemma trio_adds : adds RA (struct_init line_lattice) trio = (trio_built, [Ok 0; Ok 1; Err AssertionError]).
Proof.
  pose proof (add_site_real 1 line [true] line_lattice line_on [] (struct_init line_lattice) "A" [(13/4)%R] (Inv_init _ _)) as H.
  destruct H as [[H _]|(q & _ & P & [[[] _]|(_ & s1 & E & I)])]; [constructor|exfalso; apply H; reflexivity|].
  assert (q = [(1/4)%R]).
  { apply (periodised_unique 1 line [true] line_lattice line_on [(13/4)%R] q); auto. pose proof (line_periodised (13/4)) as Q.
    assert (F : zfloor (13/4) = 3) by (apply zfloor_unique; split; simpl; lra).
    rewrite F in Q. replace (13/4 - 3)%R with (1/4)%R in Q by field. exact Q. }
  subst q. assert (K : place [(1/4)%R] = [(251/1000)%R]) by (unfold place; cbn [map]; f_equal; apply (milli 251); apply Rabs_def1; lra). rewrite K in I.
  pose proof (add_site_real 1 line [true] line_lattice line_on _ s1 "B" [(1/2)%R] I) as H.
  destruct H as [[H _]|(q & _ & P1 & H)]; [repeat constructor; simpl; tauto|exfalso; apply H; reflexivity|].
  apply line_inside in P1; [|lra]. subst q.
  assert (K1 : place [(1/2)%R] = [(501/1000)%R]) by (unfold place; cbn [map]; f_equal; apply (milli 501); apply Rabs_def1; lra). rewrite K1 in H.
  destruct H as [[[X|[]] _]|(_ & s2 & E2 & I2)]; [injection X as X; lra|].
  pose proof (add_site_real 1 line [true] line_lattice line_on _ s2 "A" [(1/4)%R] I2) as H.
  destruct H as [[H _]|(q & _ & P2 & H)]; [constructor; [intros [X|[]]; injection X as X; lra|repeat constructor; simpl; tauto]|exfalso; apply H; reflexivity|].
  apply line_inside in P2; [|lra]. subst q. rewrite K in H.
  destruct H as [[_ E3]|(N & _)]; [|exfalso; apply N; left; reflexivity].
  unfold trio_built, trio. cbn [adds fst snd]. rewrite E. cbn [adds fst snd]. rewrite E2. cbn [adds fst snd]. rewrite E3. reflexivity.
Qed.
