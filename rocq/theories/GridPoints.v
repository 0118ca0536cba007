(** Lookups on square grids at points that need not be integer points. *)
From Coq Require Import Reals Lra Permutation.
From Verif Require Import Prelude Dict Arith RVec RealArith LatticeModel JsonModel StructModel NbModel GridModel
  SpecGeom SpecNb SpecGrid LatticeFacts LatticeMore StructFacts StructMore StructBuild NbFacts NbMore NbDemo GridFacts GridMore GridNb SetupFacts.
Local Open Scope Z_scope.

Definition unit_of (n : nat) : list vec := if Nat.eqb n 2 then sq2 else sq3.
Definition tore (x : R) (m : Z) : R := (x - IZR m * IZR (zfloor (x / IZR m)))%R.

Lemma square_lattice size s : square_grid size s -> lattice_on (length size) (scaled size (unit_of (length size))) (repeat true (length size)) (p_lattice s).
Proof.
  intros [P [[D (b & Eb & Es)]|[D (b & Eb & Es)]]]; rewrite D.
  - cbv [SimpleSquare2DStructureBuilder] in Eb. apply bind_Ok in Eb as (L0 & EL & Eb). injection Eb as <-.
    assert (HL : lattice_on 2 sq2 [true; true] L0).
    { split; [apply sq2_basis|]. split; [reflexivity|]. exists (PBool true). split; [reflexivity|]. exact EL. }
    destruct (C27_lemma 2 sq2 _ L0 size HL D) as (L' & E & HL' & _); [eapply Forall_impl; [|exact P]; intros; simpl in *; lia|].
    cbn [build b_lattice] in Es. rewrite D, (on_dim _ _ _ _ HL), Nat.eqb_refl in Es. cbn [negb] in Es.
    apply build_from_fixed in Es as (L2 & E2 & -> & _). rewrite E in E2. injection E2 as <-. exact HL'.
  - cbv [SimpleSquare3DStructureBuilder] in Eb. apply bind_Ok in Eb as (L0 & EL & Eb). injection Eb as <-.
    assert (HL : lattice_on 3 sq3 [true; true; true] L0).
    { split; [apply sq3_basis|]. split; [reflexivity|]. exists (PBool true). split; [reflexivity|]. exact EL. }
    destruct (C27_lemma 3 sq3 _ L0 size HL D) as (L' & E & HL' & _); [eapply Forall_impl; [|exact P]; intros; simpl in *; lia|].
    cbn [build b_lattice] in Es. rewrite D, (on_dim _ _ _ _ HL), Nat.eqb_refl in Es. cbn [negb] in Es.
    apply build_from_fixed in Es as (L2 & E2 & -> & _). rewrite E in E2. injection E2 as <-. exact HL'.
Qed.

Lemma tore_unit x m : 0 < m -> (0 <= tore x m / IZR m < 1)%R.
Proof.
  intros H. apply IZR_lt in H. pose proof (zfloor_spec (x / IZR m)) as [H1 H2]. unfold tore.
  replace ((x - IZR m * IZR (zfloor (x / IZR m))) / IZR m)%R with (x / IZR m - IZR (zfloor (x / IZR m)))%R by (field; lra). lra.
Qed.
Lemma square_periodised size q : Forall (fun k => 0 < k) size -> length size = 2%nat \/ length size = 3%nat -> length q = length size ->
  periodised (length size) (scaled size (unit_of (length size))) (repeat true (length size)) q (zipwith tore q (extents size)).
Proof.
  intros P [D|D] Lq; rewrite D in *.
  - destruct size as [|m [|k [|]]]; try discriminate. destruct q as [|x [|y [|]]]; try discriminate. cbn [unit_of Nat.eqb repeat extents zipwith].
    apply Forall_inv in P as P1. apply Forall_inv_tail, Forall_inv in P as P2. split.
    + exists [- zfloor (y / IZR m); - zfloor (x / IZR k)]. split; [repeat constructor; discriminate|].
      unfold sq2, scaled, lincomb, vplus, vscale, vzero, tore; simpl. rewrite !opp_IZR. repeat (f_equal; try ring).
    + exists [(tore y m / IZR m)%R; (tore x k / IZR k)%R]. split; [split; [reflexivity|]|].
      * apply IZR_lt in P1, P2. unfold sq2, scaled, lincomb, vplus, vscale, vzero; simpl. f_equal; [field; lra|f_equal; field; lra].
      * constructor; [intros _; now apply tore_unit|]. constructor; [intros _; now apply tore_unit|constructor].
  - destruct size as [|m [|k [|h [|]]]]; try discriminate. destruct q as [|x [|y [|z [|]]]]; try discriminate. cbn [unit_of Nat.eqb repeat extents zipwith].
    apply Forall_inv in P as P1. apply Forall_inv_tail in P as P'. apply Forall_inv in P' as P2. apply Forall_inv_tail, Forall_inv in P' as P3. split.
    + exists [- zfloor (y / IZR m); - zfloor (x / IZR k); - zfloor (z / IZR h)]. split; [repeat constructor; discriminate|].
      unfold sq3, scaled, lincomb, vplus, vscale, vzero, tore; simpl. rewrite !opp_IZR. repeat (f_equal; try ring).
    + exists [(tore y m / IZR m)%R; (tore x k / IZR k)%R; (tore z h / IZR h)%R]. split; [split; [reflexivity|]|].
      * apply IZR_lt in P1, P2, P3. unfold sq3, scaled, lincomb, vplus, vscale, vzero; simpl. f_equal; [field; lra|f_equal; [field; lra|f_equal; field; lra]].
      * constructor; [intros _; now apply tore_unit|]. constructor; [intros _; now apply tore_unit|]. constructor; [intros _; now apply tore_unit|constructor].
Qed.
Lemma tore_inside a m : 0 <= a < m -> tore (IZR a) m = IZR a.
Proof.
  intros [H1 H2]. unfold tore. assert (0 < IZR m)%R by (apply IZR_lt; lia). apply IZR_le in H1. apply IZR_lt in H2.
  rewrite zfloor_unit; [lra|]. split; [apply Rmult_le_pos; auto; left; now apply Rinv_0_lt_compat|].
  apply (Rmult_lt_reg_r (IZR m)); auto. unfold Rdiv. rewrite Rmult_assoc, Rinv_l by lra. lra.
Qed.
Lemma tore_inside_all p w : Forall2 (fun a m => 0 <= a < m) p w -> zipwith tore (at_ p) w = at_ p.
Proof. induction 1; [reflexivity|]. unfold at_ in *. cbn [map zipwith]. rewrite tore_inside, IHForall2; auto. Qed.

(** The sites found are those whose integer point has the same place. *)
Lemma point_lookup size s q : square_grid size s -> length q = length size ->
  (exists p i, Forall2 (fun a m => 0 <= a < m) p (extents size) /\ cell s p i /\ place (zipwith tore q (extents size)) = place (at_ p) /\ id_at RA s q = Ok (Some i)) \/
  ((forall p, Forall2 (fun a m => 0 <= a < m) p (extents size) -> place (zipwith tore q (extents size)) <> place (at_ p)) /\ id_at RA s q = Ok None).
Proof.
  intros SG Lq. pose proof (square_lattice size s SG) as HL. destruct (square_facts size s SG) as [L G].
  destruct (gf_built _ _ _ G) as [calls Es]. pose proof (built_lattice L s (gf_built _ _ _ G)) as EL. rewrite EL in HL.
  destruct (adds RA (struct_init L) calls) as [s' outs] eqn:EA. cbn [fst] in Es. subst s'.
  destruct (C29_lemma _ _ _ L calls s outs HL EA) as [_ H].
  pose proof (square_periodised size q (gf_pos _ _ _ G) (gf_dim _ _ _ G) Lq) as PQ.
  assert (IN : forall p, Forall2 (fun a m => 0 <= a < m) p (extents size) -> length p = length size).
  { intros p Hp. rewrite <- (extents_length size). clear -Hp. induction Hp; simpl; auto. }
  assert (PP : forall p, Forall2 (fun a m => 0 <= a < m) p (extents size) ->
     periodised (length size) (scaled size (unit_of (length size))) (repeat true (length size)) (at_ p) (at_ p)).
  { intros p Hp. pose proof (square_periodised size (at_ p) (gf_pos _ _ _ G) (gf_dim _ _ _ G)) as X. rewrite (tore_inside_all _ _ Hp) in X. apply X. unfold at_. rewrite map_length. auto. }
  assert (AT : forall i c p0 x, nth_error (accepted calls outs) i = Some (c, p0) -> get_site s (Z.of_nat i) = Some x ->
     exists p p', Forall2 (fun a m => 0 <= a < m) p (extents size) /\ cell s p (Z.of_nat i) /\
       periodised (length size) (scaled size (unit_of (length size))) (repeat true (length size)) p0 p' /\ place p' = place (at_ p)).
  { intros i c p0 x Hi Gx. destruct (site_cell size s L _ _ G Gx) as (p & Lp & Hp & _ & Cp & _). 
    destruct (H (at_ p)) as [(i' & c' & p1 & x' & Hi' & (u & v & U & V & E) & _ & _ & _ & _ & Ei & _)|(_ & _ & Ei & _)]; [unfold at_; now rewrite map_length| |unfold cell in Cp; congruence].
    unfold cell in Cp. rewrite Cp in Ei. injection Ei as Ei. apply Nat2Z.inj in Ei. subst i'. rewrite Hi in Hi'. injection Hi' as <- <-.
    exists p, u. split; [exact Hp|]. split; [exact Cp|]. split; [exact U|]. rewrite E. f_equal.
    apply (periodised_unique _ _ _ L HL (at_ p)); auto. unfold at_. now rewrite map_length. }
  destruct (H q Lq) as [(i & c & p0 & x & Hi & (u & v & U & V & E) & Gx & _ & _ & _ & Ei & _)|(N & _ & Ei & _)].
  - left. destruct (AT i c p0 x Hi Gx) as (p & p' & Hp & Cp & P0 & EP). exists p, (Z.of_nat i). split; [exact Hp|]. split; [exact Cp|]. split; [|exact Ei].
    rewrite <- EP. assert (L0 : length p0 = length size).
    { destruct (hist_start _ _ _ L HL calls) as (h & _ & _ & Hh & _). rewrite EA in Hh. cbn [fst snd] in Hh. destruct (real_hist_nth _ _ _ _ h i c p0 Hh Hi) as [X _]. exact X. }
    rewrite (periodised_unique _ _ _ L HL p0 p' u L0 P0 U), E. f_equal. exact (periodised_unique _ _ _ L HL q _ v Lq PQ V).
  - right. split; [|exact Ei]. intros p Hp EP.
    destruct (H (at_ p)) as [(i & c & p0 & x & Hi & (u & v & U & V & E) & _)|(_ & _ & X & _)]; [unfold at_; rewrite map_length; auto| |].
    + apply (N c p0 (nth_error_In _ _ Hi)). exists u, (zipwith tore q (extents size)). split; [exact U|]. split; [exact PQ|].
      rewrite EP, E. f_equal. apply (periodised_unique _ _ _ L HL (at_ p)); auto. unfold at_. rewrite map_length. auto.
    + pose proof (gf_cell _ _ _ G p (IN p Hp)) as C. unfold cell in C. congruence.
Qed.

(* ---------------------------------------------------------------- coordinates *)
Lemma place_close y a : round3 (y + 1/1000) = round3 (IZR a + 1/1000) -> (Rabs (y - IZR a) <= 1/2000)%R.
Proof.
  rewrite whole_milli. unfold round3. intros E. pose proof (zrint_bound ((y + 1/1000) * 1000)) as H. unfold Rabs in *; repeat destruct Rcase_abs; lra.
Qed.
Lemma close_place y a : (Rabs (y - IZR a) < 1/2000)%R -> round3 (y + 1/1000) = round3 (IZR a + 1/1000).
Proof.
  intros H. rewrite whole_milli. apply Rabs_def2 in H. rewrite (milli (a * 1000 + 1)); rewrite plus_IZR, mult_IZR; [field|]. apply Rabs_def1; lra.
Qed.
Lemma tore_near x a m : 0 < m -> (Rabs (x - IZR a) < 1/2000)%R -> ((m | a) -> (IZR a <= x)%R) -> (Rabs (tore x m - IZR (a mod m)) < 1/2000)%R.
Proof.
  intros Hm H B. assert (PM : (0 < IZR m)%R) by (now apply IZR_lt). pose proof (Z.mod_pos_bound a m Hm) as [M1 M2]. pose proof (Z.div_mod a m ltac:(lia)) as DM.
  assert (EA : IZR a = (IZR m * IZR (a / m) + IZR (a mod m))%R) by (rewrite DM at 1; rewrite plus_IZR, mult_IZR; reflexivity).
  apply Rabs_def2 in H as [H1 H2].
  assert (LO : (IZR m * IZR (a / m) <= x)%R).
  { destruct (Z.eq_dec (a mod m) 0) as [E|E].
    - rewrite E in EA. specialize (B (proj1 (Z.mod_divide a m ltac:(lia)) E)). lra.
    - assert (1 <= IZR (a mod m))%R by (apply IZR_le; lia). lra. }
  assert (HI : (x < IZR m * IZR (a / m) + IZR m)%R) by (assert (IZR (a mod m) <= IZR m - 1)%R by (rewrite <- minus_IZR; apply IZR_le; lia); lra).
  assert (F : zfloor (x / IZR m) = a / m).
  { apply zfloor_unique. split.
    - apply (Rmult_le_reg_r (IZR m)); auto. unfold Rdiv. rewrite Rmult_assoc, Rinv_l by lra. lra.
    - apply (Rmult_lt_reg_r (IZR m)); auto. unfold Rdiv. rewrite Rmult_assoc, Rinv_l by lra. lra. }
  unfold tore. rewrite F. apply Rabs_def1; lra.
Qed.
Lemma tore_far x m : (forall a, (1/2000 < Rabs (x - IZR a))%R) -> forall r, (1/2000 < Rabs (tore x m - IZR r))%R.
Proof.
  intros H r. specialize (H (m * zfloor (x / IZR m) + r)). rewrite plus_IZR, mult_IZR in H. unfold tore.
  replace (x - IZR m * IZR (zfloor (x / IZR m)) - IZR r)%R with (x - (IZR m * IZR (zfloor (x / IZR m)) + IZR r))%R by ring. exact H.
Qed.
Lemma tore_below x a m : 0 < m -> (m | a) -> (IZR a - 1/2000 <= x < IZR a)%R -> tore x m = (x - IZR a + IZR m)%R.
Proof.
  intros Hm [b ->] H. assert (PM : (1 <= IZR m)%R) by (apply IZR_le; lia). rewrite mult_IZR in *.
  assert (F : zfloor (x / IZR m) = b - 1).
  { apply zfloor_unique. rewrite minus_IZR. split.
    - apply (Rmult_le_reg_r (IZR m)); [lra|]. unfold Rdiv. rewrite Rmult_assoc, Rinv_l by lra. lra.
    - apply (Rmult_lt_reg_r (IZR m)); [lra|]. unfold Rdiv. rewrite Rmult_assoc, Rinv_l by lra. lra. }
  unfold tore. rewrite F, minus_IZR. lra.
Qed.
Lemma place_nth q w p k x m : Forall2 (fun a m => 0 <= a < m) p w -> place (zipwith tore q w) = place (at_ p) ->
  nth_error q k = Some x -> nth_error w k = Some m -> exists r, 0 <= r < m /\ (Rabs (tore x m - IZR r) <= 1/2000)%R.
Proof.
  intros H. revert q k. induction H as [|a m' p w Ha H IH]; intros [|y q] [|k] E Ex Em; cbn in *; try discriminate.
  - injection Ex as ->. injection Em as ->. injection E as E _. exists a. split; [exact Ha|now apply place_close].
  - injection E as _ E. apply (IH q k); auto.
Qed.

Lemma C67_points_lemma : forall size s q, square_grid size s -> length q = length size ->
  (forall p i, length p = length size -> cell s p i ->
     (forall k x a m, nth_error q k = Some x -> nth_error p k = Some a -> nth_error (extents size) k = Some m ->
        (Rabs (x - IZR a) < 1/2000)%R /\ ((m | a) -> (IZR a <= x)%R)) ->
     id_at RA s q = Ok (Some i)) /\
  (forall k x, nth_error q k = Some x -> (forall a, (1/2000 < Rabs (x - IZR a))%R) -> id_at RA s q = Ok None) /\
  (forall k x a m, nth_error q k = Some x -> nth_error (extents size) k = Some m -> (m | a) -> (IZR a - 1/2000 <= x < IZR a)%R ->
     id_at RA s q = Ok None).
Proof.
  intros size s q SG Lq. pose proof (point_lookup size s q SG Lq) as PL. destruct (square_facts size s SG) as [L G].
  assert (PW : Forall (fun m => 0 < m) (extents size)).
  { pose proof (gf_pos _ _ _ G) as P. destruct size as [|a [|b t]]; auto. inversion P as [|? ? P1 P']; subst. inversion P' as [|? ? P2 P'']; subst. now repeat constructor. }
  assert (WK : forall k x, nth_error q k = Some x -> exists m, nth_error (extents size) k = Some m /\ 0 < m).
  { intros k x Ex. destruct (nth_error (extents size) k) as [m|] eqn:Em.
    - exists m. split; auto. rewrite Forall_forall in PW. apply PW. eapply nth_error_In; eauto.
    - exfalso. apply nth_error_None in Em. rewrite extents_length in Em. assert (k < length q)%nat by (apply nth_error_Some; congruence). lia. }
  split; [|split].
  - intros p i Lp Ci H. set (p' := zipwith Z.modulo p (extents size)).
    assert (B : Forall2 (fun a m => 0 <= a < m) p' (extents size)).
    { assert (LL : length p = length (extents size)) by (now rewrite extents_length). unfold p'. clear -PW LL. revert p LL. induction PW as [|m w Hm PW IH]; intros [|a p] LL; try discriminate; constructor.
      - now apply Z.mod_pos_bound.
      - apply IH. now injection LL. }
    assert (Lp' : length p' = length size) by (rewrite <- (extents_length size); clear -B; induction B; simpl; auto).
    assert (E : place (zipwith tore q (extents size)) = place (at_ p')).
    { assert (LL : length p = length q) by congruence. assert (LW : length q = length (extents size)) by (now rewrite extents_length).
      unfold p', place, at_. revert PW H LL LW. clear. generalize (extents size). intros w PW. revert p q. induction PW as [|m w Hm PW IH]; intros [|a p] [|x q] H LL LW; try discriminate; [reflexivity|].
      cbn [zipwith map]. f_equal.
      - destruct (H 0%nat x a m eq_refl eq_refl eq_refl) as [H1 H2]. apply close_place. now apply tore_near.
      - apply IH; [|now injection LL|now injection LW]. intros k. apply (H (S k)). }
    assert (Ci' : cell s p' i).
    { pose proof (gf_cell _ _ _ G p' Lp') as C'. replace i with (rank size (wrap_to size (extents p'))); [exact C'|].
      apply (cell_iff size s L p' p _ _ G Lp' Lp C' Ci). split; [now rewrite extents_length|]. split; [now rewrite extents_length|].
      unfold p'. revert PW. clear. generalize (extents size). intros w PW. revert p. induction PW as [|m w Hm PW IH]; intros [|a p] [|k] m' u v E1 E2 E3; cbn in *; try discriminate.
      - injection E1 as ->. injection E2 as <-. injection E3 as ->. exists (- (v / m')). rewrite Z.mod_eq by lia. ring.
      - apply (IH p k m' u v E1 E2 E3). }
    destruct PL as [(p1 & i1 & B1 & C1 & E1 & ->)|[N _]]; [|exfalso; apply (N p' B E)].
    rewrite E in E1. apply place_at in E1. subst p1. unfold cell in *. congruence.
  - intros k x Ex FA. destruct (WK k x Ex) as (m & Em & Hm). destruct PL as [(p & i & B & _ & E & _)|[_ N]]; [|exact N]. exfalso.
    destruct (place_nth q _ p k x m B E Ex Em) as (r & _ & C). pose proof (tore_far x m FA r). lra.
  - intros k x a m Ex Em DV BE. destruct PL as [(p & i & B & _ & E & _)|[_ N]]; [|exact N]. exfalso.
    assert (Hm : 0 < m) by (rewrite Forall_forall in PW; apply PW; eapply nth_error_In; eauto).
    destruct (place_nth q _ p k x m B E Ex Em) as (r & R & C). rewrite (tore_below x a m Hm DV BE) in C. assert (IZR r <= IZR m - 1)%R by (rewrite <- minus_IZR; apply IZR_le; lia).
    unfold Rabs in C. destruct (Rcase_abs _); lra.
Qed.
