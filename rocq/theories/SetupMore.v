(** Particles. *)
From Coq Require Import Reals Lra Permutation.
From Verif Require Import Prelude Dict Val ValFacts Arith RVec RealArith LatticeModel JsonModel StructModel StateModel NbModel GridModel
  SimModel SetupModel SpecState SpecGeom SpecNb SpecGrid SpecSetup StateFacts LatticeFacts LatticeMore StructFacts StructMore StructBuild
  NbFacts NbMore GridFacts GridMore GridNb SetupFacts.
Local Open Scope Z_scope.

Lemma distance_dist p q : length p = length q -> distance RA p q = Ok (dist p q).
Proof. intros L. unfold distance. rewrite bcast_eq by auto. cbn [bind]. rewrite dot_RA. reflexivity. Qed.

Lemma C48_lemma : forall n vs per L s st center r p, lattice_on n vs per L -> built RA L s -> length center = n ->
  exists st', add_particle_to_state RA s st center r p = Ok st' /\
    get_general_state st' = get_general_state st /\
    (forall i x, get_site s i = Some x ->
       ((dist (s_loc x) center < r)%R -> forall k, site_entry st' (KInt i) k = if eqb k DISCRETE_OCCUPANCY then Some (VStr p) else entry_or_new st (KInt i) k) /\
       (~ (dist (s_loc x) center < r)%R -> get_site_state st' (KInt i) = get_site_state st (KInt i))) /\
    (forall k, (forall i x, get_site s i = Some x -> k <> KInt i) -> get_site_state st' k = get_site_state st k).
Proof.
  intros n vs per L s st center r p HL HB Lc. pose proof (built_dense RA L s HB) as D. pose proof (dense_NoDup s None D) as ND.
  destruct (built_inv RA L s HB) as [h I].
  assert (LL : forall x, In x (sites s None) -> length (s_loc x) = length center) by (intros; rewrite Lc; eapply built_loc; eauto).
  assert (X : forall xs st, NoDup (map s_id xs) -> (forall x, In x xs -> length (s_loc x) = length center) ->
    exists st', foldM (fun st x => do d <- distance RA (s_loc x) center;
        Ok (if a_ltb RA d r then set_site_state st (KInt (s_id x)) (occ (VStr p)) else st)) xs st = Ok st' /\
      get_general_state st' = get_general_state st /\
      (forall x, In x xs -> get_site_state st' (KInt (s_id x)) =
         if Rlt_dec (dist (s_loc x) center) r then get_site_state (set_site_state st (KInt (s_id x)) (occ (VStr p))) (KInt (s_id x)) else get_site_state st (KInt (s_id x))) /\
      (forall k, (forall x, In x xs -> k <> KInt (s_id x)) -> get_site_state st' k = get_site_state st k)).
  { clear. induction xs as [|x xs IH]; intros st ND LL; cbn [foldM].
    - exists st. split; auto. split; auto. split; [intros x []|auto].
    - rewrite distance_dist by (apply LL; simpl; auto). cbn [bind map] in *. inversion ND as [|? ? NI ND']; subst.
      set (st1 := if a_ltb RA (dist (s_loc x) center) r then set_site_state st (KInt (s_id x)) (occ (VStr p)) else st).
      destruct (IH st1) as (st' & E & G & H1 & H2); [auto|intros; apply LL; simpl; auto|]. exists st'. split; auto.
      assert (O : forall k, k <> KInt (s_id x) -> get_site_state st1 k = get_site_state st k).
      { intros k Nk. unfold st1. destruct (a_ltb _ _ _); auto. rewrite get_set_site. destruct (eqb_spec k (KInt (s_id x))); congruence. }
      split; [|split].
      + rewrite G. unfold st1. destruct (a_ltb _ _ _); auto.
      + intros y [<-|Hy].
        * rewrite H2. { unfold st1. cbn [a_ltb RA]. destruct (Rlt_dec _ _); auto. }
          intros y Hy E'. injection E' as E'. apply NI. rewrite E'. now apply in_map.
        * rewrite H1 by auto. assert (Ny : KInt (s_id y) <> KInt (s_id x)) by (intros E'; injection E' as E'; apply NI; rewrite <- E'; now apply in_map).
          destruct (Rlt_dec _ _); [|auto]. rewrite !get_set_site, !eqb_refl. now rewrite O.
      + intros k Hk. rewrite H2 by (intros; apply Hk; simpl; auto). apply O. apply Hk; simpl; auto. }
  destruct (X (sites s None) st ND LL) as (st' & E & G & H1 & H2). exists st'. split; auto. split; auto. split.
  - intros i x Gx. apply (inv_get_site RA L h s i x I) in Gx as [Hx <-]. specialize (H1 x Hx). destruct (Rlt_dec _ _) as [Y|N].
    + split; [|contradiction]. intros _ k. unfold site_entry. rewrite H1.
      change (match get_site_state (set_site_state st (KInt (s_id x)) (occ (VStr p))) (KInt (s_id x)) with Some d => dget k d | None => None end)
        with (site_entry (set_site_state st (KInt (s_id x)) (occ (VStr p))) (KInt (s_id x)) k).
      rewrite site_entry_set by (repeat constructor; simpl; tauto). rewrite eqb_refl. unfold upd_entry, occ. cbn [dget].
      destruct (eqb k DISCRETE_OCCUPANCY); reflexivity.
    + split; [contradiction|auto].
  - intros k Hk. apply H2. intros x Hx. apply (Hk (s_id x) x). apply (inv_get_site RA L h s _ x I). auto.
Qed.

Lemma particle_layout n vs per L s g center r p : lattice_on n vs per L -> built RA L s -> length center = n ->
  add_particle_to_state RA s (layout (sites s None) g) center r p =
  Ok (layout (sites s None) (puts g (flat_map (fun x => if Rlt_dec (dist (s_loc x) center) r then [(s_id x, VStr p)] else []) (sites s None)))).
Proof.
  intros HL HB Lc. pose proof (dense_NoDup s None (built_dense RA L s HB)) as ND. unfold add_particle_to_state.
  apply foldM_puts; auto. clear g. intros x g Hx. rewrite distance_dist by (rewrite Lc; eapply built_loc; eauto). cbn [bind a_ltb RA].
  destruct (Rlt_dec _ _); auto. rewrite set_layout; auto. now apply in_map.
Qed.
Lemma particle_at s L g center r p i x : built RA L s -> get_site s i = Some x ->
  puts g (flat_map (fun x => if Rlt_dec (dist (s_loc x) center) r then [(s_id x, VStr p)] else []) (sites s None)) i =
  if Rlt_dec (dist (s_loc x) center) r then VStr p else g i.
Proof.
  intros HB Gx. destruct (built_inv RA L s HB) as [h I]. apply (inv_get_site RA L h s i x I) in Gx as [Hx <-].
  pose proof (dense_NoDup s None (built_dense RA L s HB)) as ND. revert ND Hx. generalize (sites s None) as xs. clear.
  assert (Q : forall (xs : list (site R)) i, ~ In i (map s_id xs) ->
     ~ In i (map fst (flat_map (fun x => if Rlt_dec (dist (s_loc x) center) r then [(s_id x, VStr p)] else []) xs))).
  { induction xs as [|y xs IH]; simpl; auto. intros i H. rewrite map_app, in_app_iff. intros [X|X]; [|apply (IH i); auto].
    destruct (Rlt_dec _ _); simpl in X; [destruct X as [X|[]]|destruct X]. apply H. auto. }
  intros xs. revert g. induction xs as [|y xs IH]; intros g ND Hx; [destruct Hx|]; destruct Hx as [->|Hx]; cbn [map flat_map] in *; inversion ND as [|? ? NI ND']; subst;
    unfold puts; rewrite fold_left_app; fold (puts g); (match goal with |- fold_left _ ?l ?g' _ = _ => fold (puts g' l) end).
  - rewrite puts_notin by (now apply Q). destruct (Rlt_dec _ _); cbn [fold_left fst snd]; auto. unfold upd. now rewrite Z.eqb_refl.
  - rewrite IH by auto. destruct (Rlt_dec _ _) as [|N]; auto.
    assert (s_id x =? s_id y = false) as E by (apply Z.eqb_neq; intros E; apply NI; rewrite <- E; now apply in_map).
    destruct (Rlt_dec (dist (s_loc y) center) r); cbn [fold_left fst snd]; auto. unfold upd. now rewrite E.
Qed.

Lemma mapM_const {B C} (f : B -> res C) c l : (forall b, In b l -> f b = Ok c) -> mapM f l = Ok (repeat c (length l)).
Proof.
  induction l as [|b l IH]; intros H; cbn [mapM length repeat]; auto. rewrite H by (simpl; auto). cbn [bind].
  rewrite IH by (intros; apply H; simpl; auto). reflexivity.
Qed.

Lemma C48_particle_lemma : forall dim sz k t r bulk p, good_size dim sz -> grid_size dim sz = k :: t ->
  exists s st, setup_particle RA (Z.of_nat dim) sz r bulk p = Ok (mkSim st s) /\ square_grid (grid_size dim sz) s /\
    configuration s st (fun i q => forall x, get_site s i = Some x ->
      ((dist (s_loc x) (repeat (IZR k / 2)%R dim) < r)%R -> q = p) /\ (~ (dist (s_loc x) (repeat (IZR k / 2)%R dim) < r)%R -> q = bulk)).
Proof.
  intros dim sz k t r bulk p GS EK. destruct (setup_grid dim sz GS) as (s & L & Es & SG & G & PD & FL). exists s.
  pose proof (gf_built _ _ _ G) as HB. destruct (gf_on _ _ _ G) as [vs HL]. pose proof (dense_NoDup s None (built_dense RA L s HB)) as ND.
  assert (Ld : length (grid_size dim sz) = dim) by apply GS.
  unfold setup_particle. rewrite Es. cbn [bind]. rewrite (mapM_const _ (IZR k / 2)%R) by (intros b _; rewrite (FL k t EK); reflexivity).
  cbn [bind]. rewrite seq_length, PD. unfold setup_solid_phase. rewrite blank_layout by auto.
  rewrite (particle_layout _ vs _ L s _ _ r p HL HB) by (now rewrite repeat_length). cbn [bind]. eexists. split; [reflexivity|]. split; auto.
  apply (config_layout RA L); auto. intros i x Gx. rewrite (particle_at s L _ _ _ _ i x HB Gx). destruct (Rlt_dec _ _) as [Y|N].
  - exists p. split; auto. intros x' Gx'. rewrite Gx in Gx'. injection Gx' as <-. split; auto. contradiction.
  - exists bulk. split; auto. intros x' Gx'. rewrite Gx in Gx'. injection Gx' as <-. split; auto. contradiction.
Qed.

Lemma C48_random_lemma : forall dim sz r m bulk phases pos ph, good_size dim sz -> phases <> [] ->
  exists s st parts, setup_random_particles RA (Z.of_nat dim) sz r m bulk phases pos ph = Ok (mkSim st s) /\ square_grid (grid_size dim sz) s /\
    length parts = Z.to_nat m /\
    (forall j q c, nth_error parts j = Some (q, c) -> choice phases (ph j) = Ok q /\ c = map (fun a => IZR (pos j a)) (seq 0 dim)) /\
    configuration s st (fun i q => (q = bulk \/ In q phases) /\
      forall x, get_site s i = Some x -> last_hit (fun c => (dist (s_loc x) c < r)%R) parts bulk q).
Proof.
  intros dim sz r m bulk phases pos ph GS NE. destruct (setup_grid dim sz GS) as (s & L & Es & SG & G & PD & FL). exists s.
  pose proof (gf_built _ _ _ G) as HB. destruct (gf_on _ _ _ G) as [vs HL]. pose proof (dense_NoDup s None (built_dense RA L s HB)) as ND.
  assert (Ld : length (grid_size dim sz) = dim) by apply GS.
  set (mk := fun j => (match choice phases (ph j) with Ok q => q | Err _ => bulk end, map (fun a => IZR (pos j a)) (seq 0 dim))).
  set (parts := map mk (seq 0 (Z.to_nat m))).
  assert (MC : forall j, mapM (fun k0 => do len <- first_length RA s; if a_ltb RA len (a_ofZ RA 1) then Err ValueError else Ok (a_ofZ RA (pos j k0))) (seq 0 dim) =
     Ok (map (fun a => IZR (pos j a)) (seq 0 dim))).
  { intros j. destruct (grid_size dim sz) as [|k t] eqn:EK; [simpl in Ld; destruct GS as ([|] & _); lia|].
    rewrite (mapM_ext _ (fun k0 => Ok (IZR (pos j k0)))); [apply mapM_pure|]. intros a _. rewrite (FL k t eq_refl). cbn [bind a_ltb a_ofZ RA].
    destruct (Rlt_dec _ _) as [Y|]; auto. apply lt_IZR in Y. destruct GS as (_ & _ & P). rewrite EK in P. apply Forall_inv in P. lia. }
  set (hits := fun e : string * list R => flat_map (fun x => if Rlt_dec (dist (s_loc x) (snd e)) r then [(s_id x, VStr (fst e))] else []) (sites s None)).
  unfold setup_random_particles. rewrite Es. cbn [bind]. rewrite PD. unfold setup_solid_phase. rewrite blank_layout by auto.
  rewrite (foldM_puts _ (fun j => hits (mk j))); auto.
  2:{ intros j g Hj. rewrite MC. cbn [bind]. destruct (choice_total phases (ph j) NE) as (q & Eq & _). unfold mk, hits. cbn [fst snd]. rewrite Eq. cbn [bind].
      rewrite (particle_layout _ vs _ L s g _ r q HL HB); auto. now rewrite map_length, seq_length. }
  cbn [bind]. eexists. exists parts. split; [reflexivity|]. split; auto. split; [unfold parts; now rewrite map_length, seq_length|].
  assert (PQ : forall j q c, nth_error parts j = Some (q, c) -> choice phases (ph j) = Ok q /\ c = map (fun a => IZR (pos j a)) (seq 0 dim)).
  { intros j q c E. unfold parts in E. rewrite nth_error_map in E. destruct (nth_error (seq 0 (Z.to_nat m)) j) as [j'|] eqn:Ej; [|discriminate].
    assert (j' = j). { assert (j < length (seq 0 (Z.to_nat m)))%nat by (apply nth_error_Some; congruence). rewrite seq_length in *.
      rewrite (nth_error_nth' _ 0%nat) in Ej by now rewrite seq_length. rewrite seq_nth in Ej by auto. injection Ej as <-. reflexivity. }
    subst j'. unfold mk in E. cbn [option_map] in E. destruct (choice_total phases (ph j) NE) as (q' & Eq & _). rewrite Eq in *. injection E as <- <-. auto. }
  split; auto. apply (config_layout RA L); auto. intros i x Gx.
  replace (flat_map (fun j => hits (mk j)) (seq 0 (Z.to_nat m))) with (flat_map hits parts) by (unfold parts; rewrite !flat_map_concat_map, map_map; reflexivity).
  assert (X : forall l, (forall e, In e l -> In (fst e) phases) -> exists q, puts (fun _ => VStr bulk) (flat_map hits l) i = VStr q /\ (q = bulk \/ In q phases) /\
     last_hit (fun c => (dist (s_loc x) c < r)%R) l bulk q).
  { clear -HB Gx. intros l. induction l as [|e l IH] using rev_ind; intros Hl.
    - exists bulk. split; auto. split; auto. right. split; [intros e []|auto].
    - destruct IH as (q & E & Q & H); [intros; apply Hl; apply in_or_app; auto|].
      rewrite flat_map_app. unfold puts. rewrite fold_left_app. fold (puts (fun _ => VStr bulk) (flat_map hits l)).
      cbn [flat_map]. rewrite app_nil_r. unfold hits at 1.
      match goal with |- context [fold_left _ ?l ?g' i] => fold (puts g' l) end. rewrite (particle_at s L _ _ _ _ i x HB Gx).
      destruct (Rlt_dec _ _) as [Y|N].
      + exists (fst e). split; auto. split; [right; apply Hl; apply in_or_app; simpl; auto|]. left. exists l, (snd e), []. rewrite <- surjective_pairing. split; auto.
      + exists q. split; auto. split; auto. destruct H as [(l1 & b & l2 & -> & Hb & Hn)|[Hn ->]].
        * left. exists l1, b, (l2 ++ [e]). rewrite <- app_assoc. split; auto. split; auto. intros e' He'. apply in_app_or in He' as [He'|[<-|[]]]; auto.
        * right. split; auto. intros e' He'. apply in_app_or in He' as [He'|[<-|[]]]; auto. }
  destruct (X parts) as (q & E & Q & H).
  { intros [q c] He. apply In_nth_error in He as [j Hj]. destruct (PQ j q c Hj) as [Ej _]. cbn [fst]. eapply choice_in; eauto. }
  exists q. split; auto. split; auto. intros x' Gx'. rewrite Gx in Gx'. injection Gx' as <-. exact H.
Qed.
