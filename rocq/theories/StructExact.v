(** Exactly which sites are found where they say they are, and exactly which
    structures survive being stored (C32, C35, C65). *)
From Coq Require Import Reals Lra.
From Verif Require Import Prelude Dict Val Arith RVec RealArith LatticeModel JsonModel StructModel StateModel ResultModel SimModel AnalyzerModel SpecState SpecResult SpecGeom LatticeFacts StructFacts StructMore JsonFacts AnalyzerMore.
Local Open Scope Z_scope.

Section Round.
  Local Open Scope R_scope.
  (** Ties are rounded to even numbers, so adding 1 does not commute with rounding there. *)
  Lemma tie_even y : Rabs (y - IZR (zrint y)) = 1/2 -> Z.even (zrint y) = true.
  Proof.
    intros H. pose proof (zfloor_spec y) as F. destruct (zrint_cases y) as [[H1 H2]|[[H1 H2]|(_ & H2 & _)]]; auto; exfalso; rewrite H2, ?plus_IZR in H.
    - rewrite Rabs_right in H; lra.
    - rewrite Rabs_left in H; lra.
  Qed.
  Lemma tie_shift y : zrint (y + IZR 1) = (zrint y + 1)%Z -> Rabs (y - IZR (zrint y)) < 1/2.
  Proof.
    intros H. pose proof (zrint_bound y) as B. destruct (Rle_lt_or_eq_dec _ _ B) as [|T]; auto. exfalso.
    pose proof (tie_even _ T) as E1. rewrite <- (zrint_shift y 1) in T. apply tie_even in T. rewrite H, Z.even_add, E1 in T. discriminate.
  Qed.
  Lemma round3_near x : Rabs (round3 x - x) <= 5 / 10000.
  Proof.
    unfold round3. pose proof (zrint_bound (x * 1000)) as B. apply Rabs_bnd in B. apply Rabs_le. lra.
  Qed.
  Lemma IZR_milli a b : IZR a / 1000 = IZR b / 1000 -> a = b.
  Proof. intros H. apply eq_IZR. lra. Qed.
  Lemma place_settled q : place (map round3 q) = place q -> Forall (fun x => Rabs (x * 1000 - IZR (zrint (x * 1000))) < 1/2) q.
  Proof.
    unfold place. rewrite map_map. induction q as [|x q IH]; intros H; constructor; injection H as H1 H2; auto.
    apply tie_shift. rewrite round3_offset_round in H1. unfold round3 in H1. replace ((x + 1/1000) * 1000) with (x * 1000 + IZR 1) in H1 by field.
    apply IZR_milli. rewrite <- H1, plus_IZR. field.
  Qed.
  Lemma place_near : forall q r v, length q = length r -> length v = length q -> place (vplus r v) = place q -> r = map round3 q -> Forall (fun x => Rabs x < 2/1000) v.
  Proof.
    induction q as [|x q IH]; intros [|y r] [|a v] L1 L2 E R; try discriminate; constructor; injection R as R1 R2; unfold place, vplus in E; cbn [zipwith map] in E; injection E as E1 E2.
    - pose proof (round3_near x) as B1. pose proof (round3_near (x + 1/1000)) as B2. pose proof (round3_near (y + a + 1/1000)) as B3.
      rewrite E1 in B3. rewrite R1 in *. apply Rabs_bnd in B1, B2, B3. apply Rabs_def1; lra.
    - apply (IH r v); auto.
  Qed.
End Round.

(** If the rounded location of a point denotes the same place, the point is settled. *)
Lemma place_back n vs per L p q q2 : lattice_on n vs per L -> coarse n vs per -> length p = n -> periodised n vs per p q ->
  periodised n vs per (map round3 q) q2 -> place q2 = place q -> settled n vs per p.
Proof.
  intros HL CO Lp P P2 E. assert (Lq : length q = n) by (eapply periodised_len; eauto). pose proof P2 as [(z & W & E2) IC].
  assert (Lv : length (lincomb n (map IZR z) vs) = n) by (apply lincomb_length, HL).
  assert (V : lincomb n (map IZR z) vs = vzero n).
  { apply CO; auto. apply (place_near q (map round3 q)); [now rewrite map_length|congruence|now rewrite <- E2|reflexivity]. }
  rewrite V, vplus_zero_r in E2 by (now rewrite map_length). subst q2. exists q. split; auto. split; auto. now apply place_settled.
Qed.
Lemma periodised_exists n vs per L p : lattice_on n vs per L -> length p = n -> exists q, periodised n vs per p q.
Proof. intros HL Lp. destruct (coords_exist n vs per L HL p Lp) as [f C]. eexists. eapply per_periodised; eauto. Qed.

Lemma C32_exact_lemma : forall n vs per L calls s outs i c p, lattice_on n vs per L -> coarse n vs per ->
  adds RA (struct_init L) calls = (s, outs) -> nth_error (accepted calls outs) i = Some (c, p) ->
  exists loc x, site_location s (Z.of_nat i) = Ok loc /\ get_site s (Z.of_nat i) = Some x /\ (site_at RA s loc = Ok (Some x) <-> settled n vs per p).
Proof.
  intros n vs per L calls s outs i c p HL CO E Hi. destruct (hist_start n vs per L HL calls) as (h & I & ND & H & RT).
  pose proof (C32_lemma n vs per L calls s outs i c p HL E Hi) as FW. rewrite E in *. cbn [fst snd] in *.
  destruct (real_hist_nth n vs per _ h i c p H Hi) as (Lp & q & P & Eh).
  pose proof (get_site_nth RA L h s i I) as G. rewrite Eh in G. cbn [option_map fst snd] in G.
  exists (map round3 q). eexists. split; [unfold site_location; rewrite G; reflexivity|]. split; [exact G|]. split.
  - intros SA. assert (Lr : length (map round3 q) = n) by (rewrite map_length; eapply periodised_len; eauto).
    destruct (periodised_exists n vs per L _ HL Lr) as [q2 P2].
    destruct (in_dec (list_eq_dec Req_EM_T) (place q2) (keys h)) as [K|K].
    + apply In_nth_error in K as [j Hj]. unfold keys in Hj. rewrite nth_error_map in Hj. destruct (nth_error h j) as [e|] eqn:Ej; [|discriminate]. injection Hj as Hj.
      rewrite (site_at_hit n vs per L HL h s _ _ j e I ND Lr P2 Ej Hj) in SA. injection SA as _ _ SA. apply Nat2Z.inj in SA. subst j. rewrite Eh in Ej. injection Ej as <-. cbn [snd] in Hj.
      eapply place_back; eauto.
    + rewrite (site_at_miss n vs per L HL h s _ _ I Lr P2 K) in SA. discriminate.
  - intros ST. destruct (FW ST) as (loc & x & E1 & E2 & E3). unfold site_location in E1. rewrite G in E1, E2. injection E1 as <-. injection E2 as <-. exact E3.
Qed.

(** What re-adding the stored locations does. *)
Lemma readd_any n vs per L : lattice_on n vs per L -> forall acc h h0 s s', real_hist n vs per acc h ->
  Inv RA L h0 s -> NoDup (keys h0) ->
  foldM (fun s kv => add_site_or_raise RA s (s_class (snd kv), s_loc (snd kv))) (map (mk RA) (enumerate_from (Z.of_nat (length h0)) h)) s = Ok s' ->
  exists h', Inv RA L (h0 ++ h') s' /\
    Forall2 (fun e e' => exists q2, periodised n vs per (map round3 (snd (fst e))) q2 /\ e' = (fst (fst e), q2, place q2)) h h'.
Proof.
  intros HL. induction acc as [|[c p] acc IH]; intros h h0 s s' H I ND E.
  - inversion H; subst. simpl in E. injection E as <-. exists []. rewrite app_nil_r. auto.
  - inversion H as [|x0 e acc0 h1 (Lp & q & P & Ee) H1 Ex Eh]. subst x0 acc0 e h. cbn [fst snd] in *.
    cbn [enumerate_from map foldM] in E. unfold mk at 1 in E. cbn [fst snd s_class s_loc] in E.
    unfold add_site_or_raise at 1 in E. cbn [fst snd s_class s_loc] in E. change (s_loc (snd (mk RA (Z.of_nat (length h0), (c, q, place q))))) with (map round3 q) in E.
    destruct (add_site_real n vs per L HL h0 s c (map round3 q) I ND) as [[X _]|(q' & _ & P' & [[K2 EA]|(K & s1 & EA & I1)])].
    { exfalso. apply X. rewrite map_length. eapply periodised_len; eauto. }
    { rewrite EA in E. discriminate. }
    rewrite EA in E. cbn [bind] in E.
    destruct (IH h1 (h0 ++ [(c, q', place q')]) s1 s' H1 I1) as (h' & I' & F').
    { unfold keys in *. rewrite map_app. simpl. apply NoDup_app_single; auto. }
    { rewrite app_length. cbn [length]. replace (Z.of_nat (length h0 + 1)) with (Z.of_nat (length h0) + 1) by lia. exact E. }
    exists ((c, q', place q') :: h'). rewrite <- app_assoc in I'. split; auto. constructor; auto. exists q'. auto.
Qed.

Lemma C35_exact_lemma : forall n vs per L calls s outs, lattice_on n vs per L -> coarse n vs per ->
  adds RA (struct_init L) calls = (s, outs) ->
  (struct_from_dict RA (struct_json s) = Ok s <-> Forall (fun x => settled n vs per (snd x)) (accepted calls outs)).
Proof.
  intros n vs per L calls s outs HL CO E. split; [|now apply (C35_lemma n vs per L)].
  intros ES. destruct (hist_start n vs per L HL calls) as (h & I & ND & H & RT).
  rewrite E in *. cbn [fst snd] in *. pose proof (lattice_on_fields _ _ _ _ HL) as [EL Pn].
  unfold struct_from_dict, lattice_from_dict in ES.
  replace (fst (struct_json s)) with (vs, per) in ES.
  2: { unfold struct_json, lattice_as_dict. destruct I as (E1 & _). rewrite E1, EL. reflexivity. }
  cbn [fst snd] in ES. rewrite (lattice_init_flags n) in ES; [|auto|apply HL]. cbn [bind flags] in ES.
  rewrite <- EL in ES. pose proof (json_items R s L h RA I) as J.
  destruct (mapM _ (snd (struct_json s))) as [items|] eqn:EM; [|discriminate]. cbn [bind] in *. injection J as J. rewrite J in ES.
  pose proof I as (E1 & E2 & E3 & E4 & E5). rewrite E3 in ES.
  destruct (readd_any n vs per L HL _ h [] (struct_init L) s H (Inv_init RA L) (NoDup_nil _) ES) as (h' & I' & F').
  destruct I' as (_ & _ & _ & _ & E5'). cbn [app] in E5'. rewrite E5 in E5'.
  assert (K : map snd h = map snd h').
  { clear -E5'. unfold enumerate in E5'. revert h' E5'. generalize 0 as i. induction h as [|e h IH]; intros i [|e' h'] X; try discriminate; auto.
    cbn [enumerate_from map] in X. injection X as X1 X2. simpl. f_equal; auto. eapply IH; eauto. }
  clear -HL CO H F' K. revert h' F' K. induction H as [|[c p] e acc h (Lp & q & P & ->) H IH]; intros h' F' K; constructor.
  - inversion F' as [|? e' ? h1 (q2 & P2 & Ee) F1]; subst. cbn [fst snd map] in *. injection K as K1 K2. eapply place_back; eauto.
  - inversion F' as [|? e' ? h1 X F1]; subst. cbn [map] in K. injection K as K1 K2. eapply IH; eauto.
Qed.

Lemma C65_exact_lemma : forall n vs per L calls s outs st, lattice_on n vs per L -> coarse n vs per ->
  adds RA (struct_init L) calls = (s, outs) -> json_state st ->
  (sim_from_dict RA (sim_json (mkSim st s)) = Ok (mkSim st s) <-> Forall (fun x => settled n vs per (snd x)) (accepted calls outs)).
Proof.
  intros n vs per L calls s outs st HL CO HA HJ. rewrite <- (C35_exact_lemma n vs per L calls s outs HL CO HA).
  unfold sim_from_dict, sim_json. cbn [fst snd sim_state sim_struct]. rewrite (C06_lemma st HJ). cbn [bind].
  destruct (struct_from_dict RA (struct_json s)) as [s'|]; cbn [bind]; split; intros X; try discriminate; injection X as ->; reflexivity.
Qed.

Lemma line_coarse : coarse 1 [[1%R]] [true].
Proof.
  intros z W H. inversion W as [|? k ? l _ W' E1 E2]; subst. inversion W'; subst. cbn [map] in *. unfold lincomb, vplus, vscale, vzero in *. simpl in *.
  inversion H as [|? ? H1 _]; subst. f_equal. replace (IZR k * 1 + 0)%R with (IZR k) in * by ring. assert (k = 0) as ->; [|reflexivity].
  apply Rabs_def2 in H1. assert (-1 < k < 1); [|lia]. split; apply lt_IZR; lra.
Qed.
