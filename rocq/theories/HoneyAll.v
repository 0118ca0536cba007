(** Sites, lookups and reloading of honeycombs of every size (C117). *)
From Coq Require Import Reals Lra Psatz Permutation.
From Verif Require Import Prelude Dict Val Arith RVec RealArith LatticeModel JsonModel StructModel StateModel NbModel GridModel SimModel
  SpecGeom SpecState SpecResult SpecNb SpecGrid SpecHoney LatticeFacts LatticeMore StructFacts StructMore StructBuild StructExact NbFacts NbMore GridFacts PmgFacts AnalyzerMore HoneyFacts.
Local Open Scope Z_scope.

Section Size.
  Variables n m : Z.
  Hypothesis Hn : 1 <= n.
  Hypothesis Hm : 1 <= m.
  Let W := scaled [n; m] rhomb.
  Lemma n1 : (1 <= IZR n)%R. Proof. now apply IZR_le. Qed.
  Lemma m1 : (1 <= IZR m)%R. Proof. now apply IZR_le. Qed.

  Lemma unit_frac k l e : 0 <= k < l -> (Rabs e <= 1/100)%R -> (0 <= (IZR k + 1/2 + e) / IZR l < 1)%R.
  Proof.
    intros [K1 K2] He. apply Rabs_bnd in He. assert (K3 : k + 1 <= l) by lia. apply IZR_le in K1, K3. rewrite plus_IZR in K3.
    split; [apply Rmult_le_pos; [lra|left; apply Rinv_0_lt_compat; lra]|].
    apply Rmult_lt_reg_r with (IZR l); [lra|]. unfold Rdiv. rewrite Rmult_assoc, Rinv_l; lra.
  Qed.

  Lemma hxa_in i j : 0 <= i < n -> 0 <= j < m -> in_cell 2 W [true; true] (hx i j).
  Proof.
    intros Hi Hj. pose proof n1. pose proof m1. exists [(IZR i + 1/2 + 0) / IZR n; (IZR j + 1/2 + 0) / IZR m]%R. split.
    - split; [reflexivity|]. unfold W. rewrite wide_comb. unfold hex_centre. f_equal; [|f_equal]; field; lra.
    - constructor; [|constructor; [|constructor]]; intros _; apply unit_frac; auto; rewrite Rabs_R0; lra.
  Qed.
  Lemma hxa_round_in i j : 0 <= i < n -> 0 <= j < m -> in_cell 2 W [true; true] (map round3 (hx i j)).
  Proof.
    intros Hi Hj. pose proof n1. pose proof m1. pose proof r3_pos. pose proof (off_bound j) as B. apply Rabs_bnd in B.
    exists [(IZR i + 1/2 + - off j) / IZR n; (IZR j + 1/2 + 2 * off j) / IZR m]%R. split.
    - split; [reflexivity|]. unfold W. rewrite wide_comb. unfold hex_centre. cbn [map]. f_equal; [|f_equal].
      + replace (IZR i + IZR j / 2 + 3 / 4)%R with (IZR (1000 * i + 500 * j + 750) / 1000)%R at 1 by (rewrite !plus_IZR, !mult_IZR; field).
        rewrite round3_milli, !plus_IZR, !mult_IZR. field. lra.
      + unfold off. set (y := round3 _). field. lra.
    - constructor; [|constructor; [|constructor]]; intros _; apply unit_frac; auto; apply Rabs_le; lra.
  Qed.
  (** No centre is half way between two thousandths. *)
  Lemma hxa_untied i j : Forall (fun x => (Rabs (x * 1000 - IZR (zrint (x * 1000))) < 1/2)%R) (hx i j).
  Proof.
    unfold hex_centre. constructor; [|constructor; [|constructor]].
    - replace ((IZR i + IZR j / 2 + 3 / 4) * 1000)%R with (IZR (1000 * i + 500 * j + 750)) by (rewrite !plus_IZR, !mult_IZR; field).
      rewrite zrint_IZR, Rminus_diag_eq, Rabs_R0 by auto. lra.
    - set (x := ((IZR j + 1 / 2) * (r3 / 2) * 1000)%R). pose proof (zrint_bound x) as B. remember (zrint x) as k eqn:Ek. clear Ek.
      destruct B as [B|B]; [exact B|exfalso].
      assert (E : (3 * IZR (500 * (2 * j + 1)) * IZR (500 * (2 * j + 1)) = IZR ((2 * k + 1) * (2 * k + 1)) \/ 3 * IZR (500 * (2 * j + 1)) * IZR (500 * (2 * j + 1)) = IZR ((2 * k - 1) * (2 * k - 1)))%R).
      { assert (X : (x = IZR k + 1/2 \/ x = IZR k - 1/2)%R) by (unfold Rabs in B; destruct (Rcase_abs (x - IZR k)) in B; lra).
        assert (Q : (4 * x * x = 3 * IZR (500 * (2 * j + 1)) * IZR (500 * (2 * j + 1)))%R).
        { rewrite !mult_IZR, !plus_IZR, !mult_IZR. unfold x. pose proof r3_sq as S. replace (4 * ((IZR j + 1 / 2) * (r3 / 2) * 1000) * ((IZR j + 1 / 2) * (r3 / 2) * 1000))%R with ((r3 * r3) * (1000 * (IZR j + 1/2)) * (1000 * (IZR j + 1/2)))%R by field.
          rewrite S. field. }
        rewrite <- Q, !mult_IZR, !plus_IZR, !minus_IZR, !mult_IZR. destruct X as [-> | ->]; [left|right]; field. }
      destruct E as [E|E]; rewrite <- !mult_IZR in E; apply eq_IZR in E; pose proof (f_equal (fun z => z mod 2) E) as F; cbv beta in F.
      + replace (3 * (500 * (2 * j + 1)) * (500 * (2 * j + 1))) with (0 + (3 * 250 * (2 * j + 1) * (500 * (2 * j + 1))) * 2) in F by lia.
        replace ((2 * k + 1) * (2 * k + 1)) with (1 + (2 * k * k + 2 * k) * 2) in F by lia. rewrite !Z_mod_plus_full in F. discriminate.
      + replace (3 * (500 * (2 * j + 1)) * (500 * (2 * j + 1))) with (0 + (3 * 250 * (2 * j + 1) * (500 * (2 * j + 1))) * 2) in F by lia.
        replace ((2 * k - 1) * (2 * k - 1)) with (1 + (2 * k * k - 2 * k) * 2) in F by lia. rewrite !Z_mod_plus_full in F. discriminate.
  Qed.
End Size.

Lemma honey_all n m : 1 <= n -> 1 <= m -> exists s L' outs,
  let t := map (fun c => ("A"%string, hx (nth 0 c 0) (nth 1 c 0))) (cells [n; m]) in
  honeycomb n m s /\ lattice_on 2 (scaled [n; m] rhomb) [true; true] L' /\
  adds RA (struct_init L') t = (s, outs) /\ accepted t outs = t /\ Z.of_nat (length (sites s None)) = n * m /\
  (forall i j, 0 <= i < n -> 0 <= j < m -> nth_error t (Z.to_nat (i * m + j)) = Some ("A"%string, hx i j) /\
     get_site s (i * m + j) = Some (mkSite "A" (map round3 (hx i j)) (i * m + j))).
Proof.
  intros Hn Hm. destruct honey_builder as (L & HL & EB). assert (Pk : Forall (fun a => 0 < a) [n; m]) by (repeat constructor; lia).
  set (mo := MDict [("A"%string, [[1/2; 1/2]%R])]) in *. set (t := tiling [n; m] (motif_dict mo) (frac_place 2 rhomb)).
  assert (MO : motif_ok 2 mo).
  { intros c l v [E|[]] Hv. injection E as <- <-. destruct Hv as [<-|[]]. reflexivity. }
  assert (ET : t = map (fun c => ("A"%string, hx (nth 0 c 0) (nth 1 c 0))) (cells [n; m])).
  { unfold t, tiling. cbn [motif_dict mo flat_map map fst snd app].
    assert (G : forall l, incl l (cells [n; m]) ->
      flat_map (fun c => [("A"%string, frac_place 2 rhomb c [1/2; 1/2]%R)]) l = map (fun c => ("A"%string, hx (nth 0 c 0) (nth 1 c 0))) l).
    { induction l as [|c l IH]; intros Hl; auto. cbn [flat_map map app]. rewrite IH by (intros x Hx; apply Hl; simpl; auto). do 2 f_equal.
      destruct (hex_cells n m c) as (i & j & -> & _); [apply Hl; simpl; auto|]. apply hx_place. }
    apply G. apply incl_refl. }
  destruct (C33_fractional_lemma 2 rhomb [true; true] L [n; m] mo HL eq_refl Pk MO) as [H1 _]. fold t in H1.
  destruct (build_tiling 2 rhomb [true; true] L [n; m] mo true (frac_place 2 rhomb) HL eq_refl Pk) as (L' & HL' & EF).
  { intros c v Hc Hv. apply (frac_loc 2 rhomb [true; true] L [n; m] mo c v HL eq_refl MO Hc Hv). }
  fold t in EF.
  assert (PER : forall i j, 0 <= i < n -> 0 <= j < m -> periodised 2 (scaled [n; m] rhomb) [true; true] (hx i j) (hx i j)).
  { intros i j Hi Hj. split; [|apply hxa_in; auto]. apply (image_refl 2 (scaled [n; m] rhomb) [true; true] L' HL'). reflexivity. }
  assert (NC : no_collision 2 (scaled [n; m] rhomb) [true; true] t).
  { intros a b c d p q D Ha Hb (p' & q' & P & Q & E). rewrite ET, nth_error_map in Ha, Hb.
    destruct (nth_error (cells [n; m]) a) as [x|] eqn:Ea; [|discriminate]. destruct (nth_error (cells [n; m]) b) as [y|] eqn:Eb; [|discriminate].
    injection Ha as <- <-. injection Hb as <- <-.
    destruct (hex_cells n m x (nth_error_In _ _ Ea)) as (i & j & -> & Hi & Hj).
    destruct (hex_cells n m y (nth_error_In _ _ Eb)) as (i' & j' & -> & Hi' & Hj'). cbn [nth] in P, Q.
    rewrite (periodised_unique 2 _ _ L' HL' (hx i j) p' _ eq_refl P (PER i j Hi Hj)) in E.
    rewrite (periodised_unique 2 _ _ L' HL' (hx i' j') q' _ eq_refl Q (PER i' j' Hi' Hj')) in E.
    apply place_hx in E as [-> ->]. apply D. eapply NoDup_nth_error; [|apply nth_error_Some; rewrite Ea; discriminate|congruence].
    apply cells_NoDup. }
  destruct (H1 NC) as (s & EBF & HS & CNT).
  pose proof EBF as EBF'. rewrite EF in EBF'. destruct (foldM_adds RA t _ _ EBF') as (outs & EA & EACC).
  assert (HB : built RA L' s) by (exists t; now rewrite EA).
  exists s, L', outs. rewrite <- ET. cbv zeta.
  split. { eexists. split; [exact EB|]. unfold build. cbn [b_lattice b_motif b_frac]. rewrite (on_dim _ _ _ _ HL). exact EBF. }
  split; auto. split; auto. split; auto. split; [rewrite CNT; cbn; lia|].
  intros i j Hi Hj. pose proof (hex_cells_in n m i j Hi Hj) as HC.
  assert (ER : rank [n; m] [i; j] = i * m + j) by (cbn [rank fold_right]; lia).
  assert (NTH : nth_error t (Z.to_nat (rank [n; m] [i; j])) = Some ("A"%string, hx i j)).
  { rewrite ET, nth_error_map, (cells_nth [n; m] [i; j] Pk HC). reflexivity. }
  destruct (holds_nth _ _ _ _ _ _ _ _ HS NTH) as (q & P & E).
  pose proof (rank_bound _ _ HC) as RB. rewrite Z2Nat.id in E by lia. rewrite ER in E, NTH. split; [exact NTH|].
  rewrite (periodised_unique 2 _ _ L' HL' (hx i j) q _ eq_refl P (PER i j Hi Hj)) in E.
  apply (built_get L' s HB). split; [eapply nth_error_In; eauto|reflexivity].
Qed.

Lemma hx_image n m i j : 1 <= n -> 1 <= m -> image 2 (scaled [n; m] rhomb) [true; true] (hx (i mod n) (j mod m)) (hx i j).
Proof.
  intros Hn Hm. exists [i / n; j / m]. split; [repeat constructor; discriminate|].
  pose proof (Z.div_mod i n ltac:(lia)) as Ei. pose proof (Z.div_mod j m ltac:(lia)) as Ej. cbn [map]. rewrite wide_comb.
  apply (f_equal IZR) in Ei, Ej. rewrite plus_IZR, mult_IZR in Ei, Ej. unfold hex_centre, vplus. cbn. rewrite Ei, Ej. f_equal; [|f_equal]; field.
Qed.
Lemma image_hx n m i j q : image 2 (scaled [n; m] rhomb) [true; true] (hx i j) q -> exists a b, q = hx (i + n * a) (j + m * b).
Proof.
  intros (z & Wz & ->). inversion Wz as [|? a ? z1 _ W1]; subst. inversion W1 as [|? b ? z2 _ W2]; subst. inversion W2; subst.
  exists a, b. cbn [map]. rewrite wide_comb. unfold hex_centre, vplus. cbn. rewrite !plus_IZR, !mult_IZR. f_equal; [|f_equal]; field.
Qed.

Lemma C117_lemma : forall n m, 1 <= n -> 1 <= m -> exists s, honeycomb n m s /\
  Z.of_nat (length (sites s None)) = n * m /\
  (forall i j, exists x, site_at RA s (hex_centre i j) = Ok (Some x) /\ get_site s (hex_id n m i j) = Some x /\
     s_id x = hex_id n m i j /\ s_class x = "A"%string /\ s_loc x = map round3 (hex_centre (i mod n) (j mod m))) /\
  (forall x y k, id_at RA s [x; y] = Ok (Some k) -> exists i j, k = hex_id n m i j /\
     (Rabs (x - nth 0 (hex_centre i j) 0) <= 1/1000 /\ Rabs (y - nth 1 (hex_centre i j) 0) <= 1/1000)%R) /\
  struct_from_dict RA (struct_json s) = Ok s /\
  (forall st i j, state_at RA (mkSim st s) (hex_centre i j) = Ok (get_site_state st (KInt (hex_id n m i j)))) /\
  (forall st, json_state st -> sim_from_dict RA (sim_json (mkSim st s)) = Ok (mkSim st s)).
Proof.
  intros n m Hn Hm. destruct (honey_all n m Hn Hm) as (s & L & outs & HC & HL & HA & AC & CT & GS).
  set (t := map (fun c => ("A"%string, hx (nth 0 c 0) (nth 1 c 0))) (cells [n; m])) in *.
  assert (ST : Forall (fun x => settled 2 (scaled [n; m] rhomb) [true; true] (snd x)) (accepted t outs)).
  { rewrite AC. apply Forall_forall. intros x Hx. apply in_map_iff in Hx as (c & <- & Hc). destruct (hex_cells n m c Hc) as (i & j & -> & Hi & Hj). cbn [snd nth].
    exists (hx i j). split; [split; [apply (image_refl 2 _ _ L HL); reflexivity|now apply hxa_in]|]. split; [now apply hxa_round_in|apply hxa_untied]. }
  destruct (C29_lemma 2 _ _ L t s outs HL HA) as [FND ALL]. rewrite AC in FND, ALL.
  assert (BD : forall i j, 0 <= i mod n < n /\ 0 <= j mod m < m) by (intros; split; apply Z.mod_pos_bound; lia).
  assert (NN : forall i j, 0 <= (i mod n) * m + j mod m) by (intros i j; destruct (BD i j); nia).
  assert (LK : forall i j, exists x, site_at RA s (hex_centre i j) = Ok (Some x) /\ get_site s (hex_id n m i j) = Some x /\
     s_id x = hex_id n m i j /\ s_class x = "A"%string /\ s_loc x = map round3 (hex_centre (i mod n) (j mod m))).
  { intros i j. destruct (BD i j) as [Bi Bj]. destruct (GS _ _ Bi Bj) as [E G].
    destruct (FND _ _ _ _ E (hx_image n m i j Hn Hm)) as (x & Gx & Cx & Ix & Sx & _). rewrite Z2Nat.id in Gx, Ix by apply NN.
    exists x. split; auto. unfold hex_id. split; auto. split; auto. split; auto. rewrite Gx in G. injection G as ->. reflexivity. }
  exists s. split; auto. split; auto. split; [exact LK|]. split.
  { intros x y k E. destruct (ALL [x; y] eq_refl) as [(p & c & q & z & Ep & SP & _ & _ & _ & _ & EI & _)|(_ & _ & EI & _)]; [|congruence].
    rewrite EI in E. injection E as <-. unfold t in Ep. rewrite nth_error_map in Ep. destruct (nth_error (cells [n; m]) p) as [w|] eqn:Ew; [|discriminate]. injection Ep as <- <-.
    destruct (hex_cells n m w (nth_error_In _ _ Ew)) as (i & j & -> & Hi & Hj). cbn [nth] in SP. destruct SP as (p' & q' & P & Q & EP).
    assert (EH : p' = hx i j).
    { apply (periodised_unique 2 _ _ L HL (hx i j)); auto. split; [apply (image_refl 2 _ _ L HL); reflexivity|now apply hxa_in]. }
    subst p'. assert (Z.of_nat p = i * m + j) as ->.
    { destruct (GS i j Hi Hj) as [G _]. unfold t in G. rewrite nth_error_map in G. destruct (nth_error (cells [n; m]) (Z.to_nat (i * m + j))) as [w'|] eqn:Ew'; [|discriminate].
      assert (w' = [i; j]) as ->.
      { destruct (hex_cells n m w' (nth_error_In _ _ Ew')) as (i' & j' & -> & _ & _). cbn [nth] in G. injection G as G1 G2.
        assert (HP : place (hx i' j') = place (hx i j)) by (unfold hex_centre; now rewrite G1, G2). apply place_hx in HP as [-> ->]. reflexivity. }
      assert (p = Z.to_nat (i * m + j)); [|subst p; rewrite Z2Nat.id; nia].
      eapply NoDup_nth_error; [apply (cells_NoDup [n; m])|apply nth_error_Some; rewrite Ew; discriminate|congruence]. }
    destruct Q as [IQ _]. apply (image_sym 2 _ _ L HL) in IQ; [|reflexivity]. destruct IQ as (z0 & Wz & EQ).
    inversion Wz as [|? a ? z1 _ W1]; subst. inversion W1 as [|? b ? z2 _ W2]; subst. inversion W2; subst. cbn [map] in EQ. rewrite wide_comb in EQ.
    destruct q' as [|x' [|y' [|? ?]]]; cbn in EQ; try discriminate. injection EQ as EX EY.
    exists (i + n * a), (j + m * b). split.
    { unfold hex_id. rewrite !(Z.mul_comm _ a), !(Z.mul_comm _ b), !Z_mod_plus_full, !Z.mod_small by lia. reflexivity. }
    unfold place, hex_centre in EP. cbn [map] in EP. injection EP as E1 E2.
    pose proof (round3_bound (x' + 1/1000)) as B1. pose proof (round3_bound (y' + 1/1000)) as B2.
    pose proof (round3_bound (IZR i + IZR j / 2 + 3 / 4 + 1/1000)) as B3. pose proof (round3_bound ((IZR j + 1 / 2) * (r3 / 2) + 1/1000)) as B4.
    rewrite E1 in B3. rewrite E2 in B4. apply Rabs_bnd in B1, B2, B3, B4. unfold hex_centre. cbn [nth]. rewrite !plus_IZR, !mult_IZR. split; apply Rabs_le; lra. }
  split; [exact (C35_lemma 2 _ _ L t s outs HL HA ST)|]. split.
  - intros st i j. destruct (LK i j) as (x & E & _ & EI & _). unfold state_at. cbn [sim_struct sim_state]. rewrite E. cbn [bind]. now rewrite EI.
  - intros st HJ. exact (C65_roundtrip_lemma 2 _ _ L t s outs st HL HA ST HJ).
Qed.
