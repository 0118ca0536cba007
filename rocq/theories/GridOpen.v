(** Square lattices with open or periodic sides and one site per cell: distance
    neighbourhoods (the guides' way of making Moore and von Neumann neighbourhoods). *)
From Coq Require Import Reals Lra Permutation.
From Verif Require Import Prelude Dict Arith RVec RealArith LatticeModel JsonModel StructModel NbModel GridModel
  SpecGeom SpecNb SpecGrid LatticeFacts LatticeMore LatticeOblique StructFacts StructMore StructBuild NbFacts NbMore NbDemo GridFacts.
Local Open Scope Z_scope.

Lemma lincomb_cons0 n c vs : lincomb (S n) c (map (cons 0%R) vs) = 0%R :: lincomb n c vs.
Proof.
  revert c; induction vs as [|v vs IH]; intros [|x c]; try reflexivity.
  simpl. rewrite IH. unfold vplus, vscale. simpl. f_equal. ring.
Qed.
Lemma axes_length n : length (axes n) = n.
Proof. induction n; simpl; auto. now rewrite map_length, IHn. Qed.
Lemma axes_widths n : widths n (axes n).
Proof.
  induction n; simpl; constructor; [simpl; now rewrite vzero_length|].
  apply Forall_forall. intros v H. apply in_map_iff in H as (u & <- & H). simpl. f_equal.
  unfold widths in IHn. rewrite Forall_forall in IHn. auto.
Qed.
Lemma axes_lincomb n : forall c, length c = n -> lincomb n c (axes n) = c.
Proof.
  induction n; intros [|x c] L; try discriminate; auto. simpl. rewrite lincomb_cons0, IHn by (simpl in L; lia).
  unfold vscale, vplus. simpl. f_equal; [ring|]. fold (vscale x (vzero n)). rewrite vscale_vzero.
  apply vplus_zero_l. simpl in L. lia.
Qed.
Lemma vdot_vzero_l n u : vdot (vzero n) u = 0%R.
Proof. revert u; induction n; destruct u; simpl; auto. change (vdot (vzero n) u) with (vdot (vzero n) u). unfold vzero in *. simpl. rewrite IHn. ring. Qed.
Lemma vdot_vzero_r n u : vdot u (vzero n) = 0%R.
Proof. revert u; induction n; destruct u; simpl; auto. unfold vzero in *. simpl. rewrite IHn. ring. Qed.
Lemma axes_dots n : forall c, length c = n -> map (fun r => vdot r c) (axes n) = c.
Proof.
  induction n; intros [|x c] L; try discriminate; auto. simpl. rewrite map_map, vdot_vzero_l. f_equal; [ring|].
  transitivity (map (fun r => vdot r c) (axes n)); [apply map_ext; intros v; simpl; ring|apply IHn; simpl in L; lia].
Qed.
Lemma axes_symmetric n : symmetric n (axes n).
Proof. intros c L. rewrite axes_lincomb, axes_dots; auto. Qed.
Lemma axes_basis n : basis n (axes n).
Proof.
  split; [apply axes_length|]. split; [apply axes_widths|]. intros c L E. rewrite axes_length in L |- *.
  now rewrite axes_lincomb in E.
Qed.
Lemma axes_scaled n c k : length c = n -> length k = n -> lincomb n c (scaled k (axes n)) = zipwith (fun x a => (x * IZR a)%R) c k.
Proof.
  intros Lc Lk. destruct (lincomb_scaled n c k (axes n)) as [E|E].
  - rewrite E. apply axes_lincomb. rewrite zipwith_length; congruence.
  - rewrite axes_length in E. congruence.
Qed.
Lemma vdot_scale_l a u v : vdot (vscale a u) v = (a * vdot u v)%R.
Proof. revert v; induction u; destruct v; simpl; try ring. unfold vscale in *. rewrite IHu. ring. Qed.
Lemma vdot_scale_r a u v : vdot u (vscale a v) = (a * vdot u v)%R.
Proof. revert v; induction u; destruct v; simpl; try ring. unfold vscale in *. rewrite IHu. ring. Qed.
Lemma axes_orthogonal n : orthogonal (axes n).
Proof.
  induction n; intros i j u v D Hi Hj; [destruct i; discriminate|].
  destruct i as [|i], j as [|j]; simpl in Hi, Hj; [congruence| | |].
  - injection Hi as <-. rewrite nth_error_map in Hj. destruct (nth_error (axes n) j); [|discriminate]. injection Hj as <-. simpl. rewrite vdot_vzero_l. ring.
  - injection Hj as <-. rewrite nth_error_map in Hi. destruct (nth_error (axes n) i); [|discriminate]. injection Hi as <-. simpl. rewrite vdot_vzero_r. ring.
  - rewrite nth_error_map in Hi, Hj. destruct (nth_error (axes n) i) eqn:Ei; [|discriminate]. destruct (nth_error (axes n) j) eqn:Ej; [|discriminate].
    injection Hi as <-. injection Hj as <-. simpl. rewrite (IHn i j _ _ ltac:(congruence) Ei Ej). ring.
Qed.
Lemma scaled_axes_orthogonal n k per : periods_orthogonal per (scaled k (axes n)).
Proof.
  intros i j u v D _ Hi Hj. unfold scaled in Hi, Hj. rewrite zipwith_nth in Hi, Hj.
  destruct (nth_error k i); [|discriminate]. destruct (nth_error (axes n) i) eqn:Ei; [|discriminate].
  destruct (nth_error k j); [|discriminate]. destruct (nth_error (axes n) j) eqn:Ej; [|discriminate].
  injection Hi as <-. injection Hj as <-. rewrite vdot_scale_l, vdot_scale_r, (axes_orthogonal n i j _ _ D Ei Ej). ring.
Qed.

(** * The structure *)
Record open_facts (n : nat) (per : list bool) (k : list Z) (p : list R) (s : structure R) (L : lattice R) : Prop := {
  of_built : built RA L s;
  of_on : lattice_on n (scaled k (axes n)) per L;
  of_site : forall c, In c (cells k) -> get_site s (rank k c) = Some (mkSite "A" (vplus (at_ c) p) (rank k c));
  of_count : Z.of_nat (length (sites s None)) = fold_right Z.mul 1 k
}.

Lemma milli_sum c p n : length c = n -> milli_position n p -> map round3 (vplus (at_ c) p) = vplus (at_ c) p.
Proof.
  intros Lc [Lp F]. revert c p F Lc Lp. induction n; intros [|x c] [|y p] F Lc Lp; try discriminate; auto.
  apply Forall_cons_iff in F as [(z & Hz & ->) F]. unfold at_, vplus in *. simpl. f_equal; [|apply IHn; auto].
  replace (IZR x + IZR z / 1000)%R with (IZR (1000 * x + z) / 1000)%R by (rewrite plus_IZR, mult_IZR; field). apply round3_milli.
Qed.
Lemma milli_place_inj n p : milli_position n p -> forall c c', length c = n -> length c' = n ->
  place (vplus (at_ c) p) = place (vplus (at_ c') p) -> c = c'.
Proof.
  intros [Lp F]. revert p Lp F. induction n; intros [|y p] Lp F [|x c] [|x' c'] Lc Lc' E; try discriminate; auto.
  apply Forall_cons_iff in F as [(z & Hz & ->) F]. unfold at_, vplus, place in E. simpl in E. injection E as E1 E2.
  f_equal; [|apply (IHn p); auto].
  replace (IZR x + IZR z / 1000 + 1 / 1000)%R with (IZR (1000 * x + z + 1) / 1000)%R in E1 by (rewrite !plus_IZR, mult_IZR; field).
  replace (IZR x' + IZR z / 1000 + 1 / 1000)%R with (IZR (1000 * x' + z + 1) / 1000)%R in E1 by (rewrite !plus_IZR, mult_IZR; field).
  rewrite !round3_milli in E1. assert (X : IZR (1000 * x + z + 1) = IZR (1000 * x' + z + 1)) by lra. apply eq_IZR in X. lia.
Qed.
Lemma milli_in_cell n per k p c : length per = n -> length k = n -> milli_position n p -> Forall (fun a => 0 < a) k -> In c (cells k) ->
  in_cell n (scaled k (axes n)) per (vplus (at_ c) p).
Proof.
  intros Lper Lk [Lp F] Pk Hc. apply cells_In in Hc.
  exists (zipwith (fun x a => (x / IZR a)%R) (vplus (at_ c) p) k).
  assert (Lc : length c = n) by (rewrite <- Lk; clear -Hc; induction Hc; simpl; auto).
  assert (LV : length (vplus (at_ c) p) = n) by (rewrite vplus_length; unfold at_; rewrite map_length; congruence).
  split; [split|].
  - rewrite zipwith_length; congruence.
  - rewrite axes_scaled; auto; [|rewrite zipwith_length; congruence].
    clear -Pk LV Lk. revert LV Lk Pk. generalize (vplus (at_ c) p) as v. revert k. induction n; intros [|a k] [|x v] LV Lk Pk; try discriminate; auto.
    apply Forall_cons_iff in Pk as [Pa Pk]. simpl. f_equal; [|apply IHn; auto]. apply IZR_lt in Pa. field. lra.
  - clear LV. revert per k p c Lper Lk Lp F Pk Hc Lc. induction n; intros [|b per] [|a k] [|y p] [|x c] Lper Lk Lp F Pk Hc Lc; try discriminate; [constructor|].
    apply Forall_cons_iff in F as [(z & Hz & ->) F]. apply Forall_cons_iff in Pk as [Pa Pk].
    inversion Hc as [|? ? ? ? Hx Hc']; subst. unfold at_, vplus. simpl. constructor.
    + intros _. assert (IZR x <= IZR a - 1)%R by (rewrite <- minus_IZR; apply IZR_le; lia). assert (0 <= IZR x)%R by (apply IZR_le; lia).
      assert (0 <= IZR z)%R by (apply IZR_le; lia). assert (IZR z <= 999)%R by (apply IZR_le; lia). apply IZR_lt in Pa.
      split; [apply Rmult_le_pos; [lra|left; now apply Rinv_0_lt_compat]|]. apply (Rmult_lt_reg_r (IZR a)); auto.
      unfold Rdiv at 1. rewrite Rmult_assoc, Rinv_l by lra. lra.
    + apply (IHn per k p c); simpl in *; auto.
Qed.

Lemma open_build n per L k p : lattice_on n (axes n) per L -> length k = n -> Forall (fun a => 0 < a) k -> milli_position n p ->
  exists s L', build_from RA L k (MList [p]) false = Ok s /\ open_facts n per k p s L'.
Proof.
  intros HL Lk Pk MP. set (vs := axes n) in *.
  set (m := MList [p]). set (t := tiling k (motif_dict m) (cart_place n vs)).
  assert (Lper : length per = n) by apply HL. assert (Lp : length p = n) by apply MP.
  assert (MO : motif_ok n m).
  { intros c l v [E|[]] Hv. injection E as <- <-. destruct Hv as [<-|[]]. auto. }
  assert (ET : t = map (fun c => ("A"%string, vplus (at_ c) p)) (cells k)).
  { unfold t, tiling. simpl.
    assert (G : forall l, (forall c, In c l -> length c = n) ->
       flat_map (fun c => [("A"%string, cart_place n vs c p)]) l = map (fun c => ("A"%string, vplus (at_ c) p)) l).
    { induction l as [|c l IH]; intros H; simpl; auto. rewrite IH by (intros; apply H; simpl; auto). do 2 f_equal.
      unfold cart_place, vs, at_. rewrite axes_lincomb; auto. rewrite map_length. apply H. simpl; auto. }
    apply G. intros c Hc. apply cells_length in Hc. congruence. }
  destruct (C33_cartesian_lemma n vs per L k m HL (axes_symmetric n) Lk Pk MO) as [H1 _]. fold t in H1.
  destruct (build_tiling n vs per L k m false (rows_place vs) HL Lk Pk) as (L' & HL' & EF).
  { intros c v Hc Hv. assert (Lc : length c = n) by (rewrite <- Lk; now apply cells_length).
    apply motif_vec_in in Hv as (cl & l & Hl & Hv). pose proof (MO _ _ _ Hl Hv) as Lv.
    pose proof (on_length n vs _ L HL) as Lvs. unfold motif_loc, rows_place. change (map (a_ofZ RA) c) with (map IZR c). unfold matvec.
    rewrite (on_matrix n vs _ L HL).
    assert (WV : width vs = length (map IZR c)).
    { rewrite map_length, Lc. pose proof (on_widths n vs _ L HL) as W. pose proof (on_pos n vs _ L HL) as P.
      destruct vs as [|r u]; [simpl in Lvs; lia|]. simpl. apply widths_cons in W. apply W. }
    rewrite WV, Nat.eqb_refl. cbn [bind].
    rewrite (map_ext _ (fun r => vdot r (map IZR c)) (fun r => dot_RA r (map IZR c))). rewrite bcast_eq by (rewrite map_length; congruence). reflexivity. }
  assert (ER : tiling k (motif_dict m) (rows_place vs) = t).
  { unfold t. apply tiling_ext. intros c v Hc. unfold cart_place, rows_place. rewrite (axes_symmetric n); auto.
    rewrite map_length, <- Lk. now apply cells_length. }
  rewrite ER in EF.
  assert (LE : forall c, In c (cells k) -> length (vplus (at_ c) p) = n).
  { intros c Hc. apply cells_length in Hc. rewrite vplus_length; unfold at_; rewrite map_length; congruence. }
  assert (PER : forall c, In c (cells k) -> periodised n (scaled k vs) per (vplus (at_ c) p) (vplus (at_ c) p)).
  { intros c Hc. split; [|now apply milli_in_cell]. apply (image_refl n (scaled k vs) per L' HL'). auto. }
  assert (NC : no_collision n (scaled k vs) per t).
  { intros i j c d x y D Hi Hj (x' & y' & P & Q & E). rewrite ET, nth_error_map in Hi, Hj.
    destruct (nth_error (cells k) i) as [a|] eqn:Ea; [|discriminate]. destruct (nth_error (cells k) j) as [b|] eqn:Eb; [|discriminate].
    injection Hi as <- <-. injection Hj as <- <-. pose proof (nth_error_In _ _ Ea) as Ha. pose proof (nth_error_In _ _ Eb) as Hb.
    rewrite (periodised_unique n _ _ L' HL' _ x' _ (LE a Ha) P (PER a Ha)) in E.
    rewrite (periodised_unique n _ _ L' HL' _ y' _ (LE b Hb) Q (PER b Hb)) in E.
    apply cells_length in Ha, Hb. apply (milli_place_inj n) in E; auto; try congruence. subst b.
    apply D. eapply NoDup_nth_error; [|apply nth_error_Some; rewrite Ea; discriminate|congruence]. apply (cells_NoDup k). }
  destruct (H1 NC) as (s & EB & HS & CNT). exists s, L'. split; auto.
  rewrite EF in EB. destruct (foldM_adds RA t _ _ EB) as (outs & EA & EACC).
  assert (HB : built RA L' s) by (exists t; now rewrite EA).
  assert (NTH : forall c, In c (cells k) -> nth_error t (Z.to_nat (rank k c)) = Some ("A"%string, vplus (at_ c) p)).
  { intros c Hc. rewrite ET, nth_error_map, (cells_nth k c Pk Hc). reflexivity. }
  constructor; auto.
  - intros c Hc. destruct (holds_nth _ _ _ _ _ _ _ _ HS (NTH c Hc)) as (q & P & E).
    pose proof (rank_bound _ _ Hc) as RB. rewrite Z2Nat.id in E by lia.
    assert (q = vplus (at_ c) p) by (apply (periodised_unique n (scaled k vs) per L' HL' (vplus (at_ c) p)); auto).
    subst q. rewrite (milli_sum c p n) in E; auto; [|apply cells_length in Hc; congruence].
    apply (built_get L' s HB). split; [eapply nth_error_In; eauto|auto].
  - rewrite CNT. simpl. lia.
Qed.

(** * Offsets and images *)
Lemma reaches_cons b per m k x c y d z c' : reaches (b :: per) (m :: k) (x :: c) (y :: d) (z :: c') <->
  (if b then (m | x + y - z) else x + y = z) /\ reaches per k c d c'.
Proof.
  unfold reaches. simpl. split.
  - intros (L1 & L2 & L3 & H). split; [apply (H 0%nat b m x y z); auto|]. repeat split; try lia. intros a. apply (H (S a)).
  - intros (H0 & L1 & L2 & L3 & H). repeat split; try lia. intros [|a] b' m' x' y' z'; simpl; [|apply H].
    intros E1 E2 E3 E4 E5. injection E1 as <-. injection E2 as <-. injection E3 as <-. injection E4 as <-. injection E5 as <-. auto.
Qed.
Lemma reaches_offsets n : forall per k c c', length per = n -> length k = n -> length c = n -> length c' = n -> forall z, whole per z ->
  reaches per k c (zipwith (fun u v => u - v) (zipwith (fun u v => u + v) c' (zipwith Z.mul z k)) c) c'.
Proof.
  induction n; intros [|b per] [|m k] [|x c] [|x' c'] L1 L2 L3 L4 [|u z] W; try discriminate; try (inversion W; fail).
  - repeat split; auto. intros [|a]; discriminate.
  - inversion W as [|? ? ? ? Wu Wz]; subst. simpl. apply reaches_cons. split; [|apply IHn; auto].
    destruct b; [exists u; lia|]. rewrite (Wu eq_refl). lia.
Qed.
Lemma offsets_whole n : forall per k c d c', length per = n -> length k = n -> reaches per k c d c' ->
  exists z, whole per z /\ d = zipwith (fun u v => u - v) (zipwith (fun u v => u + v) c' (zipwith Z.mul z k)) c.
Proof.
  induction n; intros [|b per] [|m k] c d c' L1 L2 R; try discriminate.
  - exists []. split; [constructor|]. destruct R as (E1 & E2 & E3 & _). destruct d; [|discriminate]. destruct c'; [|discriminate]. reflexivity.
  - destruct c as [|x c]; [destruct R; discriminate|]. destruct d as [|y d]; [destruct R as (_ & ? & _); discriminate|].
    destruct c' as [|x' c']; [destruct R as (_ & _ & ? & _); discriminate|]. apply reaches_cons in R as [H R].
    destruct (IHn per k c d c') as (z & W & E); auto. destruct b.
    + destruct H as [u H]. exists (u :: z). split; [constructor; auto; discriminate|]. simpl. f_equal; [lia|auto].
    + exists (0 :: z). split; [constructor; auto|]. simpl. f_equal; [lia|auto].
Qed.
Lemma offset_length n : forall p c c' z k, length p = n -> length c = n -> length c' = n -> length z = n -> length k = n ->
  vlength (vminus (vplus (at_ c) p) (vplus (vplus (at_ c') p) (zipwith (fun x a => (x * IZR a)%R) (map IZR z) k))) =
  sqrt (IZR (sq (zipwith (fun u v => u - v) (zipwith (fun u v => u + v) c' (zipwith Z.mul z k)) c))).
Proof.
  intros p c c' z k Lp Lc Lc' Lz Lk. unfold vlength. f_equal. revert p c c' z k Lp Lc Lc' Lz Lk.
  induction n; intros [|y p] [|x c] [|x' c'] [|u z] [|m k] L1 L2 L3 L4 L5; try discriminate; auto.
  unfold at_, vplus, vminus in *. simpl. rewrite IHn by (simpl in *; lia). rewrite plus_IZR, mult_IZR, minus_IZR, plus_IZR, mult_IZR. ring.
Qed.
Lemma sq_nonneg d : 0 <= sq d.
Proof. unfold sq. induction d; simpl; [lia|nia]. Qed.

Section Open.
  Context (n : nat) (per : list bool) (k : list Z) (p : list R) (s : structure R) (L : lattice R).
  Hypothesis (O : open_facts n per k p s L) (Lk : length k = n) (Pk : Forall (fun a => 0 < a) k) (MP : milli_position n p).
  Let Lper : length per = n. Proof. apply (of_on _ _ _ _ _ _ O). Qed.
  Let Lp : length p = n. Proof. apply MP. Qed.

  Lemma at_inj c c' : vplus (at_ c) p = vplus (at_ c') p -> length c = n -> length c' = n -> c = c'.
  Proof. intros E L1 L2. apply (milli_place_inj n p MP); auto. now rewrite E. Qed.
  Lemma open_sites i x : get_site s i = Some x -> exists c, In c (cells k) /\ i = rank k c /\ x = mkSite "A" (vplus (at_ c) p) i.
  Proof.
    intros G. pose proof (of_built _ _ _ _ _ _ O) as HB. pose proof G as G'. apply (built_get L s HB) in G' as [Hx Hi].
    destruct (In_nth_error _ _ Hx) as [a Ea]. pose proof (dense_nth s a x (built_dense RA L s HB) Ea) as Di.
    assert (a < length (sites s None))%nat by (apply nth_error_Some; congruence).
    assert (LC : length (cells k) = length (sites s None)).
    { pose proof (of_count _ _ _ _ _ _ O) as CN.
      enough (Z.of_nat (length (cells k)) = fold_right Z.mul 1 k) by (apply Nat2Z.inj; congruence).
      clear -Pk. induction k as [|m k' IH]; auto. apply Forall_cons_iff in Pk as [Pm Pk]. simpl.
      assert (G : forall l, Z.of_nat (length (flat_map (fun i => map (cons i) (cells k')) l)) = Z.of_nat (length l) * Z.of_nat (length (cells k'))).
      { induction l as [|y l IHl]; cbn [flat_map length]; [lia|]. rewrite app_length, map_length, Nat2Z.inj_add, IHl, Nat2Z.inj_succ. ring. }
      rewrite G, IH; auto. f_equal. unfold zrange. rewrite map_length, seq_length. lia. }
    destruct (nth_error (cells k) a) as [c|] eqn:Ec; [|apply nth_error_None in Ec; lia].
    pose proof (nth_error_In _ _ Ec) as Hc. pose proof (cells_nth k c Pk Hc) as E2.
    assert (a = Z.to_nat (rank k c)).
    { eapply NoDup_nth_error; [apply (cells_NoDup k)|lia|]. congruence. }
    pose proof (rank_bound k c Hc). assert (RI : i = rank k c) by lia. exists c. split; auto. split; auto.
    rewrite RI in G. rewrite (of_site _ _ _ _ _ _ O c Hc) in G. injection G as <-. now rewrite RI.
  Qed.
  Lemma site_in_cell c i : length c = n -> (site_in s p c i <-> In c (cells k) /\ i = rank k c).
  Proof.
    intros Lc. split.
    - intros (x & G & E). destruct (open_sites i x G) as (c' & Hc' & -> & ->). simpl in E.
      apply at_inj in E; auto; [subst; auto|]. apply cells_length in Hc'. congruence.
    - intros [Hc ->]. eexists. split; [apply (of_site _ _ _ _ _ _ O c Hc)|reflexivity].
  Qed.
  Lemma site_in_length c i : site_in s p c i -> (n <= length c)%nat.
  Proof.
    intros (x & G & E). destruct (open_sites i x G) as (c' & Hc' & -> & ->). simpl in E. apply (f_equal (@length R)) in E.
    apply cells_length in Hc'. unfold vplus, at_ in E. rewrite !zipwith_length_min, !map_length in E. lia.
  Qed.

  Lemma open_distance c c' : In c (cells k) -> In c' (cells k) ->
    exists d, reaches per k c d c' /\ cartesian_periodic_distance RA L (vplus (at_ c) p) (vplus (at_ c') p) = Ok (round3 (sqrt (IZR (sq d)))) /\
      forall d', reaches per k c d' c' -> sq d <= sq d'.
  Proof.
    intros Hc Hc'. apply cells_length in Hc as Lc, Hc' as Lc'. rewrite Lk in Lc, Lc'.
    assert (V : forall u, length u = n -> length (vplus (at_ u) p) = n).
    { intros u Lu. rewrite vplus_length; unfold at_; rewrite map_length; congruence. }
    destruct (C26_periods_lemma n _ per L (vplus (at_ c) p) (vplus (at_ c') p) (of_on _ _ _ _ _ _ O) (scaled_axes_orthogonal n k per) (V c Lc) (V c' Lc'))
      as (q & (z & W & ->) & E & MIN).
    assert (Lz : length z = n) by (rewrite <- Lper; unfold whole in W; clear -W; induction W; simpl; auto).
    rewrite axes_scaled in E, MIN by (rewrite ?map_length; auto). rewrite (offset_length n) in E by auto.
    eexists. split; [apply (reaches_offsets n per k c c'); eauto|]. split; [exact E|].
    intros d' R. destruct (offsets_whole n per k c d' c' Lper Lk R) as (z' & W' & ->).
    assert (Lz' : length z' = n) by (rewrite <- Lper; unfold whole in W'; clear -W'; induction W'; simpl; auto).
    specialize (MIN (vplus (vplus (at_ c') p) (lincomb n (map IZR z') (scaled k (axes n))))).
    rewrite axes_scaled in MIN by (rewrite ?map_length; auto). rewrite !(offset_length n) in MIN by auto.
    apply le_IZR. apply sqrt_le_0; try (apply IZR_le, sq_nonneg). apply MIN. exists z'. split; auto. now rewrite axes_scaled by (rewrite ?map_length; auto).
  Qed.

  Lemma cutoff_iff K t d : (round3 (sqrt (IZR K)) < t <= round3 (sqrt (IZR (K + 1))))%R -> ((round3 (sqrt (IZR (sq d))) < t)%R <-> sq d <= K).
  Proof.
    intros [T1 T2]. split; intros H.
    - destruct (Z_le_gt_dec (sq d) K) as [|G]; auto. exfalso.
      assert (round3 (sqrt (IZR (K + 1))) <= round3 (sqrt (IZR (sq d))))%R by (apply round3_le, sqrt_le_1_alt, IZR_le; lia). lra.
    - assert (round3 (sqrt (IZR (sq d))) <= round3 (sqrt (IZR K)))%R by (apply round3_le, sqrt_le_1_alt, IZR_le; lia). lra.
  Qed.
  Lemma inner_iff K t d : (round3 (sqrt (IZR K)) <= t < round3 (sqrt (IZR (K + 1))))%R -> ((t < round3 (sqrt (IZR (sq d))))%R <-> ~ sq d <= K).
  Proof.
    intros [T1 T2]. split; intros H.
    - intros G. assert (round3 (sqrt (IZR (sq d))) <= round3 (sqrt (IZR K)))%R by (apply round3_le, sqrt_le_1_alt, IZR_le; lia). lra.
    - assert (round3 (sqrt (IZR (K + 1))) <= round3 (sqrt (IZR (sq d))))%R by (apply round3_le, sqrt_le_1_alt, IZR_le; lia). lra.
  Qed.

  Lemma neighbours_iff {F} (N : nbhood F) i P Q : (forall j, P j <-> Q j) -> neighbours N i P -> neighbours N i Q.
  Proof. intros E H o Ho. destruct (H o Ho) as (l & E1 & ND & I). exists l. split; auto. split; auto. intros j. now rewrite I, E. Qed.

  Lemma open_cutoff K t : (round3 (sqrt (IZR K)) < t <= round3 (sqrt (IZR (K + 1))))%R ->
    exists N, nb_get RA (BDistance t) s None = Ok N /\ forall c i, length c = n -> site_in s p c i ->
      neighbours N i (fun j => j <> i /\ exists c' d, site_in s p c' j /\ reaches per k c d c' /\ sq d <= K).
  Proof.
    intros T. destruct (C37_lemma n _ per L s t None (of_on _ _ _ _ _ _ O) (of_built _ _ _ _ _ _ O)) as (N & EN & H).
    exists N. split; auto. intros c i Lc S. apply site_in_cell in S as [Hc ->]; auto.
    destruct (H _ _ (of_site _ _ _ _ _ _ O c Hc) I) as [H' _]. simpl in H'. revert H'. apply neighbours_iff. intros j.
    split; intros [D E]; split; auto.
    - destruct E as (y & d & G & ED & LT). destruct (open_sites j y G) as (c' & Hc' & -> & ->). simpl in ED.
      destruct (open_distance c c' Hc Hc') as (d' & R & E' & _). rewrite E' in ED. injection ED as <-.
      exists c', d'. split; [|split; auto; apply (cutoff_iff K t); auto]. apply site_in_cell; auto. apply cells_length in Hc'. congruence.
    - destruct E as (c' & d & S & R & LE). assert (Lc' : length c' = n) by (destruct R as (_ & _ & E & _); congruence).
      apply site_in_cell in S as [Hc' ->]; auto. destruct (open_distance c c' Hc Hc') as (d' & R' & E' & MIN).
      eexists. eexists. split; [apply (of_site _ _ _ _ _ _ O c' Hc')|]. split; [exact E'|]. apply (cutoff_iff K t); auto. specialize (MIN d R). lia.
  Qed.
  Lemma open_annular K1 K2 t1 t2 : (round3 (sqrt (IZR K1)) <= t1 < round3 (sqrt (IZR (K1 + 1))))%R -> (round3 (sqrt (IZR K2)) < t2 <= round3 (sqrt (IZR (K2 + 1))))%R ->
    exists N, nb_get RA (BAnnular t1 t2) s None = Ok N /\ forall c i, length c = n -> site_in s p c i ->
      neighbours N i (fun j => j <> i /\ exists c', site_in s p c' j /\ (exists d, reaches per k c d c' /\ sq d <= K2) /\ forall d, reaches per k c d c' -> K1 < sq d).
  Proof.
    intros T1 T2. destruct (C38_lemma n _ per L s t1 t2 None (of_on _ _ _ _ _ _ O) (of_built _ _ _ _ _ _ O)) as (N & EN & H).
    exists N. split; auto. intros c i Lc S. apply site_in_cell in S as [Hc ->]; auto.
    destruct (H _ _ (of_site _ _ _ _ _ _ O c Hc) I) as [H' _]. simpl in H'. revert H'. apply neighbours_iff. intros j.
    split; intros [D E]; split; auto.
    - destruct E as (y & d & G & ED & GT & LT). destruct (open_sites j y G) as (c' & Hc' & -> & ->). simpl in ED.
      destruct (open_distance c c' Hc Hc') as (d' & R & E' & MIN). rewrite E' in ED. injection ED as <-.
      apply (cutoff_iff K2 t2) in LT; auto. apply (inner_iff K1 t1) in GT; auto.
      exists c'. split; [apply site_in_cell; auto; apply cells_length in Hc'; congruence|]. split; [eauto|].
      intros d Rd. specialize (MIN d Rd). lia.
    - destruct E as (c' & S & (d & R & LE) & GT). assert (Lc' : length c' = n) by (destruct R as (_ & _ & E & _); congruence).
      apply site_in_cell in S as [Hc' ->]; auto. destruct (open_distance c c' Hc Hc') as (d' & R' & E' & MIN).
      eexists. eexists. split; [apply (of_site _ _ _ _ _ _ O c' Hc')|]. split; [exact E'|]. split.
      + apply (inner_iff K1 t1); auto. specialize (GT d' R'). lia.
      + apply (cutoff_iff K2 t2); auto. specialize (MIN d R). lia.
  Qed.
End Open.

Lemma C87_lemma : forall n per L k p, lattice_on n (axes n) per L -> length k = n -> Forall (fun a => 0 < a) k -> milli_position n p ->
  exists s, build_from RA L k (MList [p]) false = Ok s /\ Z.of_nat (length (sites s None)) = fold_right Z.mul 1 k /\
    (forall i x, get_site s i = Some x -> exists c, Forall2 (fun a m => 0 <= a < m) c k /\ site_in s p c i) /\
    (forall c, Forall2 (fun a m => 0 <= a < m) c k -> exists i, site_in s p c i) /\
    (forall c c' i, length c = n -> length c' = n -> site_in s p c i -> site_in s p c' i -> c = c') /\
    (forall K t, (round3 (sqrt (IZR K)) < t <= round3 (sqrt (IZR (K + 1))))%R ->
       exists N, nb_get RA (BDistance t) s None = Ok N /\ forall c i, length c = n -> site_in s p c i ->
         neighbours N i (fun j => j <> i /\ exists c' d, site_in s p c' j /\ reaches per k c d c' /\ sq d <= K)) /\
    (forall K1 K2 t1 t2, (round3 (sqrt (IZR K1)) <= t1 < round3 (sqrt (IZR (K1 + 1))))%R -> (round3 (sqrt (IZR K2)) < t2 <= round3 (sqrt (IZR (K2 + 1))))%R ->
       exists N, nb_get RA (BAnnular t1 t2) s None = Ok N /\ forall c i, length c = n -> site_in s p c i ->
         neighbours N i (fun j => j <> i /\ exists c', site_in s p c' j /\ (exists d, reaches per k c d c' /\ sq d <= K2) /\ forall d, reaches per k c d c' -> K1 < sq d)).
Proof.
  intros n per L k p HL Lk Pk MP. destruct (open_build n per L k p HL Lk Pk MP) as (s & L' & EB & O). exists s.
  assert (LC : forall c, In c (cells k) -> length c = n) by (intros c H; apply cells_length in H; congruence).
  split; auto. split; [apply (of_count _ _ _ _ _ _ O)|]. split; [|split; [|split; [|split]]].
  - intros i x G. destruct (open_sites n per k p s L' O Lk Pk MP i x G) as (c & Hc & -> & ->). exists c. split; [now apply cells_In|].
    apply (site_in_cell n per k p s L' O Lk Pk MP); auto.
  - intros c Hc. apply cells_In in Hc. exists (rank k c). apply (site_in_cell n per k p s L' O Lk Pk MP); auto.
  - intros c c' i Lc Lc' (x & G & E) (x' & G' & E'). rewrite G in G'. injection G' as <-. rewrite E in E'. apply (at_inj n p MP); auto.
  - apply (open_cutoff n per k p s L' O Lk Pk MP).
  - apply (open_annular n per k p s L' O Lk Pk MP).
Qed.

Lemma sqrt2_3 : round3 (sqrt (IZR 2)) = (1414 / 1000)%R.
Proof.
  change 1414%R with (IZR 1414). apply milli. assert (H : (1.414 * 1.414 <= IZR 2)%R) by (change (IZR 2) with 2%R; lra).
  assert (1.414 <= sqrt (IZR 2))%R by (rewrite <- (sqrt_square 1.414) by lra; now apply sqrt_le_1_alt).
  assert (sqrt (IZR 2) < 1.4145)%R.
  { rewrite <- (sqrt_square 1.4145) by lra. apply sqrt_lt_1_alt. change (IZR 2) with 2%R. lra. }
  apply Rabs_def1; lra.
Qed.
Lemma sqrt1_3 : round3 (sqrt (IZR 1)) = 1%R.
Proof. change (IZR 1) with 1%R. rewrite sqrt_1. apply (round3_IZR 1). Qed.
Lemma sq_vn d : sq d <= 1 <-> within_vn 1 d.
Proof.
  unfold sq, within_vn. set (S2 := fold_right (fun a t => a * a + t) 0). set (S1 := fold_right (fun a t => Z.abs a + t) 0).
  assert (P : forall d, 0 <= S1 d /\ S1 d <= S2 d) by (induction d0 as [|a d0 IH]; simpl in *; nia).
  split; [specialize (P d); lia|]. induction d as [|a d IH]; simpl; [lia|]. intros H. pose proof (P d) as [P1 _].
  assert (a = 0 \/ Z.abs a = 1 /\ S1 d = 0) as [->|[A Z]] by lia.
  - simpl in H. specialize (IH H). lia.
  - assert (S2 d = 0); [|nia]. clear -Z P. induction d as [|b d IH]; simpl in *; auto. pose proof (P d) as [P1 _]. assert (b = 0) by lia. subst b. simpl in Z. rewrite IH; lia.
Qed.
Lemma sq_moore d : length d = 2%nat -> (sq d <= 2 <-> within_moore 1 d) /\ (sq d <= 3 <-> within_moore 1 d).
Proof.
  destruct d as [|a [|b [|]]]; try discriminate. intros _. unfold sq, within_moore. simpl. split; split.
  1, 3: intros H; repeat constructor; nia.
  all: intros H; inversion H as [|? ? Ha H']; subst; inversion H' as [|? ? Hb _]; subst; nia.
Qed.

Lemma C87_guide_lemma : forall per L k p s, lattice_on 2 (axes 2) per L -> length k = 2%nat -> Forall (fun a => 0 < a) k -> milli_position 2 p ->
  build_from RA L k (MList [p]) false = Ok s ->
  (forall t, (1 < t <= 1414 / 1000)%R -> exists N, nb_get RA (BDistance t) s None = Ok N /\ forall c i, length c = 2%nat -> site_in s p c i ->
     neighbours N i (fun j => j <> i /\ exists c' d, site_in s p c' j /\ reaches per k c d c' /\ within_vn 1 d)) /\
  (forall t, (1414 / 1000 < t <= 2)%R -> exists N, nb_get RA (BDistance t) s None = Ok N /\ forall c i, length c = 2%nat -> site_in s p c i ->
     neighbours N i (fun j => j <> i /\ exists c' d, site_in s p c' j /\ reaches per k c d c' /\ within_moore 1 d)).
Proof.
  intros per L k p s HL Lk Pk MP EB. destruct (C87_lemma 2 per L k p HL Lk Pk MP) as (s' & EB' & _ & _ & _ & _ & H & _).
  rewrite EB in EB'. injection EB' as <-. split; intros t T.
  - destruct (H 1 t) as (N & EN & HN).
    { rewrite sqrt1_3. change (1 + 1) with 2. rewrite sqrt2_3. lra. }
    exists N. split; auto. intros c i Lc S. generalize (HN c i Lc S). apply neighbours_iff. intros j.
    split; intros (D & c' & d & S' & R & Q); split; auto; exists c', d; split; auto; split; auto; now apply sq_vn.
  - assert (X : exists K, (K = 2 \/ K = 3) /\ (round3 (sqrt (IZR K)) < t <= round3 (sqrt (IZR (K + 1))))%R).
    { destruct (Rle_lt_dec t (round3 (sqrt (IZR 3)))) as [G|G].
      - exists 2. split; auto. rewrite sqrt2_3. change (2 + 1) with 3. lra.
      - exists 3. split; auto. change (3 + 1) with 4. replace (sqrt (IZR 4)) with (IZR 2); [rewrite (round3_IZR 2); lra|].
        replace (IZR 4) with (2 * 2)%R by lra. rewrite sqrt_square; lra. }
    destruct X as (K & EK & X). destruct (H K t X) as (N & EN & HN).
    exists N. split; auto. intros c i Lc S. generalize (HN c i Lc S). apply neighbours_iff. intros j.
    split; intros (D & c' & d & S' & R & Q); split; auto; exists c', d; split; auto; split; auto;
      (assert (Ld : length d = 2%nat) by (destruct R as (_ & Ld & _); congruence)); destruct (sq_moore d Ld); destruct EK; subst K; tauto.
Qed.
