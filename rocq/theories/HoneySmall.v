(** Neighbourhoods on honeycombs of every size (C118). *)
From Coq Require Import Reals Lra Psatz Permutation.
From Verif Require Import Prelude Dict Val Arith RVec RealArith LatticeModel JsonModel StructModel StateModel NbModel GridModel SimModel
  SpecGeom SpecState SpecResult SpecNb SpecGrid SpecHoney LatticeFacts LatticeMore StructFacts StructMore StructBuild StructExact NbFacts NbMore GridFacts PmgFacts AnalyzerMore HoneyFacts HoneyAll.
Local Open Scope Z_scope.

Definition uu (j j' : Z) : R := (off j - off j')%R.
Definition cA (n i i' j j' : Z) : Z := i - i' - n * zrint ((IZR (i - i') + - uu j j') / IZR n).
Definition cB (m j j' : Z) : Z := j - j' - m * zrint ((IZR (j - j') + 2 * uu j j') / IZR m).

Lemma uu_bound j j' : (Rabs (uu j j') <= 1/1000)%R.
Proof. pose proof (off_bound j) as H1. pose proof (off_bound j') as H2. apply Rabs_bnd in H1, H2. apply Rabs_le. unfold uu. lra. Qed.
Lemma reduce1 n a f e : 1 <= n -> f = ((IZR a + e) / IZR n)%R -> (Rabs (IZR (a - n * zrint f) + e) <= IZR n / 2)%R.
Proof.
  intros Hn ->. pose proof (zrint_bound ((IZR a + e) / IZR n)) as H. set (z := zrint _) in *.
  assert (Pn : (1 <= IZR n)%R) by (apply IZR_le; auto). rewrite minus_IZR, mult_IZR.
  replace (IZR a - IZR n * IZR z + e)%R with (IZR n * ((IZR a + e) / IZR n - IZR z))%R by (field; lra).
  rewrite Rabs_mult, (Rabs_pos_eq (IZR n)) by lra. nra.
Qed.
Lemma cA_bound n i i' j j' : 1 <= n -> (Rabs (IZR (cA n i i' j j') - uu j j') <= IZR n / 2)%R.
Proof. intros Hn. apply reduce1; auto. Qed.
Lemma cB_bound m j j' : 1 <= m -> (Rabs (IZR (cB m j j') + 2 * uu j j') <= IZR m / 2)%R.
Proof. intros Hm. apply reduce1; auto. Qed.
Lemma cA_int n i i' j j' : 1 <= n -> 2 * Z.abs (cA n i i' j j') <= n.
Proof.
  intros Hn. pose proof (cA_bound n i i' j j' Hn) as H. pose proof (uu_bound j j') as U. apply Rabs_bnd in H, U. set (A := cA n i i' j j') in *.
  destruct (Z.le_gt_cases (2 * Z.abs A) n) as [|G]; auto. exfalso. assert (G' : n + 1 <= 2 * Z.abs A) by lia. apply IZR_le in G'. rewrite plus_IZR, mult_IZR, abs_IZR in G'.
  unfold Rabs in G'. destruct (Rcase_abs (IZR A)); lra.
Qed.
Lemma cB_int m j j' : 1 <= m -> 2 * Z.abs (cB m j j') <= m.
Proof.
  intros Hn. pose proof (cB_bound m j j' Hn) as H. pose proof (uu_bound j j') as U. apply Rabs_bnd in H, U. set (B := cB m j j') in *.
  destruct (Z.le_gt_cases (2 * Z.abs B) m) as [|G]; auto. exfalso. assert (G' : m + 1 <= 2 * Z.abs B) by lia. apply IZR_le in G'. rewrite plus_IZR, mult_IZR, abs_IZR in G'.
  unfold Rabs in G'. destruct (Rcase_abs (IZR B)); lra.
Qed.
Lemma cA_mod n i i' j j' : exists p, cA n i i' j j' = i - i' + n * p.
Proof. eexists (- _). unfold cA. rewrite Z.mul_opp_r. reflexivity. Qed.
Lemma cB_mod m j j' : exists p, cB m j j' = j - j' + m * p.
Proof. eexists (- _). unfold cB. rewrite Z.mul_opp_r. reflexivity. Qed.

Section Size.
  Variables n m : Z.
  Hypothesis Hn : 1 <= n.
  Hypothesis Hm : 1 <= m.
  Let W := scaled [n; m] rhomb.
  Lemma hxa_round i j : coords 2 W [(IZR i + 1/2 - off j) / IZR n; (IZR j + 1/2 + 2 * off j) / IZR m]%R (map round3 (hx i j)).
  Proof.
    split; [reflexivity|]. unfold W. rewrite wide_comb. unfold hex_centre. cbn [map]. pose proof (n1 n Hn). pose proof (m1 m Hm). pose proof r3_pos.
    f_equal; [|f_equal].
    - replace (IZR i + IZR j / 2 + 3 / 4)%R with (IZR (1000 * i + 500 * j + 750) / 1000)%R at 1
        by (rewrite !plus_IZR, !mult_IZR; field).
      rewrite round3_milli, !plus_IZR, !mult_IZR. field. lra.
    - unfold off. set (y := round3 _). field. lra.
  Qed.
  Lemma hxa_dist L i j i' j' : lattice_on 2 W [true; true] L ->
    exists d, cartesian_periodic_distance RA L (map round3 (hx i j)) (map round3 (hx i' j')) = Ok d /\
      (hexnorm (cA n i i' j j') (cB m j j') = 1 -> (Rabs (d - 1) <= 4/1000)%R) /\ (3 <= hexnorm (cA n i i' j j') (cB m j j') -> (101/100 <= d)%R).
  Proof.
    intros HL. pose proof (n1 n Hn) as Pn. pose proof (m1 m Hm) as Pm.
    rewrite (dist_ok 2 W [true; true] L HL _ _ _ _ (hxa_round i j) (hxa_round i' j')).
    set (f := vminus _ _). set (u := uu j j'). pose proof (uu_bound j j') as Hu. fold u in Hu.
    assert (Ef : f = [(IZR (i - i') + - u) / IZR n; (IZR (j - j') + 2 * u) / IZR m]%R).
    { unfold f, vminus, u, uu. cbn [zipwith]. rewrite !minus_IZR. f_equal; [|f_equal]; field; lra. }
    rewrite Ef. set (A := cA n i i' j j'). set (B := cB m j j').
    eexists. split; [reflexivity|].
    assert (ED : diff_frac [true; true] [(IZR (i - i') + - u) / IZR n; (IZR (j - j') + 2 * u) / IZR m]%R = [(IZR A - u) / IZR n; (IZR B + 2 * u) / IZR m]%R).
    { unfold diff_frac, rints, vminus. cbn [zipwith map]. unfold A, B, cA, cB. fold u.
      rewrite !minus_IZR, !mult_IZR. rewrite <- !minus_IZR. f_equal; [|f_equal]; field; lra. }
    rewrite ED. unfold W. rewrite wide_comb.
    replace (vlength _) with (sqrt (IZR (hexnorm A B) + 3 * IZR B * u + 3 * u * u)).
    { apply hex_length; auto. }
    unfold vlength. f_equal. unfold vdot, hexnorm. cbn [zipwith fold_right]. rewrite !plus_IZR, !mult_IZR.
    pose proof r3_sq as R3.
    replace ((IZR B + 2 * u) / IZR m * IZR m * (r3 / 2))%R with ((IZR B / 2 + u) * r3)%R by (field; lra).
    replace ((IZR A - u) / IZR n * IZR n + (IZR B + 2 * u) / IZR m * IZR m / 2)%R with (IZR A + IZR B / 2)%R by (field; lra).
    replace ((IZR B / 2 + u) * r3 * ((IZR B / 2 + u) * r3))%R with ((IZR B / 2 + u) * (IZR B / 2 + u) * (r3 * r3))%R by ring.
    rewrite R3. field.
  Qed.

  Lemma small_same1 l i' i p : 0 <= i' < l -> 0 <= i < l -> i' = i + l * p -> i' = i.
  Proof. intros H H' E. assert (p = 0); [|subst; lia]. destruct (Z.lt_trichotomy p 0) as [T|[T|T]]; auto; exfalso; nia. Qed.

  Lemma honey_nb : exists s N, honeycomb n m s /\ nb_get RA (HoneycombNeighborhoodBuilder RA) s None = Ok N /\
    forall i j, 0 <= i < n -> 0 <= j < m -> neighbours N (hex_id n m i j) (fun k => k <> hex_id n m i j /\
      exists i' j', 0 <= i' < n /\ 0 <= j' < m /\ k = hex_id n m i' j' /\ hexnorm (cA n i i' j j') (cB m j j') = 1).
  Proof.
    destruct (honey_all n m Hn Hm) as (s & L & outs & HC & HL & HA & AC & CNT & GS').
    assert (HB : built RA L s) by (eexists; rewrite HA; reflexivity).
    assert (GS : forall i j, 0 <= i < n -> 0 <= j < m -> get_site s (i * m + j) = Some (mkSite "A" (map round3 (hx i j)) (i * m + j))) by (intros; now apply GS').
    destruct (C37_lemma 2 _ _ L s (1 + 1/100)%R None HL HB) as (N & EN & HN).
    exists s, N. split; auto. split; [exact EN|].
    assert (BK : forall k y, get_site s k = Some y -> exists i' j', 0 <= i' < n /\ 0 <= j' < m /\ k = i' * m + j').
    { intros k y Gk. apply (built_get L s HB) in Gk as [Ik Ek].
      apply In_nth_error in Ik as [p Ep]. pose proof (dense_nth s p y (built_dense RA L s HB) Ep) as Es.
      assert (p < length (sites s None))%nat by (apply nth_error_Some; congruence).
      exists (k / m), (k mod m). pose proof (Z.mod_pos_bound k m ltac:(lia)). pose proof (Z.div_mod k m ltac:(lia)).
      assert (0 <= k < n * m) by lia. split; [split; [apply Z.div_pos; lia|apply Z.div_lt_upper_bound; lia]|]. split; [lia|]. lia. }
    intros i j Hi Hj.
    assert (EI : forall i j, 0 <= i < n -> 0 <= j < m -> hex_id n m i j = i * m + j) by (intros; unfold hex_id; rewrite !Z.mod_small by lia; auto). rewrite (EI i j Hi Hj).
    pose proof (GS i j Hi Hj) as G. destruct (HN _ _ G I) as [H1 _]. cbn [s_loc] in H1.
    intros o Lo. destruct (H1 o Lo) as (l & E & ND & IN). exists l. split; auto. split; auto. intros k. rewrite IN. split.
    - intros (Nk & y & d & Gk & D & Lt). split; [exact Nk|]. destruct (BK k y Gk) as (i' & j' & Hi' & Hj' & ->). exists i', j'. split; auto. split; auto. split; [now rewrite EI|].
      assert (Ey : y = mkSite "A" (map round3 (hx i' j')) (i' * m + j')) by (rewrite (GS i' j' Hi' Hj') in Gk; congruence).
      subst y. cbn [s_loc] in D. destruct (hxa_dist L i j i' j' HL) as (d' & D' & W1 & W3). rewrite D in D'. injection D' as <-.
      set (A := cA n i i' j j') in *. set (B := cB m j j') in *.
      assert (SM : hexnorm A B < 3) by (destruct (Z.lt_ge_cases (hexnorm A B) 3); auto; specialize (W3 H); lra).
      destruct (hexnorm_small A B SM) as [[EA EB]|[IH Q]]; auto. exfalso. apply Nk.
      destruct (cA_mod n i i' j j') as [p Ep]. destruct (cB_mod m j j') as [q Eq]. fold A in Ep. fold B in Eq.
      assert (i' = i) by (apply (small_same1 n i' i p); lia). assert (j' = j) by (apply (small_same1 m j' j q); lia). now subst.
    - intros (Nk & i' & j' & Hi' & Hj' & -> & Q). rewrite (EI i' j' Hi' Hj') in *. split; [exact Nk|].
      destruct (hxa_dist L i j i' j' HL) as (d & D & W1 & _). exists (mkSite "A" (map round3 (hx i' j')) (i' * m + j')), d. split; [now apply GS|]. split; [exact D|].
      specialize (W1 Q). apply Rabs_bnd in W1. lra.
  Qed.
End Size.

Lemma hex_range n m i j : 1 <= n -> 1 <= m -> exists i' j', 0 <= i' < n /\ 0 <= j' < m /\ hex_id n m i j = hex_id n m i' j' /\ (exists p, i' = i + n * p) /\ (exists q, j' = j + m * q).
Proof.
  intros Hn Hm. exists (i mod n), (j mod m). pose proof (Z.mod_pos_bound i n ltac:(lia)). pose proof (Z.mod_pos_bound j m ltac:(lia)).
  split; auto. split; auto. split; [unfold hex_id; now rewrite !Z.mod_mod by lia|].
  split; [exists (- (i / n)); pose proof (Z.div_mod i n ltac:(lia)); lia|exists (- (j / m)); pose proof (Z.div_mod j m ltac:(lia)); lia].
Qed.
Lemma hex_id_shift n m i j p q : hex_id n m (i + n * p) (j + m * q) = hex_id n m i j.
Proof. unfold hex_id. now rewrite !(Z.mul_comm _ p), !(Z.mul_comm _ q), !Z_mod_plus_full. Qed.

(** Whatever the code finds lies across an edge. *)
Lemma found_six n m i j i' j' : 1 <= n -> 1 <= m -> hexnorm (cA n i i' j j') (cB m j j') = 1 -> In (hex_id n m i' j') (six n m i j).
Proof.
  intros Hn Hm Q. destruct (cA_mod n i i' j j') as [p Ep]. destruct (cB_mod m j j') as [q Eq]. set (A := cA n i i' j j') in *. set (B := cB m j j') in *.
  destruct (hexnorm_small A B ltac:(lia)) as [[E1 E2]|[IH _]]; [rewrite E1, E2 in Q; cbn in Q; lia|].
  apply in_map_iff. exists (- A, - B). split; [|now apply hexes_opp in IH]. cbn [fst snd].
  replace (i + - A) with (i' + n * (- p)) by lia. replace (j + - B) with (j' + m * (- q)) by lia. apply hex_id_shift.
Qed.

Lemma off_01 : (off 1 < off 0)%R.
Proof.
  pose proof r3_sq as S. pose proof r3_pos as P. assert (R1 : (17320/10000 < r3)%R) by nra. assert (R2 : (r3 < 17321/10000)%R) by nra.
  assert (E0 : round3 ((IZR 0 + 1 / 2) * (r3 / 2)) = (433/1000)%R).
  { change (433/1000)%R with (IZR 433 / 1000)%R. unfold round3. rewrite (zrint_unique _ 433); [reflexivity|apply Rabs_le; lra|reflexivity || (intros X; exfalso; revert X; apply Rlt_not_eq, Rabs_def1; lra)]. }
  assert (E1 : round3 ((IZR 1 + 1 / 2) * (r3 / 2)) = (1299/1000)%R).
  { change (1299/1000)%R with (IZR 1299 / 1000)%R. unfold round3. rewrite (zrint_unique _ 1299); [reflexivity|apply Rabs_le; lra|intros X; exfalso; revert X; apply Rlt_not_eq, Rabs_def1; lra]. }
  unfold off. rewrite E0, E1. apply Rmult_lt_compat_r; [apply Rinv_0_lt_compat; lra|]. lra.
Qed.

Lemma ascent (f : nat -> R) b : forall a, (a < b)%nat -> (f a < f b)%R -> exists j, (a <= j < b)%nat /\ (f j < f (S j))%R.
Proof.
  induction b as [|b IH]; intros a Hab H; [lia|]. destruct (Rlt_le_dec (f b) (f (S b))) as [L|L]; [exists b; split; [lia|auto]|].
  destruct (Nat.eq_dec a b) as [->|D]; [lra|]. destruct (IH a ltac:(lia) ltac:(lra)) as (j & Hj & Lj). exists j. split; [lia|auto].
Qed.
Lemma off_ascent m : 3 <= m -> exists j, 0 <= j < m /\ (off j < off ((j + 1) mod m))%R.
Proof.
  intros Hm. destruct (Rlt_le_dec (off (m - 1)) (off 0)) as [L|L].
  - exists (m - 1). split; [lia|]. replace (m - 1 + 1) with (0 + 1 * m) by lia. rewrite Z_mod_plus_full, Z.mod_0_l by lia. exact L.
  - destruct (ascent (fun k => off (Z.of_nat k)) (Z.to_nat (m - 1)) 1%nat ltac:(lia)) as (j & Hj & Lj).
    { rewrite Z2Nat.id by lia. change (Z.of_nat 1) with 1. pose proof off_01. lra. }
    exists (Z.of_nat j). split; [lia|]. rewrite Nat2Z.inj_succ in Lj. rewrite Z.mod_small by lia. exact Lj.
Qed.

Lemma odd_one l x y p : 2 * Z.abs x <= l -> x = y + l * p -> l = 2 -> Z.odd y = true -> x = 1 \/ x = -1.
Proof. intros B E -> O. assert (x = -1 \/ x = 0 \/ x = 1) as [->|[->| ->]] by lia; auto. exfalso. assert (y = 2 * (- p)) as -> by lia. rewrite Z.odd_mul in O. discriminate. Qed.

Lemma C118_rows_lemma : forall m, 3 <= m -> exists s N i j k P, honeycomb 2 m s /\ nb_get RA (HoneycombNeighborhoodBuilder RA) s None = Ok N /\
  0 <= i < 2 /\ 0 <= j < m /\ In k (six 2 m i j) /\ k <> hex_id 2 m i j /\ neighbours N (hex_id 2 m i j) P /\ ~ P k.
Proof.
  intros m Hm. destruct (honey_nb 2 m ltac:(lia) ltac:(lia)) as (s & N & HC & EN & NB). destruct (off_ascent m Hm) as (j & Hj & A).
  assert (Hj' : 0 <= (j + 1) mod m < m) by (apply Z.mod_pos_bound; lia).
  exists s, N, 0, j, (hex_id 2 m 1 (j + 1)). eexists. split; [exact HC|]. split; [exact EN|]. split; [lia|]. split; [lia|].
  assert (IN : In (hex_id 2 m 1 (j + 1)) (six 2 m 0 j)).
  { apply in_map_iff. exists (-1, 1). split; [|cbn; tauto]. cbn [fst snd]. unfold hex_id. reflexivity. }
  split; [exact IN|]. split.
  { unfold hex_id. intros E. apply hex_id_inj in E; try (apply Z.mod_pos_bound; lia). destruct E as [E _]. discriminate. }
  split; [apply NB; lia|]. intros (_ & i' & j' & Hi' & Hj2 & E & Q).
  assert (E' : 1 * m + (j + 1) mod m = i' * m + j') by (unfold hex_id in E; rewrite (Z.mod_small i'), (Z.mod_small j') in E by lia; exact E).
  apply hex_id_inj in E' as [<- <-]; auto.
  destruct (cA_mod 2 0 1 j ((j + 1) mod m)) as [p Ep]. destruct (cB_mod m j ((j + 1) mod m)) as [q Eq].
  pose proof (cA_int 2 0 1 j ((j + 1) mod m) ltac:(lia)) as IA. pose proof (cB_int m j ((j + 1) mod m) ltac:(lia)) as IB.
  pose proof (cA_bound 2 0 1 j ((j + 1) mod m) ltac:(lia)) as BA. unfold uu in BA. apply Rabs_bnd in BA.
  set (a := cA _ _ _ _ _) in *. set (b := cB _ _ _) in *.
  assert (b = -1) as Eb.
  { pose proof (Z.div_mod (j + 1) m ltac:(lia)) as D. assert (X : b = -1 + m * (q + (j + 1) / m)) by lia. remember (q + (j + 1) / m) as z. clear -X IB Hm.
    destruct (Z.lt_trichotomy z 0) as [T|[T|T]]; [exfalso; nia|subst z; lia|exfalso; nia]. }
  destruct (odd_one 2 a (0 - 1) p IA Ep eq_refl eq_refl) as [Ea|Ea]; rewrite Ea, Eb in *; [|cbn in Q; lia]. lra.
Qed.
Lemma C118_columns_lemma : forall n, 3 <= n -> exists s N i j k P, honeycomb n 2 s /\ nb_get RA (HoneycombNeighborhoodBuilder RA) s None = Ok N /\
  0 <= i < n /\ 0 <= j < 2 /\ In k (six n 2 i j) /\ k <> hex_id n 2 i j /\ neighbours N (hex_id n 2 i j) P /\ ~ P k.
Proof.
  intros n Hn. destruct (honey_nb n 2 ltac:(lia) ltac:(lia)) as (s & N & HC & EN & NB).
  exists s, N, 0, 0, (hex_id n 2 1 1). eexists. split; [exact HC|]. split; [exact EN|]. split; [lia|]. split; [lia|].
  assert (EI : hex_id n 2 1 1 = 1 * 2 + 1) by (unfold hex_id; rewrite !Z.mod_small by lia; reflexivity).
  split; [apply in_map_iff; exists (1, -1); split; [|cbn; tauto]; cbn [fst snd]; unfold hex_id; reflexivity|]. split.
  { unfold hex_id. rewrite !Z.mod_small by lia. lia. }
  split; [apply NB; lia|]. intros (_ & i' & j' & Hi' & Hj2 & E & Q).
  assert (E' : 1 * 2 + 1 = i' * 2 + j') by (rewrite EI in E; unfold hex_id in E; rewrite (Z.mod_small i'), (Z.mod_small j') in E by lia; exact E).
  apply hex_id_inj in E' as [<- <-]; try lia.
  destruct (cA_mod n 0 1 0 1) as [p Ep]. destruct (cB_mod 2 0 1) as [q Eq].
  pose proof (cA_int n 0 1 0 1 ltac:(lia)) as IA. pose proof (cB_int 2 0 1 ltac:(lia)) as IB. pose proof off_01 as O.
  pose proof (cB_bound 2 0 1 ltac:(lia)) as BB. unfold uu in BB. apply Rabs_bnd in BB.
  set (a := cA _ _ _ _ _) in *. set (b := cB _ _ _) in *.
  assert (a = -1) as Ea by (clear -Ep IA Hn; destruct (Z.lt_trichotomy p 0) as [T|[T|T]]; [exfalso; nia|subst p; lia|exfalso; nia]).
  destruct (odd_one 2 b (0 - 1) q IB Eq eq_refl eq_refl) as [Eb|Eb]; rewrite Ea, Eb in *; [|cbn in Q; lia]. lra.
Qed.

(** The neighbours found are exactly the other cells across an edge if the code
    reduces every step across an edge to a step of length 1. *)
Lemma nb_six n m (OK : forall i j i' j' a b p q, 0 <= i < n -> 0 <= j < m -> 0 <= i' < n -> 0 <= j' < m -> In (a, b) hexes -> i' = i + a + n * p -> j' = j + b + m * q ->
    ~ (i' = i /\ j' = j) -> hexnorm (cA n i i' j j') (cB m j j') = 1) : 1 <= n -> 1 <= m ->
  exists s N, honeycomb n m s /\ nb_get RA (HoneycombNeighborhoodBuilder RA) s None = Ok N /\
    forall i j, 0 <= i < n -> 0 <= j < m -> neighbours N (hex_id n m i j) (fun k => In k (six n m i j) /\ k <> hex_id n m i j).
Proof.
  intros Hn Hm. destruct (honey_nb n m Hn Hm) as (s & N & HC & EN & NB). exists s, N. split; auto. split; auto. intros i j Hi Hj o Lo.
  destruct (NB i j Hi Hj o Lo) as (l & E & ND & IN). exists l. split; auto. split; auto. intros k. rewrite IN. split.
  - intros (Nk & i' & j' & Hi' & Hj' & -> & Q). split; auto. now apply found_six.
  - intros (I6 & Nk). split; auto. apply in_map_iff in I6 as ((a & b) & <- & Hab). cbn [fst snd] in *.
    destruct (hex_range n m (i + a) (j + b) Hn Hm) as (i' & j' & Hi' & Hj' & E' & (p & Ep) & (q & Eq)). rewrite E' in *. exists i', j'. split; auto. split; auto. split; auto.
    apply (OK i j i' j' a b p q); auto. intros [-> ->]. auto.
Qed.

(** How the code reduces a difference of -1, 0 or 1. *)
Lemma red_1 x p a : 2 * Z.abs x <= 1 -> x = a + 1 * p -> x = 0. Proof. lia. Qed.
Lemma red_2 x p a : 2 * Z.abs x <= 2 -> x = a + 2 * p -> -1 <= a <= 1 -> (a = 0 -> x = 0) /\ (a <> 0 -> x = 1 \/ x = -1). Proof. lia. Qed.
Lemma red_3 l x p a : 3 <= l -> 2 * Z.abs x <= l -> x = a + l * p -> -1 <= a <= 1 -> x = a.
Proof. intros L B E Ha. destruct (Z.lt_trichotomy p 0) as [T|[T|T]]; [exfalso; nia|subst p; lia|exfalso; nia]. Qed.
Lemma hex_opp a b : In (a, b) hexes -> -1 <= - a <= 1 /\ -1 <= - b <= 1 /\ hexnorm (- a) (- b) = 1.
Proof. intros H. apply hexes_opp in H. destruct (hexes_norm _ _ H) as (Q & A & B). auto. Qed.

Lemma C118_lemma : forall n m, 1 <= n -> 1 <= m -> n = 1 \/ m = 1 \/ (n = 2 /\ m = 2) \/ (3 <= n /\ 3 <= m) ->
  exists s N, honeycomb n m s /\ nb_get RA (HoneycombNeighborhoodBuilder RA) s None = Ok N /\
    forall i j, 0 <= i < n -> 0 <= j < m -> neighbours N (hex_id n m i j) (fun k => In k (six n m i j) /\ k <> hex_id n m i j).
Proof.
  intros n m Hn Hm CASES. apply nb_six; auto. intros i j i' j' a b p q Hi Hj Hi' Hj' Hab Ei Ej D.
  destruct (cA_mod n i i' j j') as [p0 Ep]. destruct (cB_mod m j j') as [q0 Eq]. destruct (hex_opp a b Hab) as (Ra & Rb & Q).
  pose proof (cA_int n i i' j j' Hn) as IA. pose proof (cB_int m j j' Hm) as IB.
  pose proof (cA_bound n i i' j j' Hn) as BA. pose proof (cB_bound m j j' Hm) as BB. apply Rabs_bnd in BA, BB.
  set (A := cA n i i' j j') in *. set (B := cB m j j') in *.
  assert (EA : A = - a + n * (p0 - p)) by lia. assert (EB : B = - b + m * (q0 - q)) by lia. set (pp := p0 - p) in *. set (qq := q0 - q) in *.
  assert (NZ : ~ (A = 0 /\ B = 0)).
  { intros [EA0 EB0]. apply D. split; [apply (small_same1 n i' i p0); lia|apply (small_same1 m j' j q0); lia]. }
  assert (AR : -1 <= A <= 1). { assert (n = 1 \/ n = 2 \/ 3 <= n) as [->|[->|L]] by lia; [lia|lia|]. rewrite (red_3 n A pp (- a)); auto. }
  assert (BR : -1 <= B <= 1). { assert (m = 1 \/ m = 2 \/ 3 <= m) as [->|[->|L]] by lia; [lia|lia|]. rewrite (red_3 m B qq (- b)); auto. }
  destruct CASES as [->|[->|[[-> ->]|[L1 L2]]]].
  - rewrite (red_1 A pp (- a) IA EA) in *. unfold hexnorm. nia.
  - rewrite (red_1 B qq (- b) IB EB) in *. unfold hexnorm. nia.
  - assert (A = 0 \/ B = 0 \/ (A = 1 /\ B = -1) \/ (A = -1 /\ B = 1) \/ (A = B /\ (A = 1 \/ A = -1))) as [H|[H|[[H1 H2]|[[H1 H2]|[H1 H2]]]]] by lia; try (unfold hexnorm; nia).
    exfalso. rewrite <- H1 in BB. assert (NJ : j <> j') by (intros ->; lia).
    assert (U : uu j j' <> 0%R).
    { pose proof off_01. unfold uu. assert ((j = 0 /\ j' = 1) \/ (j = 1 /\ j' = 0)) as [[-> ->]|[-> ->]] by lia; lra. }
    destruct H2 as [H2|H2]; rewrite H2 in BA, BB; lra.
  - rewrite (red_3 n A pp (- a)), (red_3 m B qq (- b)); auto.
Qed.
