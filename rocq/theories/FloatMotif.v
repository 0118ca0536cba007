(** Motif neighbourhoods on square lattices in binary64 (C91). *)
From Coq Require Import Reals Lra Psatz Classical_Prop.
From Flocq Require Import Core BinarySingleNaN.
From Verif Require Import Prelude Dict Arith RealArith FloatArith LatticeModel JsonModel StructModel NbModel GridModel SpecGeom SpecNb SpecGrid SpecFloat64 StructFacts StructBuild
  LatticeFacts NbFacts NbMore GridFacts GridMore GridNb GridOpen FloatFacts FloatCoord FloatGrid FloatMore FloatNb FloatVec FloatAxis FloatBox FloatNorm FloatCut FloatOpen.
Local Open Scope Z_scope.

Local Notation fz := (f_ofZ 0).

Lemma short_dec k x : {falls_short k x} + {~ falls_short k x}.
Proof.
  unfold falls_short. destruct (Znumtheory.Zdivide_dec k x) as [D|D]; [|right; tauto].
  destruct (Rlt_dec (rnd (IZR x * rnd (1 / IZR k))) (IZR x / IZR k)) as [R|R]; [left|right]; tauto.
Qed.
(** The coordinate under which a site is looked up. *)
Definition landZ (k : Z) (b : bool) (x z : Z) : Z :=
  if b then if z =? 0 then if short_dec k x then k else x mod k else x mod k else x.
Lemma lands_landZ k b x z X : 0 <= z -> (z = 0 -> X = IZR x) -> lands k b x z X (landZ k b x z).
Proof.
  intros Hz HX. unfold landZ, lands, clear, wrapZ. destruct b; [|left; auto]. destruct (Z.eqb_spec z 0) as [->|N0]; [|left; split; auto; right; left; lia].
  specialize (HX eq_refl). destruct (short_dec k x) as [S|S]; [right; auto|left; split; auto; right; right; right; auto].
Qed.
Lemma placeR_whole x : Z.abs x <= M30 -> placeR x 0 = IZR x.
Proof. intros H. unfold placeR. rewrite milli_split. replace (IZR x + 0 / 1000)%R with (IZR x) by (simpl; lra). apply rnd_IZR. unfold M30 in H. lia. Qed.

Section Motif.
  Variable n : nat.
  Variable s : nat -> nat.
  Hypothesis Hs : forall a, (a < n)%nat -> (s a < n)%nat /\ s (s a) = a.
  Variable k : list Z.
  Hypothesis Lk : length k = n.
  Hypothesis Hk : Forall (fun m => 1 <= m <= M20) k.
  Variable per : list bool.
  Variable L : lattice b64.
  Hypothesis HL : axis_lattice n s (fun a => nth (s a) k 0) per L.
  Variable z : list Z.
  Hypothesis Lz : length z = n.
  Hypothesis Hz : Forall (fun a => 0 <= a < 1000) z.
  Variable cls : string.
  Variable S : structure b64.
  Hypothesis HB : fl_box n s (fun a => nth (s a) k 0) per L (fun a => nth a z 0) k cls S.

  Local Notation k' := (perm 0 n s k).
  Local Notation per' := (perm false n s per).
  Local Notation step e d e' := (reaches per' k' (perm 0 n s e) d (perm 0 n s e')).

  Definition shiftable (d : list Z) : Prop := length d = n /\ forall a, (a < n)%nat -> Z.abs (nth a d 0) <= M20.

  Definition stuck (e d : list Z) : Prop := blocked per' k' z (perm 0 n s e) d.
  Lemma stuck_nth e d : length d = n -> (stuck e d <-> exists a, (a < n)%nat /\ nth (s a) per false = true /\ nth a z 0 = 0 /\ falls_short (nth (s a) k 0) (nth (s a) e 0 + nth a d 0)).
  Proof.
    intros Ld. unfold stuck, blocked. split.
    - intros (a & m & x & y & E1 & E2 & E3 & E4 & E5 & SH). assert (Ha : (a < n)%nat) by (rewrite <- Ld; apply nth_error_Some; congruence). exists a. split; auto.
      apply (nth_error_nth _ _ false) in E1. apply (nth_error_nth _ _ 0) in E2, E3, E4, E5. rewrite perm_nth in E1 by auto. rewrite perm_nth in E2 by auto. rewrite perm_nth in E4 by auto. split; auto. split; auto. now rewrite E2, E4, E5.
    - intros (a & Ha & F & Z0 & SH). exists a, (nth (s a) k 0), (nth (s a) e 0), (nth a d 0).
      rewrite (nth_error_nth' per' false) by (rewrite perm_length; lia). rewrite !(fun l => nth_error_nth' l 0 (n := a)) by (rewrite ?perm_length; lia). rewrite !perm_nth by auto. rewrite F, Z0. auto 10.
  Qed.

  Lemma matches_step e d e' : In e (cells k) -> shiftable d -> In e' (cells k) ->
    (matches n s e' (fun a => landZ (nth (s a) k 0) (nth (s a) per false) (nth (s a) e 0 + nth a d 0) (nth a z 0)) <-> step e d e' /\ ~ stuck e d).
  Proof.
    intros He [Ld _] He'. rewrite (reaches_nth n), (stuck_nth e d Ld); auto using perm_length. split.
    - intros H. split.
      + intros a Ha. specialize (H a Ha). rewrite !perm_nth by auto. destruct (cell_bounds n s Hs k Lk Hk z Lz e' a He' Ha) as [B _]. unfold landZ in H.
        assert (P : (nth (s a) k 0 | nth (s a) e 0 + nth a d 0 - (nth (s a) e 0 + nth a d 0) mod nth (s a) k 0)).
        { exists ((nth (s a) e 0 + nth a d 0) / nth (s a) k 0). pose proof (Z.div_mod (nth (s a) e 0 + nth a d 0) (nth (s a) k 0)). lia. }
        destruct (nth (s a) per false); [|lia]. destruct (nth a z 0 =? 0); [destruct (short_dec _ _); [lia|]|]; rewrite H; exact P.
      + intros (a & Ha & F & Z0 & SH). specialize (H a Ha). destruct (cell_bounds n s Hs k Lk Hk z Lz e' a He' Ha) as [B _]. unfold landZ in H. rewrite F, Z0 in H. cbn [Z.eqb] in H.
        destruct (short_dec _ _); [lia|contradiction].
    - intros [H NS] a Ha. specialize (H a Ha). rewrite !perm_nth in H by auto. destruct (cell_bounds n s Hs k Lk Hk z Lz e' a He' Ha) as [B _]. unfold landZ.
      destruct (nth (s a) per false) eqn:F; [|lia]. assert (P : nth (s a) e' 0 = (nth (s a) e 0 + nth a d 0) mod nth (s a) k 0) by (destruct H as [q Hq]; apply (Z.mod_unique _ _ q); lia).
      destruct (Z.eqb_spec (nth a z 0) 0) as [Z0|]; auto. destruct (short_dec _ _) as [SH|]; auto. exfalso. apply NS. eauto.
  Qed.
  Lemma step_lookup e d x : In e (cells k) -> shiftable d -> get_site S (rank k e) = Some x ->
    exists o, id_at FA S (zipwith (a_add FA) (s_loc x) (nums FA d)) = Ok o /\
      (forall i, o = Some i <-> ~ stuck e d /\ exists e', In e' (cells k) /\ step e d e' /\ i = rank k e') /\
      (o = None <-> stuck e d \/ forall e', In e' (cells k) -> ~ step e d e').
  Proof.
    intros He Sd Gx. pose proof Sd as [Ld Bd]. destruct (fb_site _ _ _ _ _ _ _ _ _ HB e He) as (loc & G & [Ll Dl]). rewrite Gx in G. injection G as ->. cbn [s_loc].
    assert (NEAR : forall a, (a < n)%nat -> (Rabs (placeR (nth (s a) e 0%Z) (nth a z 0%Z) - (IZR (nth (s a) e 0%Z) + IZR (nth a z 0%Z) / 1000)) <= / 4194304)%R /\
      (Rabs (IZR (nth (s a) e 0%Z)) <= 1048576)%R /\ (Rabs (IZR (nth a d 0%Z)) <= 1048576)%R /\ (0 <= IZR (nth a z 0%Z) <= 999)%R).
    { intros a Ha. destruct (cell_bounds n s Hs k Lk Hk z Lz e a He Ha) as [_ B]. pose proof (Hz' n s Hs k Lk z Lz Hz a Ha) as Bz. split; [apply placeR_near; [unfold M20, M30 in *; lia|lia]|].
      split; [apply (IZR_abs_le _ M20 B)|]. split; [apply (IZR_abs_le _ M20), Bd; auto|now apply milli_bound]. }
    set (X := fun a => rnd (placeR (nth (s a) e 0) (nth a z 0) + IZR (nth a d 0))).
    assert (RX : forall a, (a < n)%nat -> (Rabs (X a - (IZR (nth (s a) e 0%Z + nth a d 0%Z) + IZR (nth a z 0%Z) / 1000)) <= / 1048576)%R).
    { intros a Ha. destruct (NEAR a Ha) as (N1 & N2 & N3 & N4). apply Rabs_bnd in N1, N2, N3. unfold X. set (y := (placeR (nth (s a) e 0%Z) (nth a z 0%Z) + IZR (nth a d 0%Z))%R).
      assert (BY : (Rabs y <= 4194304)%R) by (unfold y; apply Rabs_le; lra).
      assert (R1 : (Rabs (rnd y - y) <= / 4194304)%R) by (apply (rnd_close _ _ _ BY); [simpl; lra|unfold ulp_; simpl; lra]).
      apply Rabs_bnd in R1. rewrite plus_IZR. unfold y in *. apply Rabs_le. lra. }
    assert (DX : dens n (zipwith (a_add FA) loc (nums FA d)) X).
    { apply dens_zip; auto; [unfold nums; now rewrite map_length|]. intros a Ha. unfold X. apply denotes_add; auto.
      - unfold nums. rewrite (nth_map' _ 0) by congruence. apply denotes_ofZ. specialize (Bd a Ha). unfold M20 in *; lia.
      - destruct (NEAR a Ha) as (N1 & N2 & N3 & N4). apply Rabs_bnd in N1, N2, N3. apply small_big. apply Rabs_le. simpl; lra. }
    set (w := fun a => landZ (nth (s a) k 0) (nth (s a) per false) (nth (s a) e 0 + nth a d 0) (nth a z 0)).
    destruct (fb_land _ _ _ _ _ _ _ _ _ HB (zipwith (a_add FA) loc (nums FA d)) X (fun a => nth (s a) e 0 + nth a d 0) w DX) as [LS LN]; auto.
    { intros a Ha. destruct (cell_bounds n s Hs k Lk Hk z Lz e a He Ha) as [_ B]. specialize (Bd a Ha). unfold M20, NB in *. lia. }
    { intros a Ha. pose proof (Hz' n s Hs k Lk z Lz Hz a Ha) as Bz. apply lands_landZ; [lia|]. intros E0. unfold X. rewrite E0.
      destruct (cell_bounds n s Hs k Lk Hk z Lz e a He Ha) as [_ B]. specialize (Bd a Ha). rewrite placeR_whole by (unfold M20, M30 in *; lia). rewrite <- plus_IZR. apply rnd_IZR. unfold M20 in *. lia. }
    assert (UNIQ : forall e1 e2, In e1 (cells k) -> In e2 (cells k) -> ~ stuck e d -> step e d e1 -> step e d e2 -> e1 = e2).
    { intros e1 e2 H1 H2 NS S1 S2. pose proof (proj2 (matches_step e d e1 He Sd H1) (conj S1 NS)) as M1. pose proof (proj2 (matches_step e d e2 He Sd H2) (conj S2 NS)) as M2.
      apply (matches_eq n s Hs); try (now apply (cell_len n k Lk)). intros a Ha. rewrite (M1 a Ha). symmetry. apply (M2 a Ha). }
    destruct (classic (stuck e d \/ forall e', In e' (cells k) -> ~ step e d e')) as [NO|YES].
    - exists None. split; [apply LN; intros e' He' M; apply (matches_step e d e' He Sd He') in M as [St NS]; destruct NO as [NO|NO]; [auto|now apply (NO e')]|]. split.
      + intros i. split; [discriminate|]. intros (NS & e' & He' & St & _). exfalso. destruct NO as [NO|NO]; [auto|now apply (NO e')].
      + tauto.
    - assert (NS : ~ stuck e d) by tauto. assert (EX : exists e', In e' (cells k) /\ step e d e').
      { apply NNPP. intros NX. apply YES. right. intros e' He' St. apply NX. eauto. }
      destruct EX as (e' & He' & St). exists (Some (rank k e')). split; [apply LS; auto; apply (matches_step e d e' He Sd He'); auto|]. split.
      + intros i. split; [intros [= <-]; eauto|]. intros (_ & e2 & H2 & S2 & ->). now rewrite (UNIQ e' e2 He' H2 NS St S2).
      + split; [discriminate|tauto].
  Qed.

  Variable D : list (list Z).
  Hypothesis HD : Forall shiftable D.

  Lemma cell_of x : In x (sites S None) -> exists e, In e (cells k) /\ s_id x = rank k e /\ get_site S (rank k e) = Some x.
  Proof.
    intros Hx. apply (fb_in _ _ _ _ _ _ _ _ _ HB) in Hx. destruct (fb_all _ _ _ _ _ _ _ _ _ HB _ _ Hx) as (e & He & E). exists e. rewrite <- E. auto.
  Qed.
  Lemma motif_list w e x : In e (cells k) -> get_site S (rank k e) = Some x -> s_id x = rank k e ->
    exists ys, get_neighbors FA (BMotif (map (nums FA) D) w) S x = Ok ys /\
      forall o, (exists u, In (o, u) ys) <-> is_other o (rank k e) = true /\ exists d, In d D /\ id_at FA S (zipwith (a_add FA) (s_loc x) (nums FA d)) = Ok o.
  Proof.
    intros He Gx Ex. cbn [get_neighbors]. unfold motif_neighbors. rewrite Forall_forall in HD.
    destruct (motif_fold_fl (fun v => id_at FA S (zipwith (a_add FA) (s_loc x) v)) (get_dist FA w) (s_id x) (map (nums FA) D) []) as (ys & E & H).
    { intros v Hv. apply in_map_iff in Hv as (d & <- & Hd). destruct (step_lookup e d x He (HD d Hd) Gx) as (o & Eo & _). eauto. }
    exists ys. split; [exact E|]. rewrite Ex in H. intros o. split.
    - intros (u & Hu). apply H in Hu as (v & Hv & Eo & IO & _). apply in_map_iff in Hv as (d & <- & Hd). eauto.
    - intros (IO & d & Hd & Eo). eexists. apply H. exists (nums FA d). split; [now apply in_map|]. auto.
  Qed.
  Lemma rank_in e : In e (cells k) -> 0 <= rank k e < Z.of_nat (length (sites S None)).
  Proof. intros He. rewrite (fb_count _ _ _ _ _ _ _ _ _ HB). now apply rank_bound. Qed.

  Lemma motif_found w : (forall e d, In e (cells k) -> In d D -> ~ stuck e d /\ exists e', In e' (cells k) /\ step e d e') ->
    exists N, nb_get FA (BMotif (map (nums FA) D) w) S None = Ok N /\ forall c i, fl_site S z c i ->
      neighbours N i (fun j => j <> i /\ exists c' d, fl_site S z c' j /\ In d D /\ reaches per' k' c d c').
  Proof.
    intros TOT. pose proof (fb_dense _ _ _ _ _ _ _ _ _ HB) as DS. pose proof (fb_in _ _ _ _ _ _ _ _ _ HB) as IN. pose proof HD as HD'. rewrite Forall_forall in HD'.
    destruct (graph_of FA (BMotif (map (nums FA) D) w) S None DS) as (g & Eg & OUT & _).
    { intros x Hx. destruct (cell_of x Hx) as (e & He & Ex & Gx). destruct (motif_list w e x He Gx Ex) as (ys & E & H). exists ys. split; auto.
      apply Forall_forall. intros [o u] Hu. assert (EX : exists u, In (o, u) ys) by eauto. apply H in EX as (_ & d & Hd & Eo).
      destruct (step_lookup e d x He (HD' d Hd) Gx) as (o' & Eo' & SS & NN). assert (o' = o) by congruence. subst o'.
      destruct (TOT e d He Hd) as (NS & e' & He' & St). assert (o = Some (rank k e')) by (apply SS; eauto). subst o. exists (rank k e'). split; auto. now apply rank_in. }
    exists (NGraph g). split; [cbn [nb_get]; now rewrite Eg|]. intros c i Si. destruct (of_site n s Hs k Lk Hk per L z Lz Hz cls S HB c i Si) as (e & He & -> & ->).
    destruct (fb_site _ _ _ _ _ _ _ _ _ HB e He) as (loc & G & _). set (x := mkSite cls loc (rank k e)) in *. assert (Hx : In x (sites S None)) by (apply IN; exact G).
    destruct (OUT x Hx) as (ys & E & O). destruct (motif_list w e x He G eq_refl) as (ys' & E' & H). rewrite E in E'. injection E' as <-.
    apply graph_neighbours. intros j. change (s_id x) with (rank k e) in O. rewrite O.
    assert (M : In j (map fst (rev ys)) <-> exists u, In (Some j, u) (map (fun y : Z * option b64 => (Some (fst y), snd y)) ys)).
    { rewrite map_rev, <- in_rev. split.
      - intros Hj. apply in_map_iff in Hj as ([j' u] & <- & Hj). exists u. apply in_map_iff. exists (j', u). auto.
      - intros (u & Hu). apply in_map_iff in Hu as ([j' u'] & [= <- <-] & Hj). apply in_map_iff. exists (j', u'). auto. }
    rewrite M, H. cbn [is_other]. split.
    - intros (Nj & c' & d & Sj & Hd & R). destruct (of_site n s Hs k Lk Hk per L z Lz Hz cls S HB c' j Sj) as (e' & He' & -> & ->).
      split; [apply Bool.negb_true_iff; lia|]. exists d. split; auto. destruct (step_lookup e d x He (HD' d Hd) G) as (o' & Eo' & SS & NN).
      rewrite Eo'. f_equal. apply SS. split; [now apply (TOT e d He Hd)|eauto].
    - intros (Nj & d & Hd & Eo). apply Bool.negb_true_iff in Nj. split; [lia|]. destruct (step_lookup e d x He (HD' d Hd) G) as (o' & Eo' & SS & NN).
      assert (o' = Some j) by congruence. apply SS in H0 as (_ & e' & He' & St & ->). exists (perm 0 n s e'), d. split; [now apply (site_of n s k per L z Lz cls S HB)|auto].
  Qed.
  Lemma motif_lost w e d : In e (cells k) -> In d D -> stuck e d \/ (forall e', In e' (cells k) -> ~ step e d e') ->
    nb_get FA (BMotif (map (nums FA) D) w) S None = Err TypeError.
  Proof.
    intros He Hd NO. pose proof (fb_dense _ _ _ _ _ _ _ _ _ HB) as DS. pose proof (fb_in _ _ _ _ _ _ _ _ _ HB) as IN. pose proof HD as HD'. rewrite Forall_forall in HD'.
    cbn [nb_get]. rewrite (graph_None FA (BMotif (map (nums FA) D) w) S None DS); auto.
    - intros x Hx. destruct (cell_of x Hx) as (e1 & He1 & Ex & Gx). destruct (motif_list w e1 x He1 Gx Ex) as (ys & E & H). exists ys. split; auto.
      apply Forall_forall. intros [o u] Hu j Ej. cbn [fst] in Ej. subst o. assert (EX : exists u, In (Some j, u) ys) by eauto. apply H in EX as (_ & d1 & Hd1 & Eo).
      destruct (step_lookup e1 d1 x He1 (HD' d1 Hd1) Gx) as (o' & Eo' & SS & NN). assert (o' = Some j) by congruence. apply SS in H0 as (_ & e' & He' & _ & ->). now apply rank_in.
    - destruct (fb_site _ _ _ _ _ _ _ _ _ HB e He) as (loc & G & _). set (x := mkSite cls loc (rank k e)) in *. assert (Hx : In x (sites S None)) by (apply IN; exact G).
      destruct (motif_list w e x He G eq_refl) as (ys & E & H). exists x, ys. split; auto. split; auto.
      assert (EX : exists u, In (None, u) ys).
      { apply H. split; [reflexivity|]. exists d. split; auto. destruct (step_lookup e d x He (HD' d Hd) G) as (o' & Eo' & SS & NN). rewrite Eo'. f_equal. now apply NN. }
      destruct EX as (u & Hu). apply Exists_exists. exists (None, u). auto.
  Qed.
End Motif.

Lemma C91_lemma : forall n per L k z p s D, fl_axes n per L -> length k = n -> Forall (fun m => 1 <= m <= 2 ^ 20) k -> cell_position n z p ->
  Forall (fun d => length d = n /\ Forall (fun a => Z.abs a <= 2 ^ 20) d) D ->
  build_from FA L k (MList [p]) false = Ok s ->
  exists b, motif_builder FA (map (nums FA) D) = Ok b /\
    ((forall c d, Forall2 (fun a m => 0 <= a < m) c k -> In d D -> ~ blocked per k z c d /\ exists c', Forall2 (fun a m => 0 <= a < m) c' k /\ reaches per k c d c') ->
     exists N, nb_get FA b s None = Ok N /\ forall c i, fl_site s z c i ->
       neighbours N i (fun j => j <> i /\ exists c' d, fl_site s z c' j /\ In d D /\ reaches per k c d c')) /\
    ((exists c d, Forall2 (fun a m => 0 <= a < m) c k /\ In d D /\ (blocked per k z c d \/ forall c', Forall2 (fun a m => 0 <= a < m) c' k -> ~ reaches per k c d c')) ->
     nb_get FA b s None = Err TypeError).
Proof.
  intros n per L k z p s D HA Lk Hk HP HD EB. change (2 ^ 20) with M20 in *.
  destruct (axes_box n per L k z p HA Lk Hk HP) as (Hn & Lper & s' & L' & EB' & AL & FB). rewrite EB in EB'. injection EB' as <-.
  assert (Hs : forall a, (a < n)%nat -> (a < n)%nat /\ a = a) by auto. destruct HP as (Lz & Bz & _).
  assert (SD : Forall (shiftable n) D).
  { eapply Forall_impl; [|exact HD]. intros d [Ld Bd]. split; auto. intros a Ha. rewrite Forall_forall in Bd. apply Bd, nth_In. lia. }
  pose proof (cells_perm n _ Hs k Lk Hk z Lz) as CP. rewrite (perm_id 0 n k Lk) in CP.
  assert (CP' : forall c, Forall2 (fun a m => 0 <= a < m) c k <-> In c (cells k)).
  { intros c. rewrite CP. split; [intros (e & He & ->); rewrite perm_id; auto; now apply (cell_len n k Lk)|]. intros Hc'. exists c. split; auto. rewrite perm_id; auto. now apply (cell_len n k Lk). }
  destruct (motif_total (map (nums FA) D)) as (w & Ew). exists (BMotif (map (nums FA) D) w). split; auto. split.
  - intros TOT. pose proof (motif_found n _ Hs k Lk Hk per L' z Lz Bz _ s FB D SD w) as H. unfold stuck in H.
    rewrite (perm_id 0 n k Lk), (perm_id false n per Lper) in H. apply H. intros e d He Hd. destruct (TOT e d) as (NS & c' & Hc' & R); [now apply CP'|auto|].
    apply CP' in Hc'. rewrite (perm_id 0 n e) by (now apply (cell_len n k Lk)). split; auto. exists c'. split; auto. rewrite !perm_id; auto; now apply (cell_len n k Lk).
  - intros (c & d & Hc' & Hd & NO). apply CP' in Hc'. apply (motif_lost n _ Hs k Lk Hk per L' z Lz Bz _ s FB D SD w c d Hc' Hd). unfold stuck.
    rewrite (perm_id 0 n k Lk), (perm_id false n per Lper), (perm_id 0 n c) by (now apply (cell_len n k Lk)).
    destruct NO as [NO|NO]; [auto|right]. intros e' He'. rewrite perm_id by (now apply (cell_len n k Lk)). apply NO. now apply CP'.
Qed.
(** Off the borders nothing is blocked. *)
Lemma inside_free per k z c d : Forall2 (fun b a => b = true -> 1 <= a) per z -> ~ blocked per k z c d.
Proof.
  intros OB (a & m & x & y & E1 & _ & E3 & _). revert a z E1 E3 OB. induction per as [|b per IH]; intros [|a] z E1 E3 OB; try discriminate; inversion OB; subst; simpl in *.
  - injection E1 as ->. injection E3 as ->. specialize (H1 eq_refl). lia.
  - eauto.
Qed.

Lemma C91_lookup_lemma : forall n per L k z p s x v, fl_axes n per L -> length k = n -> Forall (fun m => 1 <= m <= 2 ^ 20) k -> cell_position n z p ->
  Forall2 (fun b a => b = true -> 1 <= a) per z -> build_from FA L k (MList [p]) false = Ok s ->
  length x = n -> Forall (fun a => Z.abs a <= 2 ^ 27) x ->
  Forall2 (fun q u => exists X, denotes u X /\ (Rabs (X - IZR q / 1000) <= / IZR (2 ^ 20))%R) (zipwith (fun a b => 1000 * a + b) x z) v ->
  (forall c i, fl_site s z c i -> reaches per k x (repeat 0 n) c -> id_at FA s v = Ok (Some i)) /\
  ((forall c, Forall2 (fun a m => 0 <= a < m) c k -> ~ reaches per k x (repeat 0 n) c) -> id_at FA s v = Ok None).
Proof.
  intros n per L k z p s x v HA Lk Hk HP OB EB Lx Bx HV. change (2 ^ 20) with M20 in *.
  destruct (axes_box n per L k z p HA Lk Hk HP) as (Hn & Lper & s' & L' & EB' & AL & FB). rewrite EB in EB'. injection EB' as <-.
  assert (Hs : forall a, (a < n)%nat -> (a < n)%nat /\ a = a) by auto. destruct HP as (Lz & Bz & _).
  apply (nth_Forall2 _ false 0) in OB as [_ OB]. rewrite Lper in OB.
  assert (LQ : length (zipwith (fun a b => 1000 * a + b) x z) = n) by (rewrite zipwith_length; lia).
  apply (nth_Forall2 _ 0 fz) in HV as [LV HV]. rewrite LQ in LV, HV.
  set (X := fun a => B2R (nth a v fz)).
  assert (DX : dens n v X).
  { split; [congruence|]. intros a Ha. destruct (HV a Ha) as (r & [F E] & _). split; auto. }
  destruct (fb_land _ _ _ _ _ _ _ _ _ FB v X (fun a => nth a x 0) (fun a => wrapZ (nth a k 0) (nth a per false) (nth a x 0)) DX) as [LS LN].
  { intros a Ha. rewrite Forall_forall in Bx. assert (H : Z.abs (nth a x 0) <= 2 ^ 27) by (apply Bx, nth_In; lia). unfold NB. lia. }
  { intros a Ha. destruct (HV a Ha) as (r & [F E] & H). unfold X. rewrite E. rewrite (nth_zipwith _ 0 0) in H by lia.
    change (IZR M20) with 1048576%R in H. rewrite plus_IZR, mult_IZR in H. replace ((1000 * IZR (nth a x 0%Z) + IZR (nth a z 0%Z)) / 1000)%R with (IZR (nth a x 0%Z) + IZR (nth a z 0%Z) / 1000)%R in H by lra. exact H. }
  { intros a Ha. specialize (OB a Ha). left. unfold clear. destruct (nth a per false); auto. }
  assert (ME : forall c, In c (cells k) -> (matches n (fun a => a) c (fun a => wrapZ (nth a k 0) (nth a per false) (nth a x 0)) <-> reaches per k x (repeat 0 n) c)).
  { intros c Hc. pose proof (cell_len n k Lk c Hc) as Lc. rewrite (reaches_nth n) by auto using repeat_length. split; intros H a Ha; specialize (H a Ha).
    - destruct (cell_bounds n _ Hs k Lk Hk z Lz c a Hc Ha) as [B _]. unfold wrapZ in H. rewrite nth_repeat. destruct (nth a per false); [|lia].
      rewrite H. exists (nth a x 0 / nth a k 0). pose proof (Z.div_mod (nth a x 0) (nth a k 0)). lia.
    - destruct (cell_bounds n _ Hs k Lk Hk z Lz c a Hc Ha) as [B _]. unfold wrapZ. rewrite nth_repeat in H. destruct (nth a per false); [|lia].
      destruct H as [q Hq]. apply (Z.mod_unique _ _ q); lia. }
  split.
  - intros c i Si R. destruct (of_site n _ Hs k Lk Hk per L' z Lz Bz _ s FB c i Si) as (e & He & -> & ->). rewrite perm_id in R by (now apply (cell_len n k Lk)).
    apply LS; auto. now apply ME.
  - intros NO. apply LN. intros c Hc M. apply ME in M; auto. apply (NO c); auto. apply (Forall2_nth _ 0 0); [rewrite (cell_len n k Lk c Hc); congruence|]. intros a Ha. rewrite (cell_len n k Lk c Hc) in Ha. apply (cell_bounds n _ Hs k Lk Hk z Lz c a Hc Ha).
Qed.

Lemma nth_map_seq {A} (f : nat -> A) d n a : (a < n)%nat -> nth a (map f (seq 0 n)) d = f a.
Proof. intros Ha. rewrite (nth_indep _ d (f 0%nat)) by (now rewrite map_length, seq_length). rewrite map_nth, seq_nth; auto. Qed.
Lemma wraps n k : length k = n -> Forall (fun m => 1 <= m) k -> forall c d, length c = n -> length d = n ->
  exists c', Forall2 (fun a m => 0 <= a < m) c' k /\ reaches (repeat true n) k c d c'.
Proof.
  intros Lk Hk c d Lc Ld.
  set (c' := map (fun a => (nth a c 0 + nth a d 0) mod nth a k 0) (seq 0 n)).
  assert (Lc' : length c' = n) by (unfold c'; now rewrite map_length, seq_length).
  assert (Nc : forall a, (a < n)%nat -> nth a c' 0 = (nth a c 0 + nth a d 0) mod nth a k 0) by (intros a Ha; unfold c'; now rewrite nth_map_seq).
  exists c'. split.
  + apply (Forall2_nth _ 0 0); [congruence|]. intros a Ha. rewrite Lc' in Ha. rewrite (Nc a Ha). apply Z.mod_pos_bound.
    rewrite Forall_forall in Hk. assert (H : In (nth a k 0) k) by (apply nth_In; lia). apply Hk in H. lia.
  + rewrite (reaches_nth n); auto using repeat_length. intros a Ha. rewrite (nth_indep _ false true) by (now rewrite repeat_length). rewrite nth_repeat. rewrite Nc by auto.
    exists ((nth a c 0 + nth a d 0) / nth a k 0). rewrite Forall_forall in Hk. assert (H : In (nth a k 0) k) by (apply nth_In; lia). apply Hk in H.
    pose proof (Z.div_mod (nth a c 0 + nth a d 0) (nth a k 0)). lia.
Qed.

(** Sets of offsets between the axes and the cube of radius [r]. *)
Definition along (n a : nat) (v : Z) : list Z := map (fun i => if Nat.eqb i a then v else 0) (seq 0 n).
Definition star (n : nat) (r : Z) (D : list (list Z)) : Prop :=
  (forall d, In d D -> length d = n /\ within_moore r d) /\ (forall a v, (a < n)%nat -> Z.abs v <= r -> In (along n a v) D).
Lemma along_length n a v : length (along n a v) = n.
Proof. unfold along. now rewrite map_length, seq_length. Qed.
Lemma along_nth n a v i : (i < n)%nat -> nth i (along n a v) 0 = if Nat.eqb i a then v else 0.
Proof. intros H. unfold along. now rewrite nth_map_seq. Qed.
Lemma moore_star n r : 0 <= r -> star n r (get_points_in_cube (- r) (r + 1) n).
Proof.
  intros Hr. split; [intros d Hd; now apply moore_points|]. intros a v Ha Hv. apply moore_points. split; [apply along_length|].
  unfold within_moore, along. apply Forall_forall. intros y Hy. apply in_map_iff in Hy as (i & <- & _). destruct (Nat.eqb i a); lia.
Qed.
Lemma vn_moore r d : within_vn r d -> within_moore r d.
Proof.
  unfold within_vn, within_moore. revert r. induction d as [|a d IH]; intros r H; constructor; cbn [fold_right] in H.
  - assert (0 <= fold_right (fun a t => Z.abs a + t) 0 d) by (clear; induction d; simpl; lia). lia.
  - apply IH. lia.
Qed.
Lemma vn_star n r : 0 <= r -> star n r (von_neumann_points r n).
Proof.
  intros Hr. split; [intros d Hd; apply vn_points in Hd as [L H]; auto using vn_moore|]. intros a v Ha Hv. apply vn_points. split; [apply along_length|].
  unfold within_vn, along. assert (H : forall b k, (a < b)%nat -> fold_right (fun x t => Z.abs x + t) 0 (map (fun i => if Nat.eqb i a then v else 0) (seq b k)) = 0).
  { intros b k. revert b. induction k as [|k IH]; intros b Hb; simpl; auto. rewrite IH by lia. destruct (Nat.eqb_spec b a); lia. }
  assert (G : forall k b, fold_right (fun x t => Z.abs x + t) 0 (map (fun i => if Nat.eqb i a then v else 0) (seq b k)) <= r); [|apply G].
  induction k as [|k IH]; intros b; simpl; [lia|]. destruct (Nat.eqb_spec b a); [rewrite H by lia; lia|]. specialize (IH (Datatypes.S b)). lia.
Qed.
Lemma star_small n r D : r <= M20 -> star n r D -> Forall (fun d => length d = n /\ Forall (fun a => Z.abs a <= M20) d) D.
Proof.
  intros Hr [H _]. apply Forall_forall. intros d Hd. destruct (H d Hd) as [L W]. split; auto. eapply Forall_impl; [|exact W]. simpl. intros; lia.
Qed.
Lemma star_free n k z r D : length k = n -> length z = n -> Forall (fun m => 1 <= m) k -> star n r D ->
  (forall a m, nth_error k a = Some m -> nth_error z a = Some 0 -> ~ lost m r) ->
  forall c d, Forall2 (fun a m => 0 <= a < m) c k -> In d D -> ~ blocked (repeat true n) k z c d /\ exists c', Forall2 (fun a m => 0 <= a < m) c' k /\ reaches (repeat true n) k c d c'.
Proof.
  intros Lk Lz Hk [ST _] NL c d Hc Hd. destruct (ST d Hd) as [Ld W]. apply (nth_Forall2 _ 0 0) in Hc as [Lc Hc]. split; [|apply wraps; auto; congruence].
  intros (a & m & x & y & _ & E2 & E3 & E4 & E5 & SH). apply (NL a m E2 E3). exists (x + y). split; auto.
  assert (Ha : (a < length c)%nat) by (apply nth_error_Some; congruence). specialize (Hc a Ha). apply (nth_error_nth _ _ 0) in E2, E4. rewrite E2, E4 in Hc.
  unfold within_moore in W. rewrite Forall_forall in W. apply nth_error_In, W in E5. lia.
Qed.
Lemma star_blocked n k z r D : 0 <= r -> length k = n -> length z = n -> Forall (fun m => 1 <= m) k -> star n r D ->
  (exists a m, nth_error k a = Some m /\ nth_error z a = Some 0 /\ lost m r) ->
  exists c d, Forall2 (fun a m => 0 <= a < m) c k /\ In d D /\ blocked (repeat true n) k z c d.
Proof.
  intros Hr Lk Lz Hk [_ ST] (a & m & E1 & E2 & x & Hx & SH). assert (Ha : (a < n)%nat) by (rewrite <- Lk; apply nth_error_Some; congruence).
  assert (Hm : 1 <= m) by (rewrite Forall_forall in Hk; apply Hk; eapply nth_error_In; eauto).
  assert (W : exists i v, 0 <= i < m /\ Z.abs v <= r /\ x = i + v).
  { destruct (Z_lt_le_dec x 0); [exists 0, x; lia|]. destruct (Z_lt_le_dec x m); [exists x, 0; lia|]. exists (m - 1), (x - (m - 1)). lia. }
  destruct W as (i & v & Hi & Hv & ->). exists (along n a i), (along n a v). split; [|split; [now apply ST|]].
  - apply (Forall2_nth _ 0 0); [rewrite along_length; congruence|]. intros b Hb. rewrite along_length in Hb. rewrite along_nth by auto.
    destruct (Nat.eqb_spec b a) as [->|]; [now rewrite (nth_error_nth _ _ 0 E1)|]. rewrite Forall_forall in Hk. assert (H : In (nth b k 0) k) by (apply nth_In; lia). apply Hk in H. lia.
  - exists a, m, i, v. split; [rewrite (nth_error_nth' _ false) by (now rewrite repeat_length); f_equal; now apply nth_repeat'|]. split; auto. split; auto.
    rewrite !(fun l => nth_error_nth' l 0 (n := a)) by (now rewrite along_length). rewrite !along_nth, Nat.eqb_refl by auto. auto.
Qed.

Lemma C91_moore_lemma : forall n L k z p s r, fl_axes n (repeat true n) L -> length k = n -> Forall (fun m => 1 <= m <= 2 ^ 20) k -> cell_position n z p ->
  0 <= r <= 2 ^ 20 -> build_from FA L k (MList [p]) false = Ok s ->
  exists b, MooreNbHoodBuilder FA r n = Ok b /\
    ((forall a m, nth_error k a = Some m -> nth_error z a = Some 0 -> ~ lost m r) -> exists N, nb_get FA b s None = Ok N /\ forall c i, fl_site s z c i ->
       neighbours N i (fun j => j <> i /\ exists c' d, fl_site s z c' j /\ reaches (repeat true n) k c d c' /\ within_moore r d)) /\
    ((exists a m, nth_error k a = Some m /\ nth_error z a = Some 0 /\ lost m r) -> nb_get FA b s None = Err TypeError).
Proof.
  intros n L k z p s r HA Lk Hk HP Hr EB. change (2 ^ 20) with M20 in *. assert (Lz : length z = n) by apply HP.
  assert (Hk' : Forall (fun m => 1 <= m) k) by (eapply Forall_impl; [|exact Hk]; simpl; intros; lia).
  pose proof (moore_star n r ltac:(lia)) as ST. pose proof (star_small n r _ ltac:(lia) ST) as HD.
  destruct (C91_lemma n (repeat true n) L k z p s _ HA Lk Hk HP HD EB) as (b & Eb & OKC & BAD). exists b. split; [exact Eb|]. split.
  - intros NL. destruct (OKC (star_free n k z r _ Lk Lz Hk' ST NL)) as (N & EN & H). exists N. split; [exact EN|]. intros c i Si o Lo.
    destruct (H c i Si o Lo) as (l & El & ND & IN). exists l. split; auto. split; auto. intros j. rewrite IN. split; intros (Nj & c' & d & H1 & H2 & H3); (split; [auto|]); exists c', d.
    + apply moore_points in H2. tauto.
    + split; auto. split; auto. apply moore_points. split; auto. destruct H2 as (_ & L2 & _). congruence.
  - intros LS. apply BAD. destruct (star_blocked n k z r _ ltac:(lia) Lk Lz Hk' ST LS) as (c & d & H1 & H2 & H3). exists c, d. auto.
Qed.

Lemma C91_open_lemma : forall n per L k z p s r, fl_axes n per L -> length k = n -> Forall (fun m => 1 <= m <= 2 ^ 20) k -> cell_position n z p ->
  1 <= r <= 2 ^ 20 -> In false per -> build_from FA L k (MList [p]) false = Ok s ->
  exists b, MooreNbHoodBuilder FA r n = Ok b /\ nb_get FA b s None = Err TypeError.
Proof.
  intros n per L k z p s r HA Lk Hk HP Hr HF EB. change (2 ^ 20) with M20 in *.
  pose proof (star_small n r _ ltac:(lia) (moore_star n r ltac:(lia))) as HD.
  destruct (C91_lemma n per L k z p s _ HA Lk Hk HP HD EB) as (b & Eb & _ & BAD).
  exists b. split; [exact Eb|]. apply BAD. assert (Lper : length per = n) by (destruct HA as (? & _ & _ & ?); auto).
  apply (In_nth _ _ true) in HF as (a & Ha & Ea). rewrite Lper in Ha.
  set (d := map (fun i => if Nat.eqb i a then -1 else 0) (seq 0 n)).
  assert (Ld : length d = n) by (unfold d; now rewrite map_length, seq_length).
  exists (repeat 0 n), d. split; [|split; [|right]].
  - apply (Forall2_nth _ 0 0); [rewrite repeat_length; congruence|]. intros i Hi. rewrite repeat_length in Hi. rewrite nth_repeat. rewrite Forall_forall in Hk.
    assert (H : In (nth i k 0) k) by (apply nth_In; lia). apply Hk in H. lia.
  - apply moore_points. split; auto. unfold within_moore, d. apply Forall_forall. intros y Hy. apply in_map_iff in Hy as (i & <- & _). destruct (Nat.eqb i a); lia.
  - intros c' Hc' R. apply (nth_Forall2 _ 0 0) in Hc' as [Lc' Hc']. rewrite (reaches_nth n) in R; auto using repeat_length; [|congruence].
    specialize (R a Ha). rewrite (nth_indep per false true), Ea in R by lia. rewrite nth_repeat in R. unfold d in R. rewrite nth_map_seq, Nat.eqb_refl in R by auto.
    specialize (Hc' a ltac:(lia)). lia.
Qed.

(** Such lattices and positions exist. *)
Lemma thousandths_exist : forall z, Forall (fun a => 0 <= a < 1000) z -> exists p, thousandths z p.
Proof.
  intros z Hz. induction Hz as [|a z Ha Hz (p & IH)]; [exists []; constructor|]. exists (a_div FA (f_ofZ a) (f_ofZ 1000) :: p). constructor; [|exact IH].
  apply denotes_div; [apply denotes_ofZ; lia|apply denotes_ofZ; reflexivity|lra|]. apply small_big. pose proof (milli_bound a Ha). apply Rabs_le. simpl; lra.
Qed.
