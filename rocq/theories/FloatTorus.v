(** The library's grids built in binary64, in two and three dimensions (C30, C75, C86). *)
From Coq Require Import Reals Lra Permutation.
From Flocq Require Import Core BinarySingleNaN.
From Verif Require Import Prelude Dict Val ValFacts Arith LatticeModel StructModel StateModel ResultModel RunnerModel NbModel GridModel SimModel SetupModel RulesModel
  SpecState SpecResult SpecRunner SpecGeom SpecNb SpecGrid SpecSetup SpecRules StateFacts ResultFacts RunnerFacts SyncFacts ParFacts ParRun GenRun
  LatticeFacts StructFacts StructMore StructBuild NbFacts NbMore GridFacts GridMore GridNb SetupFacts RulesFacts RulesMore LifeFacts LifeGen GrowBall
  FloatArith SpecFloat64 FloatFacts FloatCoord FloatGrid FloatMore FloatNb FloatVec FloatAxis FloatBox FloatNorm FloatCut FloatOpen FloatMotif.
Local Open Scope Z_scope.
Local Notation fz := (f_ofZ 0).

Lemma same_nth n w p q : length w = n -> (same_cell w p q <-> length p = n /\ length q = n /\ forall a, (a < n)%nat -> (nth a w 0 | nth a p 0 - nth a q 0)).
Proof.
  intros Lw. unfold same_cell. rewrite Lw. split; intros (Lp & Lq & H); (split; [auto|split; [auto|]]).
  - intros a Ha. apply (H a); apply nth_error_nth'; lia.
  - intros a m x y Em Ex Ey. assert (Ha : (a < n)%nat) by (rewrite <- Lw; apply nth_error_Some; congruence). specialize (H a Ha).
    apply (nth_error_nth _ _ 0) in Em, Ex, Ey. now rewrite Em, Ex, Ey in H.
Qed.
Lemma same_trans w p q u : same_cell w p q -> same_cell w q u -> same_cell w p u.
Proof.
  rewrite !(same_nth (length w)) by auto. intros (L1 & L2 & H1) (_ & L3 & H2). split; auto. split; auto. intros a Ha.
  replace (nth a p 0 - nth a u 0) with ((nth a p 0 - nth a q 0) + (nth a q 0 - nth a u 0)) by lia. apply Z.divide_add_r; auto.
Qed.
Lemma same_small w c c' : Forall2 (fun a m => 0 <= a < m) c w -> Forall2 (fun a m => 0 <= a < m) c' w -> same_cell w c c' -> c = c'.
Proof.
  intros H1 H2 S. apply (nth_Forall2 _ 0 0) in H1 as [L1 H1], H2 as [L2 H2]. apply (same_nth (length w)) in S as (_ & _ & S); auto.
  apply nth_ext with 0 0; [congruence|]. intros a Ha. specialize (H1 a Ha). specialize (H2 a ltac:(congruence)). destruct (S a ltac:(congruence)) as [q Hq].
  assert (q = 0) by nia. subst q. lia.
Qed.
Lemma reaches_same n w c d c' : length w = n -> length c = n -> length d = n -> length c' = n -> (reaches (repeat true n) w c d c' <-> same_cell w (shift c d) c').
Proof.
  intros Lw Lc Ld Lc'. rewrite (reaches_nth n), (same_nth n) by auto using repeat_length. split.
  - intros H. split; [rewrite shift_length; congruence|]. split; auto. intros a Ha. specialize (H a Ha). rewrite (nth_repeat' true false) in H by auto.
    unfold shift. now rewrite (nth_zipwith _ 0 0) by lia.
  - intros (_ & _ & H) a Ha. specialize (H a Ha). rewrite (nth_repeat' true false) by auto. unfold shift in H. now rewrite (nth_zipwith _ 0 0) in H by lia.
Qed.
Lemma extents_In m size : In m (extents size) <-> In m size.
Proof. destruct size as [|a [|b l]]; simpl; tauto. Qed.
Lemma fl_square_dims size s : fl_square size s -> length size = 2%nat \/ length size = 3%nat.
Proof. intros [[H _]|[H _]]; auto. Qed.
Lemma fl_square_grid n m s : fl_square [n; m] s <-> fl_grid [n; m] s.
Proof. unfold fl_square, fl_grid. cbn [length]. split; [intros [[_ H]|[H _]]; [auto|discriminate]|auto]. Qed.

Section Torus.
  Variable size : list Z.
  Variable s : structure b64.
  Hypothesis Hk : Forall (fun m => 1 <= m <= M20) size.
  Hypothesis FS : fl_square size s.
  Local Notation n := (length size).
  Local Notation z := (repeat 0 n).
  Local Notation w := (extents size).
  Local Notation per := (repeat true n).

  Lemma torus_dims : n = 2%nat \/ n = 3%nat.
  Proof. now apply (fl_square_dims size s). Qed.
  Lemma torus_box : exists L, axis_lattice n sw (fun a => nth (sw a) size 0) per L /\
    fl_box n sw (fun a => nth (sw a) size 0) per L (fun a => nth a z 0) size "_A" s.
  Proof. destruct (square_box size torus_dims Hk) as (s' & L & FS' & AL & FB). pose proof (fl_square_unique _ _ _ FS FS'). subst s'. eauto. Qed.
  Lemma torus_sw a : (a < n)%nat -> (sw a < n)%nat /\ sw (sw a) = a.
  Proof. intros Ha. pose proof torus_dims. split; [apply sw_lt; lia|apply sw_sw]. Qed.
  Lemma torus_z : Forall (fun a => 0 <= a < 1000) z.
  Proof. apply Forall_forall. intros x Hx. apply repeat_spec in Hx. lia. Qed.
  Lemma torus_cells c : Forall2 (fun a m => 0 <= a < m) c w <-> exists e, In e (cells size) /\ c = perm 0 n sw e.
  Proof. pose proof (cells_perm n _ torus_sw size eq_refl Hk z (repeat_length _ _)) as CP. rewrite perm_extents in CP by apply torus_dims. apply CP. Qed.
  Lemma torus_per : perm false n sw per = per.
  Proof. apply perm_repeat. intros a Ha. now apply torus_sw. Qed.
  Lemma torus_pos : Forall (fun m => 1 <= m) w.
  Proof. rewrite Forall_forall in *. intros m Hm. apply (proj1 (extents_In _ _)), Hk in Hm. lia. Qed.
  Lemma torus_site c : Forall2 (fun a m => 0 <= a < m) c w -> exists i, fl_site s z c i.
  Proof. intros Hc. destruct torus_box as (L & AL & FB). apply torus_cells in Hc as (e & He & ->). eexists. exact (site_of n _ size per L z (repeat_length _ _) _ s FB e He). Qed.
  Lemma torus_of c i : fl_site s z c i -> exists e, In e (cells size) /\ i = rank size e /\ c = perm 0 n sw e.
  Proof. destruct torus_box as (L & AL & FB). apply (of_site n _ torus_sw size eq_refl Hk per L z (repeat_length _ _) torus_z _ s FB). Qed.
  Lemma torus_in c i : fl_site s z c i -> Forall2 (fun a m => 0 <= a < m) c w.
  Proof. intros H. apply torus_of in H as (e & He & _ & ->). apply torus_cells. eauto. Qed.
  Lemma perm_inj e e' : In e (cells size) -> In e' (cells size) -> perm 0 n sw e = perm 0 n sw e' -> e = e'.
  Proof.
    intros He He' E. apply nth_ext with 0 0; [transitivity (length size); [|symmetry]; now apply (cell_len n size eq_refl)|]. intros a Ha. rewrite (cell_len n size eq_refl e He) in Ha.
    destruct (torus_sw a Ha) as [H1 H2]. apply (f_equal (fun l => nth (sw a) l 0)) in E. rewrite !perm_nth in E by auto. now rewrite H2 in E.
  Qed.
  Lemma torus_fun c c' i j : fl_site s z c i -> fl_site s z c' j -> (i = j <-> c = c').
  Proof.
    intros H H'. apply torus_of in H as (e & He & -> & ->), H' as (e' & He' & -> & ->). split.
    - intros E. apply rank_inj in E; auto; [now subst|]. eapply Forall_impl; [|exact Hk]. simpl. intros; lia.
    - intros E. apply perm_inj in E; auto. now subst.
  Qed.
  Lemma torus_wrap p : length p = n -> exists c, Forall2 (fun a m => 0 <= a < m) c w /\ same_cell w p c.
  Proof.
    intros Lp. destruct (wraps n w (extents_length _) torus_pos p z Lp (repeat_length _ _)) as (c & Hc & R). exists c. split; auto.
    assert (Lc : length c = n) by (apply (nth_Forall2 _ 0 0) in Hc as [-> _]; apply extents_length).
    apply (reaches_same n) in R; auto using repeat_length, extents_length. rewrite shift_zero in R; auto; [now rewrite repeat_length|].
    apply Forall_forall. intros x Hx. now apply repeat_spec in Hx.
  Qed.

  Lemma torus_total p : length p = n -> exists i, fl_cell size s p i.
  Proof. intros Lp. destruct (torus_wrap p Lp) as (c & Hc & SC). destruct (torus_site c Hc) as (i & Si). exists i, c. auto. Qed.
  Lemma torus_same p q i j : fl_cell size s p i -> fl_cell size s q j -> (i = j <-> same_cell w p q).
  Proof.
    intros (c & SC & Si) (c' & SC' & Sj). rewrite (torus_fun c c' i j Si Sj). split.
    - intros <-. eapply same_trans; [exact SC|]. now apply same_cell_sym.
    - intros SP. apply (same_small w); [now apply (torus_in c i)|now apply (torus_in c' j)|]. apply same_cell_sym in SC. eapply same_trans; [exact SC|]. eapply same_trans; eauto.
  Qed.
  Lemma torus_eq p q i : fl_cell size s p i -> same_cell w p q -> fl_cell size s q i.
  Proof. intros (c & SC & Si) SP. exists c. split; auto. eapply same_trans; [now apply same_cell_sym; exact SP|exact SC]. Qed.
  Lemma torus_small c i : Forall2 (fun a m => 0 <= a < m) c w -> (fl_cell size s c i <-> fl_site s z c i).
  Proof.
    intros Hc. split.
    - intros (c' & SC & Si). now rewrite (same_small w c c' Hc (torus_in c' i Si) SC).
    - intros Si. exists c. split; auto. apply same_cell_refl. apply (nth_Forall2 _ 0 0) in Hc. apply Hc.
  Qed.
  Lemma torus_dense : dense s.
  Proof. destruct torus_box as (L & AL & FB). exact (fb_dense _ _ _ _ _ _ _ _ _ FB). Qed.
  Lemma torus_dim : p_dim s = n.
  Proof.
    destruct torus_box as (L & AL & FB). pose proof (fb_lat _ _ _ _ _ _ _ _ _ FB) as PL. pose proof (al_dim _ _ _ _ _ AL) as DL.
    destruct FS as [(E & b & Eb & Es)|(E & b & Eb & Es)]; unfold build in Es; (destruct (negb _) in Es; [discriminate|]); apply build_from_fixed in Es as (L' & _ & E1 & E2); congruence.
  Qed.
  Lemma torus_ids i : In i (map s_id (sites s None)) <-> exists p, length p = n /\ fl_cell size s p i.
  Proof.
    destruct torus_box as (L & AL & FB). split.
    - intros Hi. apply in_map_iff in Hi as (x & <- & Hx). apply (fb_in _ _ _ _ _ _ _ _ _ FB) in Hx. destruct (fb_all _ _ _ _ _ _ _ _ _ FB _ _ Hx) as (e & He & E).
      pose proof (site_of n _ size per L z (repeat_length _ _) _ s FB e He) as Si. exists (perm 0 n sw e). split; [apply perm_length|]. rewrite E. apply torus_small; auto. now apply torus_in in Si.
    - intros (p & Lp & c & _ & _ & x & G & _). apply in_map_iff. exists x. assert (s_id x = i).
      { destruct (fb_all _ _ _ _ _ _ _ _ _ FB _ _ G) as (e & He & E). destruct (fb_site _ _ _ _ _ _ _ _ _ FB e He) as (loc & G' & _). rewrite E in G. rewrite G in G'. injection G' as ->. now rewrite E. }
      split; auto. apply (fb_in _ _ _ _ _ _ _ _ _ FB). congruence.
  Qed.
  Lemma torus_shift p q d i j : length p = n -> length q = n -> length d = n -> fl_cell size s p i -> fl_cell size s q i -> fl_cell size s (shift p d) j -> fl_cell size s (shift q d) j.
  Proof. intros Lp Lq Ld Ci Cj Cs. eapply torus_eq; [exact Cs|]. apply same_shift; [now rewrite extents_length|]. now apply (torus_same p q i i). Qed.

  (** Neighbourhoods. *)
  Lemma torus_star r D b : 0 <= r <= M20 -> star n r D -> motif_builder FA (map (nums FA) D) = Ok b ->
    (Forall (fun m => ~ lost m r) size -> exists N, nb_get FA b s None = Ok N /\ fl_torus_nb size s (fun d => In d D) N) /\
    (Exists (fun m => lost m r) size -> nb_get FA b s None = Err TypeError).
  Proof.
    intros Hr ST Eb. destruct (motif_total (map (nums FA) D)) as (d0 & Eb'). rewrite Eb in Eb'. injection Eb' as ->.
    destruct torus_box as (L & AL & FB). pose proof (star_small n r D ltac:(lia) ST) as HD.
    assert (SD : Forall (shiftable n) D).
    { eapply Forall_impl; [|exact HD]. intros d [Ld Bd]. split; auto. intros a Ha. rewrite Forall_forall in Bd. apply Bd, nth_In. lia. }
    pose proof torus_dims as DM. assert (Lz : length z = n) by apply repeat_length.
    assert (ZN : forall a, (a < n)%nat -> nth_error z a = Some 0) by (intros a Ha; rewrite (nth_error_nth' _ 0) by (rewrite Lz; auto); f_equal; apply nth_repeat).
    split.
    - intros NL. rewrite Forall_forall in NL. pose proof (motif_found n _ torus_sw size eq_refl Hk per L z Lz torus_z _ s FB D SD d0) as H. unfold stuck in H.
      rewrite torus_per, perm_extents in H by auto. destruct H as (N & EN & HN).
      { intros e d He Hd. destruct (star_free n w z r D (extents_length _) Lz torus_pos ST) with (c := perm 0 n sw e) (d := d) as (NB & c' & Hc' & R); auto.
        - intros a m Em _. apply NL. apply nth_error_In in Em. now apply extents_In.
        - apply torus_cells. eauto.
        - split; auto. apply torus_cells in Hc' as (e' & He' & ->). eauto. }
      exists N. split; auto. intros x i Lx Ci. pose proof Ci as (c & SC & Si). intros o Lo. destruct (HN c i Si o Lo) as (l & El & ND & IN). exists l. split; auto. split; auto.
      pose proof (torus_in c i Si) as Hc. assert (Lc : length c = n) by (apply (nth_Forall2 _ 0 0) in Hc as [-> _]; apply extents_length).
      pose proof (proj2 (torus_small c i Hc) Si) as Cc.
      intros j. rewrite IN. destruct ST as [ST _]. split.
      + intros (Nj & c' & d & Sj & Hd & R). split; auto. exists d. destruct (ST d Hd) as [Ld _]. split; auto. split; auto.
        pose proof (torus_in c' j Sj) as Hc'. assert (Lc' : length c' = n) by (apply (nth_Forall2 _ 0 0) in Hc' as [-> _]; apply extents_length).
        apply (torus_shift c x d i j); auto. exists c'. split; auto. now apply (reaches_same n); auto using extents_length.
      + intros (Nj & d & Ld & Hd & Cj). split; auto. apply (torus_shift x c d i j) in Cj; auto. destruct Cj as (c' & SC' & Sj). exists c', d. split; auto. split; auto.
        pose proof (torus_in c' j Sj) as Hc'. assert (Lc' : length c' = n) by (apply (nth_Forall2 _ 0 0) in Hc' as [-> _]; apply extents_length).
        now apply (reaches_same n); auto using extents_length.
    - intros LS. apply Exists_exists in LS as (m & Hm & LS). apply extents_In, In_nth_error in Hm as (a & Ha).
      assert (Ha' : (a < n)%nat) by (rewrite <- (extents_length size); apply nth_error_Some; congruence).
      destruct (star_blocked n w z r D ltac:(lia) (extents_length _) Lz torus_pos ST) as (c & d & Hc & Hd & B).
      { exists a, m. auto. }
      apply torus_cells in Hc as (e & He & ->). apply (motif_lost n _ torus_sw size eq_refl Hk per L z Lz torus_z _ s FB D SD d0 e d He Hd). left. unfold stuck.
      rewrite torus_per, perm_extents by auto. exact B.
  Qed.
  Lemma torus_nb_ext P Q N : (forall d, length d = n -> (P d <-> Q d)) -> fl_torus_nb size s P N -> fl_torus_nb size s Q N.
  Proof.
    intros E H x i Lx Ci o Lo. destruct (H x i Lx Ci o Lo) as (l & El & ND & IN). exists l. split; auto. split; auto. intros j. rewrite IN.
    split; intros (Nj & d & Ld & Pd & Cd); (split; [auto|]); exists d; (split; [auto|split; [now apply E|auto]]).
  Qed.
  Lemma torus_builder r P b : 0 <= r <= M20 -> fl_builder n r P b ->
    (Forall (fun m => ~ lost m r) size -> exists N, nb_get FA b s None = Ok N /\ fl_torus_nb size s (P r) N) /\
    (Exists (fun m => lost m r) size -> nb_get FA b s None = Err TypeError).
  Proof.
    intros Hr HB.
    assert (X : exists D, star n r D /\ (forall d, length d = n -> (In d D <-> P r d)) /\ motif_builder FA (map (nums FA) D) = Ok b).
    { destruct HB as [[-> Eb]|[(-> & D2 & Eb)|(-> & D3 & Eb)]].
      - exists (get_points_in_cube (- r) (r + 1) n). split; [apply moore_star; lia|]. split; [|exact Eb]. intros d Ld. rewrite moore_points. tauto.
      - exists (von_neumann_points r n). split; [apply vn_star; lia|]. split; [intros d Ld; rewrite vn_points; tauto|now rewrite D2].
      - exists (von_neumann_points r n). split; [apply vn_star; lia|]. split; [intros d Ld; rewrite vn_points; tauto|now rewrite D3]. }
    destruct X as (D & ST & HD & Eb). destruct (torus_star r D b Hr ST Eb) as [OKC BAD]. split; auto. intros NL. destruct (OKC NL) as (N & EN & HN). exists N. split; auto.
    revert HN. now apply torus_nb_ext.
  Qed.

  (** Lookups. *)
  Lemma torus_lookup x : length x = n -> Forall (fun a => Z.abs a <= 2 ^ 27) x ->
    (forall i, fl_cell size s x i -> (forall a m v, nth_error w a = Some m -> nth_error x a = Some v -> ~ falls_short m v) -> id_at FA s (fl_at x) = Ok (Some i)) /\
    ((exists a m v, nth_error w a = Some m /\ nth_error x a = Some v /\ falls_short m v) -> id_at FA s (fl_at x) = Ok None).
  Proof.
    intros Lx Bx. destruct torus_box as (L & AL & FB). rewrite Forall_forall in Bx.
    assert (PW : forall a, (a < n)%nat -> nth (sw a) size 0 = nth a w 0).
    { intros a Ha. rewrite <- perm_extents by apply torus_dims. now rewrite perm_nth. }
    assert (FL : forall a, (a < n)%nat -> nth (sw a) per false = true) by (intros a Ha; apply nth_repeat'; now apply torus_sw).
    assert (BX : forall a, (a < n)%nat -> Z.abs (nth a x 0) <= 2 ^ 27) by (intros a Ha; apply Bx, nth_In; lia).
    set (X := fun a => IZR (nth a x 0)).
    assert (DX : dens n (fl_at x) X).
    { split; [unfold fl_at; now rewrite map_length|]. intros a Ha. unfold fl_at. rewrite (nth_map' _ 0) by congruence. apply denotes_ofZ. specialize (BX a Ha). lia. }
    set (q := fun a => landZ (nth (sw a) size 0) (nth (sw a) per false) (nth a x 0) (nth a z 0)).
    destruct (fb_land _ _ _ _ _ _ _ _ _ FB (fl_at x) X (fun a => nth a x 0) q DX) as [LS LN].
    { intros a Ha. specialize (BX a Ha). unfold NB. lia. }
    { intros a Ha. unfold X. rewrite nth_repeat. replace (IZR (nth a x 0%Z) - (IZR (nth a x 0%Z) + 0 / 1000))%R with 0%R by lra. rewrite Rabs_R0. lra. }
    { intros a Ha. apply lands_landZ; [rewrite nth_repeat; lia|auto]. }
    split.
    - intros i (c & SC & Si) NS. apply torus_of in Si as (e & He & -> & ->). apply LS; auto. intros a Ha. unfold q, landZ. rewrite FL, nth_repeat by auto. cbn [Z.eqb].
      apply (same_nth n) in SC as (_ & _ & SC); [|apply extents_length]. specialize (SC a Ha). rewrite perm_nth in SC by auto.
      destruct (cell_bounds n _ torus_sw size eq_refl Hk z (repeat_length _ _) e a He Ha) as [B _]. rewrite <- PW in SC by auto.
      assert (E : nth (sw a) e 0 = nth a x 0 mod nth (sw a) size 0) by (destruct SC as [t Ht]; apply (Z.mod_unique _ _ t); lia).
      destruct (short_dec _ _) as [SH|]; auto. exfalso. apply (NS a (nth a w 0) (nth a x 0)); [apply nth_error_nth'; rewrite extents_length; auto|apply nth_error_nth'; lia|now rewrite <- PW].
    - intros (a & m & v & Em & Ev & SH). assert (Ha : (a < n)%nat) by (rewrite <- Lx; apply nth_error_Some; congruence). apply (nth_error_nth _ _ 0) in Em, Ev.
      apply LN. intros e He M. specialize (M a Ha). unfold q, landZ in M. rewrite FL, nth_repeat in M by auto. cbn [Z.eqb] in M.
      destruct (cell_bounds n _ torus_sw size eq_refl Hk z (repeat_length _ _) e a He Ha) as [B _].
      destruct (short_dec _ _) as [_|NS]; [lia|]. apply NS. rewrite PW by auto. now rewrite Em, Ev.
  Qed.
End Torus.

(** * C30 and C75 in two and three dimensions *)
Lemma C30_grids_lemma : forall size s x, Forall (fun m => 1 <= m <= 2 ^ 20) size -> fl_square size s -> length x = length size -> Forall (fun a => Z.abs a <= 2 ^ 27) x ->
  (exists i, fl_cell size s x i) /\
  (forall i, fl_cell size s x i -> (forall a m v, nth_error (extents size) a = Some m -> nth_error x a = Some v -> ~ falls_short m v) -> id_at FA s (fl_at x) = Ok (Some i)) /\
  ((exists a m v, nth_error (extents size) a = Some m /\ nth_error x a = Some v /\ falls_short m v) -> id_at FA s (fl_at x) = Ok None).
Proof. intros size s x Hk FS Lx Bx. split; [now apply torus_total|]. now apply torus_lookup. Qed.

Lemma C75_grids_lemma : forall size s r P b, Forall (fun m => 1 <= m <= 2 ^ 20) size -> fl_square size s -> 0 <= r <= 2 ^ 20 -> fl_builder (length size) r P b ->
  (Forall (fun m => ~ lost m r) size -> exists N, nb_get FA b s None = Ok N /\ fl_torus_nb size s (P r) N) /\
  (Exists (fun m => lost m r) size -> nb_get FA b s None = Err TypeError).
Proof. intros size s r P b Hk FS Hr HB. now apply torus_builder. Qed.

(** * C86 in two and three dimensions *)
Lemma builder_balls n r P b : 0 <= r -> fl_builder n r P b -> balls n (fun k => P (r * Z.of_nat k)).
Proof. intros Hr [[-> _]|[[-> _]|[-> _]]]; auto using moore_balls, vn_balls. Qed.

Lemma C86_grids_lemma : forall size s r P b b' bg ords rnd ids c0 init k, Forall (fun m => 1 <= m <= 2 ^ 20) size -> fl_square size s -> 0 <= r <= 2 ^ 20 ->
  fl_builder (length size) r P b -> b' = Some b \/ (b' = None /\ r = 1 /\ P = within_moore) -> (forall t, legal (ords t)) ->
  Permutation ids (map s_id (sites s None)) -> phased ids init ->
  (Forall (fun m => ~ lost m r) size -> exists N, growth_nbhood FA s b' = Ok N /\
   (exists o, run_sync (growth_controller N bg ords rnd) c0 init k = Ok o /\ rlen (o_result o) = Z.max 0 k + 1 /\
      forall t, 0 <= t <= Z.max 0 k -> exists st, get_step (o_result o) t = Ok st /\
        forall p i, length p = length size -> fl_cell size s p i ->
          (occupied bg st i <-> exists d j, length d = length size /\ P (r * t) d /\ fl_cell size s (shift p d) j /\ occupied bg init j)) /\
   (forall q sched, 1 <= q -> exists o, run_parallel (growth_controller N bg ords rnd) q sched c0 init k = Ok o /\ rlen (o_result o) = Z.max 0 k + 1 /\
      forall t, 0 <= t <= Z.max 0 k -> exists st, get_step (o_result o) t = Ok st /\
        forall p i, length p = length size -> fl_cell size s p i ->
          (occupied bg st i <-> exists d j, length d = length size /\ P (r * t) d /\ fl_cell size s (shift p d) j /\ occupied bg init j))) /\
  (Exists (fun m => lost m r) size -> growth_nbhood FA s b' = Err TypeError).
Proof.
  intros size s r P b b' bg ords rnd ids c0 init k Hk FS Hr HB HB' LO PI PH. change (2 ^ 20) with M20 in *.
  assert (GN : growth_nbhood FA s b' = nb_get FA b s None).
  { unfold growth_nbhood. destruct HB' as [->|(-> & -> & ->)]; [reflexivity|]. rewrite (torus_dim size s Hk FS). destruct HB as [[_ ->]|[(E & _)|(E & _)]]; [reflexivity| |];
      exfalso; apply (f_equal (fun P => P 1 [1; 1])) in E; assert (X : within_moore 1 [1; 1]) by (repeat constructor; lia); rewrite E in X; unfold within_vn in X; simpl in X; lia. }
  rewrite GN. destruct (torus_builder size s Hk FS r P b Hr HB) as [OKC BAD]. split; auto. intros NL. destruct (OKC NL) as (N & EN & HN). exists N. split; auto.
  pose proof (builder_balls _ r P b ltac:(lia) HB) as BB.
  destruct (grow_ball N bg ords rnd ids (fl_cell size s) (length size) (fun k => P (r * Z.of_nat k)) c0 init k) as [(o & E & RL & H) PAR]; auto.
  - intros p Lp. now apply torus_total.
  - intros p i j Ci Cj. apply (torus_same size s Hk FS p p i j Ci Cj). apply same_cell_refl. destruct Ci as (c & (Lp & _) & _). exact Lp.
  - now apply torus_shift.
  - apply (Permutation_NoDup (Permutation_sym PI)), dense_NoDup, (torus_dense size s Hk FS).
  - intros E0. destruct (torus_total size s Hk FS (repeat 0 (length size)) (repeat_length _ _)) as (i & Ci).
    assert (X : In i ids) by (apply (Permutation_in _ (Permutation_sym PI)), (torus_ids size s Hk FS); exists (repeat 0 (length size)); split; auto using repeat_length). rewrite E0 in X. destruct X.
  - intros i. rewrite <- (torus_ids size s Hk FS). split; apply Permutation_in; auto using Permutation_sym.
  - intros p i Lp Ci. rewrite Z.mul_1_r. now apply HN.
  - split.
    + exists o. split; auto. split; auto. intros t Ht. destruct (H t Ht) as (st & Es & K). exists st. split; auto. rewrite Z2Nat.id in K by lia. exact K.
    + intros q sched Hq. destruct (PAR q sched Hq) as (op & Ep & RLp & HP). exists op. split; auto. split; auto. intros t Ht. destruct (HP t Ht) as (st & Es & K). exists st. split; auto. rewrite Z2Nat.id in K by lia. exact K.
Qed.
