(** Square lattices in binary64: the structures, their cutoff neighbourhoods
    (C89, C90) and their lookups (C91). *)
From Coq Require Import Reals Lra Psatz.
From Flocq Require Import Core BinarySingleNaN.
From Verif Require Import Prelude Dict Arith RealArith FloatArith LatticeModel JsonModel StructModel NbModel GridModel SpecGeom SpecNb SpecGrid SpecFloat64 StructFacts StructBuild
  LatticeFacts NbFacts NbMore GridFacts GridMore GridNb GridOpen FloatFacts FloatCoord FloatGrid FloatMore FloatNb FloatVec FloatAxis FloatBox FloatNorm FloatCut.
Local Open Scope Z_scope.

Local Notation fz := (f_ofZ 0).

Lemma dot_zero (u : list b64) : forall v, length u = length v -> (forall i, (i < length u)%nat -> denotes (nth i u fz) 0 /\ exists x, denotes (nth i v fz) x) -> denotes (dot FA u v) 0.
Proof.
  induction u as [|x u IH]; intros [|y v] E H; try discriminate; cbn [dot]; [apply den_0|].
  destruct (H 0%nat ltac:(simpl; lia)) as (D0 & w & Dw). cbn [nth] in D0, Dw. change (denotes (f_add (f_mul x y) (dot FA u v)) 0).
  apply den_add0r; auto using rnd_0, zero_big; [apply (den_mul0l _ _ _ D0 Dw)|]. apply IH; [simpl in E; lia|]. intros i Hi. apply (H (S i)). simpl; lia.
Qed.
Lemma dot_one (u : list b64) : forall v i0 x, length u = length v -> (i0 < length u)%nat -> denotes (nth i0 u fz) 1 -> denotes (nth i0 v fz) x -> rnd x = x -> (Rabs x <= big)%R ->
  (forall i, (i < length u)%nat -> i <> i0 -> denotes (nth i u fz) 0 /\ exists x, denotes (nth i v fz) x) -> denotes (dot FA u v) x.
Proof.
  induction u as [|a u IH]; intros [|b v] i0 x E L D1 Dx RX BX H; try discriminate; [simpl in L; lia|]. cbn [dot].
  change (denotes (f_add (f_mul a b) (dot FA u v)) x). destruct i0 as [|i0].
  - cbn [nth] in D1, Dx. apply den_add0r; auto; [apply den_mul1l; auto|]. apply dot_zero; [simpl in E; lia|]. intros i Hi. apply (H (S i)); [simpl; lia|lia].
  - destruct (H 0%nat ltac:(simpl; lia) ltac:(lia)) as (D0 & w & Dw). cbn [nth] in D0, Dw.
    apply den_add0l; auto; [apply (den_mul0l _ _ _ D0 Dw)|]. apply (IH v i0 x); auto; [simpl in L; lia|].
    intros i Hi Ni. apply (H (S i)); [simpl; lia|lia].
Qed.

(** Unit lattices with the axes in the order [s]. *)
Lemma init_square n (V : list (list b64)) p : (1 <= n)%nat -> length V = n -> (forall i, (i < n)%nat -> length (nth i V []) = n) ->
  lattice_init V p = Ok (mkLattice V (match p with PBool b => map (fun _ => b) V | PFlags l => l end) V n).
Proof.
  intros Hn LV HV. destruct (width_rows n V LV HV) as [WV RV]. assert (FV : Forall (fun v => length v = n) V) by (apply Forall_forall; auto).
  unfold lattice_init. unfold rectangular. rewrite WV. replace (forallb _ V) with true by (symmetry; apply forallb_forall; intros v Hv; apply Nat.eqb_eq; auto). cbn [negb].
  assert (LC : length (concat V) = (n * n)%nat).
  { rewrite <- LV at 1. clear -FV. induction FV as [|v V H _ IH]; simpl; auto. rewrite app_length, IH, H. lia. }
  rewrite LC, Nat.sqrt_square, Nat.eqb_refl. cbn [negb]. destruct V as [|v V]; [simpl in LV; lia|].
  pose proof (chunks_concat n (v :: V) FV) as CC. rewrite LV in CC. rewrite CC. replace (length v) with n by (symmetry; apply RV; simpl; auto). reflexivity.
Qed.

Section Unit.
  Variable n : nat.
  Hypothesis Hn : (1 <= n)%nat.
  Variable s : nat -> nat.
  Hypothesis Hs : forall a, (a < n)%nat -> (s a < n)%nat /\ s (s a) = a.
  Variable V : list (list b64).
  Hypothesis HV : axis_matrix n s (fun _ => 1) V.
  Variable per : list bool.
  Hypothesis Lper : length per = n.
  Hypothesis INV : forall N M, (forall a, (a < n)%nat -> 1 <= N a <= M20) -> axis_matrix n s N M -> exists W, f_inv M = Ok W /\ axis_inverse n s N W.
  Variable k : list Z.
  Hypothesis Lk : length k = n.
  Hypothesis Hk : Forall (fun m => 1 <= m <= M20) k.
  Local Notation L0 := (mkLattice V per V n).
  Local Notation N := (fun a => nth (s a) k 0).

  Lemma sides a : (a < n)%nat -> 1 <= N a <= M20.
  Proof. intros Ha. rewrite Forall_forall in Hk. apply Hk, nth_In. rewrite Lk. now apply Hs. Qed.
  Lemma scale_axis : exists L, get_scaled_lattice FA L0 k = Ok L /\ axis_lattice n s N per L.
  Proof.
    destruct HV as [LV DV]. set (V' := zipwith (fun amt v => map (fun x => a_mul FA x (a_ofZ FA amt)) v) k V).
    assert (LV' : length V' = n) by (unfold V'; rewrite FloatVec.zipwith_length; congruence).
    assert (NV' : forall i, (i < n)%nat -> nth i V' [] = map (fun x => f_mul x (f_ofZ (nth i k 0))) (nth i V [])).
    { intros i Hi. unfold V'. rewrite (nth_zipwith _ 0 []) by congruence. reflexivity. }
    assert (AM : axis_matrix n s N V').
    { split; auto. intros i Hi. rewrite NV' by auto. destruct (DV i Hi) as [L D]. apply dens_map; auto. intros a Ha. specialize (D a Ha). cbn beta in D.
      rewrite Forall_forall in Hk. assert (Bk : 1 <= nth i k 0 <= M20) by (apply Hk, nth_In; lia). destruct (big20 _ Bk) as (B & R & _).
      assert (Dk : denotes (f_ofZ (nth i k 0)) (IZR (nth i k 0))) by (apply denotes_ofZ; unfold M20 in *; lia).
      destruct (Nat.eqb_spec i (s a)) as [Ei|]; [|apply (den_mul0l _ _ _ D Dk)]. rewrite <- Ei. apply den_mul1l; auto. }
    exists (mkLattice V' per V' n). split.
    - unfold get_scaled_lattice. cbn [l_vecs l_periodic]. fold V'. apply (init_square n V' (PFlags per)); auto. intros i Hi. apply AM. auto.
    - constructor; auto. cbn [l_matrix]. apply INV; auto. apply sides.
  Qed.

  Variable z : list Z.
  Variable p : list b64.
  Hypothesis HP : cell_position n z p.
  Lemma unit_loc c : incell n k c -> exists v, motif_loc FA L0 false c p = Ok v /\ fits n s (fun a => nth a z 0) v c.
  Proof.
    intros [Lc Hc]. destruct HP as (Lz & Bz & T). apply (nth_Forall2 _ 0 fz) in T as [Lp T]. destruct HV as [LV DV].
    destruct (width_rows n V LV) as [WV RV]; [intros i Hi; apply DV; auto|].
    unfold motif_loc. cbn [l_matrix]. unfold matvec. rewrite map_length, WV, Lc, Nat.eqb_refl. cbn [bind].
    rewrite bcast_eq by (rewrite map_length; congruence). cbn [bind]. eexists. split; [reflexivity|].
    exists (fun a => rnd (IZR (nth (s a) c 0) + rnd (IZR (nth a z 0%Z) / 1000))).
    assert (BC : forall a, (a < n)%nat -> 0 <= nth (s a) c 0 <= M20).
    { intros a Ha. destruct (Hs a Ha) as [H1 _]. specialize (Hc (s a) H1). pose proof (sides a Ha). lia. }
    assert (BZ : forall a, (a < n)%nat -> 0 <= nth a z 0 < 1000) by (intros a Ha; rewrite Forall_forall in Bz; apply Bz, nth_In; lia).
    assert (NZ : forall a, (a < n)%nat -> (Rabs (rnd (IZR (nth a z 0%Z) / 1000) - IZR (nth a z 0%Z) / 1000) <= / 4194304 /\ 0 <= rnd (IZR (nth a z 0%Z) / 1000))%R).
    { intros a Ha. pose proof (milli_bound _ (BZ a Ha)) as MB. split.
      - assert (B : (Rabs (IZR (nth a z 0%Z) / 1000) <= 1)%R) by (apply Rabs_le; lra). apply (rnd_close _ _ _ B); [simpl; lra|unfold ulp_; simpl; lra].
      - rewrite <- rnd_0. apply rnd_le. lra. }
    split.
    - apply dens_zip; [rewrite map_length; auto|congruence|]. intros a Ha. destruct (Hs a Ha) as [Hsa Sa]. pose proof (BC a Ha) as B. destruct (NZ a Ha) as [N1 N2]. pose proof (milli_bound _ (BZ a Ha)) as MB.
      assert (BI : (0 <= IZR (nth (s a) c 0%Z) <= 1048576)%R) by (split; [apply (IZR_le 0); lia|change 1048576%R with (IZR M20); apply IZR_le; lia]).
      apply denotes_add.
      + rewrite (nth_map' _ []) by congruence. destruct (DV a Ha) as [Lr Dr].
        assert (DC : forall i, (i < n)%nat -> denotes (nth i (map (a_ofZ FA) c) fz) (IZR (nth i c 0%Z))).
        { intros i Hi. rewrite (nth_map' _ 0) by congruence. destruct (Hs i Hi) as [Hsi Si]. pose proof (BC (s i) Hsi) as Bi. rewrite Si in Bi. apply denotes_ofZ. unfold M20 in *; lia. }
        apply (dot_one _ _ (s a)); auto.
        * rewrite map_length. congruence.
        * congruence.
        * specialize (Dr (s a) Hsa). cbn beta in Dr. rewrite Sa, Nat.eqb_refl in Dr. exact Dr.
        * apply rnd_IZR. unfold M20 in *; lia.
        * apply IZR_big. unfold M20 in *; lia.
        * intros i Hi Ni. rewrite Lr in Hi. split; [|eexists; apply DC; auto]. specialize (Dr i Hi). cbn beta in Dr. destruct (Hs i Hi) as [_ Si].
          destruct (Nat.eqb_spec a (s i)) as [Ea|]; [subst a; congruence|exact Dr].
      + apply T. congruence.
      + apply small_big. apply Rabs_bnd in N1. apply Rabs_le. simpl; lra.
    - intros a Ha. pose proof (BC a Ha) as B. destruct (NZ a Ha) as [N1 N2]. pose proof (milli_bound _ (BZ a Ha)) as MB.
      assert (BI : (0 <= IZR (nth (s a) c 0%Z) <= 1048576)%R) by (split; [apply (IZR_le 0); lia|change 1048576%R with (IZR M20); apply IZR_le; lia]).
      apply Rabs_bnd in N1. set (x := IZR (nth (s a) c 0%Z)) in *. set (y := rnd (IZR (nth a z 0%Z) / 1000)) in *. split.
      + assert (BX : (Rabs (x + y) <= 1048578)%R) by (apply Rabs_le; lra).
        assert (R1 : (Rabs (rnd (x + y) - (x + y)) <= / 4194304)%R) by (apply (rnd_close _ _ _ BX); [simpl; lra|unfold ulp_; simpl; lra]).
        apply Rabs_bnd in R1. apply Rabs_le. lra.
      + rewrite <- rnd_0. apply rnd_le. lra.
  Qed.
  Lemma unit_build cls m : match m with MDict d => d = [(cls, [p])] | MList l => l = [p] /\ cls = DEFAULT_SITE_CLASS end ->
    exists S L, build_from FA L0 k m false = Ok S /\ axis_lattice n s N per L /\ fl_box n s N per L (fun a => nth a z 0) k cls S.
  Proof.
    intros Hm. destruct scale_axis as (L & EL & AL). destruct (HP) as (Lz & Bz & _).
    destruct (build_axis n s N per L Hs sides AL (fun a => nth a z 0)) with (k := k) (cls := cls) (loc := fun c => motif_loc FA L0 false c p) as (S & ES & BS); auto.
    - intros a Ha. rewrite Forall_forall in Bz. apply Bz, nth_In. lia.
    - apply unit_loc.
    - exists S, L. split; [|auto]. unfold build_from. rewrite EL. cbn [bind]. rewrite (al_dim _ _ _ _ _ AL).
      assert (BX : get_points_in_box (repeat 0 n) k = cells k) by (rewrite <- Lk; apply box_cells). rewrite BX, <- ES.
      apply foldM_ext. intros S' c _. assert (E : match m with MDict d => d | MList l => [(DEFAULT_SITE_CLASS, l)] end = [(cls, [p])]) by (destruct m; [auto|destruct Hm as [-> ->]; auto]).
      rewrite E. cbn [foldM fst snd]. destruct (motif_loc FA L0 false c p) as [l|e]; cbn [bind]; auto. destruct (add_site_or_raise FA S' (cls, l)); reflexivity.
  Qed.
End Unit.

Lemma rows_axis n : axis_matrix n (fun a => a) (fun _ => 1) (map (fun i => map (fun a => f_ofZ (if Nat.eqb i a then 1 else 0)) (seq 0 n)) (seq 0 n)).
Proof.
  split; [now rewrite map_length, seq_length|]. intros i Hi. rewrite (nth_seq_map (fun i => map (fun a => f_ofZ (if Nat.eqb i a then 1 else 0)) (seq 0 n))) by auto.
  split; [now rewrite map_length, seq_length|]. intros a Ha. rewrite (nth_seq_map (fun a => f_ofZ (if Nat.eqb i a then 1 else 0))) by auto.
  destruct (Nat.eqb i a); auto using den_0, den_1.
Qed.
Lemma perm_id {A} (d : A) n l : length l = n -> perm d n (fun a => a) l = l.
Proof. intros <-. apply map_nth_seq. Qed.
Lemma axes_box n per L k z p : fl_axes n per L -> length k = n -> Forall (fun m => 1 <= m <= M20) k -> cell_position n z p ->
  (1 <= n)%nat /\ length per = n /\ exists s L', build_from FA L k (MList [p]) false = Ok s /\ axis_lattice n (fun a => a) (fun a => nth a k 0) per L' /\
    fl_box n (fun a => a) (fun a => nth a k 0) per L' (fun a => nth a z 0) k DEFAULT_SITE_CLASS s.
Proof.
  intros (pa & EI & EP & Lper) Lk Hk HP. assert (Hn : (1 <= n)%nat) by (destruct n; [discriminate EI|lia]). split; auto. split; auto.
  pose proof (rows_axis n) as RA. rewrite (init_square n) in EI; auto; try apply RA. injection EI as <-. cbn [l_periodic] in EP. rewrite EP.
  apply (unit_build n Hn (fun a => a) (fun a H => conj H eq_refl) _ RA per Lper) with (k := k) (z := z) (p := p) (cls := DEFAULT_SITE_CLASS) (m := MList [p]); auto.
  intros N M HN AM. apply diagonal_inverse; auto.
Qed.

(** The library's grids. *)
Lemma square_box size : (length size = 2%nat \/ length size = 3%nat) -> Forall (fun m => 1 <= m <= M20) size ->
  exists s L, fl_square size s /\ axis_lattice (length size) sw (fun a => nth (sw a) size 0) (repeat true (length size)) L /\
    fl_box (length size) sw (fun a => nth (sw a) size 0) (repeat true (length size)) L (fun a => nth a (repeat 0 (length size)) 0) size "_A" s.
Proof.
  intros HS Hk. set (n := length size) in *. assert (H2 : (2 <= n)%nat) by lia.
  set (V := if Nat.eqb n 2 then map (nums FA) [[0; 1]; [1; 0]] else map (nums FA) [[0; 1; 0]; [1; 0; 0]; [0; 0; 1]]).
  set (p := nums FA (repeat 0 n)).
  assert (HV : axis_matrix n sw (fun _ => 1) V).
  { unfold V. destruct HS as [->| ->]; cbn [Nat.eqb]; (split; [reflexivity|]); intros i Hi.
    - destruct i as [|[|i]]; try lia; (split; [reflexivity|]); intros a Ha; destruct a as [|[|a]]; try lia; first [apply den_0|apply den_1].
    - destruct i as [|[|[|i]]]; try lia; (split; [reflexivity|]); intros a Ha; destruct a as [|[|[|a]]]; try lia; first [apply den_0|apply den_1]. }
  assert (Hs : forall a, (a < n)%nat -> (sw a < n)%nat /\ sw (sw a) = a) by (intros a Ha; split; [now apply sw_lt|apply sw_sw]).
  assert (HP : cell_position n (repeat 0 n) p).
  { split; [apply repeat_length|]. split; [apply Forall_forall; intros x Hx; apply repeat_spec in Hx; lia|].
    unfold p, nums, thousandths. clear. induction n as [|n IH]; simpl; constructor; auto. replace (IZR 0 / 1000)%R with 0%R by (simpl; lra). rewrite rnd_0. apply den_0. }
  assert (IV : forall N M, (forall a, (a < n)%nat -> 1 <= N a <= M20) -> axis_matrix n sw N M -> exists W, f_inv M = Ok W /\ axis_inverse n sw N W).
  { intros N M HN AM. apply swapped_inverse; auto. }
  destruct (unit_build n ltac:(lia) sw Hs V HV (repeat true n) (repeat_length _ _) IV size eq_refl Hk (repeat 0 n) p HP "_A"%string (MDict [("_A"%string, [p])]) eq_refl) as (s & L & EB & AL & FB).
  exists s, L. split; auto. unfold fl_square. fold n. destruct HS as [E|E]; [left|right]; (split; [exact E|]); eexists; (split; [reflexivity|]);
    unfold build; cbn [b_lattice b_motif b_frac l_dim length]; fold n; unfold V, p in EB; rewrite E in EB |- *; cbn [Nat.eqb] in EB; exact EB.
Qed.
Lemma fl_square_unique size s s' : fl_square size s -> fl_square size s' -> s = s'.
Proof.
  intros [(L & b & E & B)|(L & b & E & B)] [(L' & b' & E' & B')|(L' & b' & E' & B')]; try (rewrite L in L'; discriminate); rewrite E in E'; injection E' as <-; congruence.
Qed.
Lemma perm_sw {A} (d : A) a b l : perm d (S (S (length l))) sw (a :: b :: l) = b :: a :: l.
Proof.
  apply nth_ext with d d; [rewrite perm_length; reflexivity|]. intros i Hi. rewrite perm_length in Hi. rewrite perm_nth by auto. destruct i as [|[|i]]; reflexivity.
Qed.
Lemma perm_extents size : (length size = 2%nat \/ length size = 3%nat) -> perm 0 (length size) sw size = extents size.
Proof. destruct size as [|a [|b l]]; simpl length; try lia. intros _. apply perm_sw. Qed.
Lemma perm_repeat {A} (d x : A) n s : (forall a, (a < n)%nat -> (s a < n)%nat) -> perm d n s (repeat x n) = repeat x n.
Proof.
  intros H. apply nth_ext with d d; [rewrite perm_length, repeat_length; auto|]. intros i Hi. rewrite perm_length in Hi. rewrite perm_nth by auto. rewrite !nth_repeat'; auto.
Qed.

(** * C89 *)
Lemma C89_lemma : forall n per L k z p, (n <= 3)%nat -> fl_axes n per L -> length k = n -> Forall (fun m => 1 <= m <= 2 ^ 20) k -> cell_position n z p ->
  exists s, build_from FA L k (MList [p]) false = Ok s /\ Z.of_nat (length (sites s None)) = fold_right Z.mul 1 k /\
    (forall i x, get_site s i = Some x -> exists c, Forall2 (fun a m => 0 <= a < m) c k /\ fl_site s z c i) /\
    (forall c, Forall2 (fun a m => 0 <= a < m) c k -> exists i, fl_site s z c i /\ forall i', fl_site s z c i' -> i' = i) /\
    (forall c c' i, fl_site s z c i -> fl_site s z c' i -> c = c') /\
    (forall K K' cut t, (forall d, length d = n -> K < sq d -> K' <= sq d) -> denotes cut t -> admits K t -> keeps_out K' t ->
       exists N, nb_get FA (BDistance cut) s None = Ok N /\ forall c i, fl_site s z c i ->
         neighbours N i (fun j => j <> i /\ exists c' d, fl_site s z c' j /\ reaches per k c d c' /\ sq d <= K) /\ lengths per k z s N c i) /\
    (forall K1 K2 cut1 cut2 t1 t2, denotes cut1 t1 -> denotes cut2 t2 -> skips K1 t1 -> passes (K1 + 1) t1 -> admits K2 t2 -> keeps_out (K2 + 1) t2 ->
       exists N, nb_get FA (BAnnular cut1 cut2) s None = Ok N /\ forall c i, fl_site s z c i ->
         neighbours N i (fun j => j <> i /\ exists c' d, fl_site s z c' j /\ shortest per k c d c' /\ K1 < sq d <= K2) /\ lengths per k z s N c i).
Proof.
  intros n per L k z p H3 HA Lk Hk HP. change (2 ^ 20) with M20 in Hk. destruct (axes_box n per L k z p HA Lk Hk HP) as (Hn & Lper & s & L' & EB & AL & FB).
  assert (Hs : forall a, (a < n)%nat -> (a < n)%nat /\ a = a) by auto. destruct HP as (Lz & Bz & _).
  pose proof (of_site n _ Hs k Lk Hk per L' z Lz Bz _ s FB) as OS. pose proof (site_of n _ k per L' z Lz _ s FB) as SO.
  pose proof (cells_perm n _ Hs k Lk Hk z Lz) as CP. rewrite (perm_id 0 n k Lk) in CP.
  exists s. split; auto. split; [apply (fb_count _ _ _ _ _ _ _ _ _ FB)|]. split; [|split; [|split; [|split]]].
  - intros i x G. destruct (fb_all _ _ _ _ _ _ _ _ _ FB i x G) as (e & He & ->). exists (perm 0 n (fun a => a) e). split; [apply CP; eauto|auto].
  - intros c Hc. apply CP in Hc as (e & He & ->). exists (rank k e). split; auto. intros i' S'. apply OS in S' as (e' & He' & -> & E).
    f_equal. apply (perm_inj n (fun a => a) Hs); auto; now apply (cell_len n k Lk).
  - intros c c' i S1 S2. apply OS in S1 as (e & He & -> & ->). apply OS in S2 as (e' & He' & E & ->). f_equal.
    assert (Pk : Forall (fun a => 0 < a) k) by (eapply Forall_impl; [|exact Hk]; simpl; intros; lia). apply (rank_inj k); auto.
  - intros K K' cut t GAP Dc A B. pose proof (cutoff_fl n _ Hs k Lk Hk per L' AL z Lz Bz _ s FB H3 K K' cut t GAP Dc A B) as H.
    rewrite (perm_id 0 n k Lk), (perm_id false n per Lper) in H. exact H.
  - intros K1 K2 cut1 cut2 t1 t2 D1 D2 A1 B1 A2 B2. pose proof (ring_fl n _ Hs k Lk Hk per L' AL z Lz Bz _ s FB H3 K1 K2 cut1 cut2 t1 t2 D1 D2 A1 B1 A2 B2) as H.
    rewrite (perm_id 0 n k Lk), (perm_id false n per Lper) in H. exact H.
Qed.

Lemma sqrt2_bounds : (1.4142 <= sqrt 2 <= 1.41422)%R.
Proof.
  split.
  - rewrite <- (sqrt_square 1.4142) by lra. apply sqrt_le_1_alt. lra.
  - rewrite <- (sqrt_square 1.41422) by lra. apply sqrt_le_1_alt. lra.
Qed.
Lemma sq_gap2 d : length d = 2%nat -> 2 < sq d -> 4 <= sq d.
Proof.
  destruct d as [|a [|b [|]]]; try discriminate. intros _. unfold sq. simpl. intros H.
  assert (Z.abs a <= 1 /\ Z.abs b <= 1 \/ 2 <= Z.abs a \/ 2 <= Z.abs b) as [[Ha Hb]|[|]] by lia; nia.
Qed.
Lemma C89_guide_lemma : forall per L k z p s, fl_axes 2 per L -> length k = 2%nat -> Forall (fun m => 1 <= m <= 2 ^ 20) k -> cell_position 2 z p ->
  build_from FA L k (MList [p]) false = Ok s ->
  (forall cut t, denotes cut t -> (1 < t <= 14136 / 10000)%R -> exists N, nb_get FA (BDistance cut) s None = Ok N /\ forall c i, fl_site s z c i ->
     neighbours N i (fun j => j <> i /\ exists c' d, fl_site s z c' j /\ reaches per k c d c' /\ within_vn 1 d)) /\
  (forall cut t, denotes cut t -> (14149 / 10000 <= t <= 2)%R -> exists N, nb_get FA (BDistance cut) s None = Ok N /\ forall c i, fl_site s z c i ->
     neighbours N i (fun j => j <> i /\ exists c' d, fl_site s z c' j /\ reaches per k c d c' /\ within_moore 1 d)).
Proof.
  intros per L k z p s HA Lk Hk HP EB. destruct (C89_lemma 2 per L k z p ltac:(lia) HA Lk Hk HP) as (s' & EB' & _ & _ & _ & _ & H & _).
  rewrite EB in EB'. injection EB' as <-. pose proof sqrt2_bounds as S2. split; intros cut t Dc T.
  - destruct (H 1 2 cut t) as (N & EN & HN); auto; [intros; lia| | |].
    + right. exists 1. split; [lia|]. split; [lia|lra].
    + left. change (IZR 2) with 2%R. lra.
    + exists N. split; auto. intros c i S. destruct (HN c i S) as [HN' _]. revert HN'. apply neighbours_iff. intros j.
      split; intros (D & c' & d & S' & R & Q); split; auto; exists c', d; split; auto; split; auto; now apply sq_vn.
  - destruct (H 2 4 cut t) as (N & EN & HN); auto; [apply sq_gap2| | |].
    + left. change (IZR 2) with 2%R. lra.
    + right. exists 2. split; [lia|]. split; [lia|lra].
    + exists N. split; auto. intros c i S. destruct (HN c i S) as [HN' _]. revert HN'. apply neighbours_iff. intros j.
      split; intros (D & c' & d & S' & R & Q); split; auto; exists c', d; split; auto; split; auto;
        (assert (Ld : length d = 2%nat) by (destruct R as (_ & E & _); congruence)); now apply (proj1 (sq_moore d Ld)).
Qed.

(** * C90 *)
Lemma C90_lemma : forall size s, (length size = 2%nat \/ length size = 3%nat) -> Forall (fun m => 1 <= m <= 2 ^ 20) size -> fl_square size s ->
  let per := repeat true (length size) in let z := repeat 0 (length size) in
  (forall c, Forall2 (fun a m => 0 <= a < m) c (extents size) -> exists i, fl_site s z c i) /\
  (forall i x, get_site s i = Some x -> exists c, Forall2 (fun a m => 0 <= a < m) c (extents size) /\ fl_site s z c i) /\
  (forall K K' cut t, (forall d, length d = length size -> K < sq d -> K' <= sq d) -> denotes cut t -> admits K t -> keeps_out K' t ->
     exists N, nb_get FA (CircularNeighborhoodBuilder cut) s None = Ok N /\ forall c i, fl_site s z c i ->
       neighbours N i (fun j => j <> i /\ exists c' d, fl_site s z c' j /\ reaches per (extents size) c d c' /\ sq d <= K) /\ lengths per (extents size) z s N c i).
Proof.
  intros size s HS Hk FS per z. change (2 ^ 20) with M20 in Hk. destruct (square_box size HS Hk) as (s' & L & FS' & AL & FB).
  pose proof (fl_square_unique _ _ _ FS FS'). subst s'. fold per in AL, FB. set (n := length size) in *.
  assert (Hs : forall a, (a < n)%nat -> (sw a < n)%nat /\ sw (sw a) = a) by (intros a Ha; split; [apply sw_lt; lia|apply sw_sw]).
  assert (Lz : length z = n) by apply repeat_length. assert (Bz : Forall (fun a => 0 <= a < 1000) z) by (apply Forall_forall; intros x Hx; apply repeat_spec in Hx; lia).
  change (repeat 0 n) with z in FB.
  pose proof (site_of n _ size per L z Lz _ s FB) as SO.
  pose proof (cells_perm n _ Hs size eq_refl Hk z Lz) as CP. unfold n in CP at 1. rewrite perm_extents in CP by auto. fold n in CP.
  split; [|split].
  - intros c Hc. apply CP in Hc as (e & He & ->). eauto.
  - intros i x G. destruct (fb_all _ _ _ _ _ _ _ _ _ FB i x G) as (e & He & ->). exists (perm 0 n sw e). split; [apply CP; eauto|auto].
  - intros K K' cut t GAP Dc A B.
    pose proof (cutoff_fl n _ Hs size eq_refl Hk per L AL z Lz Bz _ s FB ltac:(lia) K K' cut t GAP Dc A B) as H.
    unfold n in H at 1 2 3 4. 
    replace (perm 0 (length size) sw size) with (extents size) in H by (symmetry; now apply perm_extents).
    replace (perm false (length size) sw per) with per in H by (symmetry; apply perm_repeat; intros a Ha; apply sw_lt; fold n; auto; lia).
    exact H.
Qed.
