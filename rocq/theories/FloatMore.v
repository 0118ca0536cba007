(** Lookups on binary64 grids (C30). *)
From Coq Require Import Reals Lra Psatz.
From Flocq Require Import Core BinarySingleNaN.
From Verif Require Import Prelude Dict Arith RealArith FloatArith LatticeModel JsonModel StructModel NbModel GridModel
  SpecGeom SpecNb SpecFloat64 StructFacts StructBuild NbFacts GridFacts HoneyFacts FloatFacts FloatCoord FloatGrid.
Local Open Scope Z_scope.

Definition unit_vs : list (list b64) := [[f_ofZ 0; f_ofZ 1]; [f_ofZ 1; f_ofZ 0]].
Lemma sq_builder : SimpleSquare2DStructureBuilder FA =
  Ok (mkBuilder (mkLattice unit_vs [true; true] unit_vs 2) (MDict [("_A"%string, [[f_ofZ 0; f_ofZ 0]])]) false).
Proof. reflexivity. Qed.

Lemma scale_wide n m : 1 <= n <= M20 -> 1 <= m <= M20 ->
  exists L, get_scaled_lattice FA (mkLattice unit_vs [true; true] unit_vs 2) [n; m] = Ok L /\ wide n m L.
Proof.
  intros Hn Hm. eexists. split; [reflexivity|]. eexists _, _, _, _. split; [reflexivity|].
  destruct (big20 n Hn) as (Bn & Rn & _). destruct (big20 m Hm) as (Bm & Rm & _).
  assert (Dn : denotes (f_ofZ n) (IZR n)) by (apply denotes_ofZ; unfold M20 in *; lia).
  assert (Dm : denotes (f_ofZ m) (IZR m)) by (apply denotes_ofZ; unfold M20 in *; lia).
  split; [apply (den_mul0l _ _ _ den_0 Dn)|]. split; [apply den_mul1l; auto using den_1|]. split; [apply den_mul1l; auto using den_1|].
  apply (den_mul0l _ _ _ den_0 Dm).
Qed.

Lemma loc_fl n m i j : 1 <= n <= M20 -> 1 <= m <= M20 -> 0 <= i < n -> 0 <= j < m -> exists vx vy,
  motif_loc FA (mkLattice unit_vs [true; true] unit_vs 2) false [i; j] [f_ofZ 0; f_ofZ 0] = Ok [vx; vy] /\ denotes vx (IZR j) /\ denotes vy (IZR i).
Proof.
  intros Hn Hm Hi Hj. assert (G : forall k, 0 <= k <= M20 -> denotes (f_ofZ k) (IZR k) /\ rnd (IZR k) = IZR k /\ (Rabs (IZR k) <= big)%R).
  { intros k Hk. unfold M20 in Hk. split; [apply denotes_ofZ; lia|]. split; [apply rnd_IZR; lia|apply IZR_big; lia]. }
  destruct (G i ltac:(lia)) as (Di & Ri & Bi). destruct (G j ltac:(lia)) as (Dj & Rj & Bj).
  unfold motif_loc. cbn [l_matrix map unit_vs]. unfold matvec. cbn [width length Nat.eqb map dot bind a_add a_mul a_ofZ FA].
  unfold bcast. cbn [length Nat.eqb zipwith bind].
  eexists _, _. split; [reflexivity|]. split.
  - apply den_add0r; auto using den_0. apply den_add0l; auto; [apply (den_mul0l _ _ _ den_0 Di)|].
    apply den_add0r; auto using den_0. apply den_mul1l; auto using den_1.
  - apply den_add0r; auto using den_0. apply den_add0r; auto; [apply den_mul1l; auto using den_1|].
    apply den_add0r; auto using den_0, rnd_0, zero_big. apply (den_mul0l _ _ _ den_0 Dj).
Qed.

Lemma build_fl n m : 1 <= n <= M20 -> 1 <= m <= M20 ->
  exists s L h, fl_grid [n; m] s /\ wide n m L /\ Inv FA L h s /\ Forall2 good (cells [n; m]) h /\ Forall inside (cells [n; m]).
Proof.
  intros Hn Hm. destruct (scale_wide n m Hn Hm) as (L & EL & WL).
  set (L0 := mkLattice unit_vs [true; true] unit_vs 2) in *.
  destruct (fold_fl n m Hn Hm L (fun c => motif_loc FA L0 false c [f_ofZ 0; f_ofZ 0]) WL) with (cs := cells [n; m]) (done := @nil (list Z)) (h := @nil (string * list b64 * list b64)) (s := struct_init L)
    as (s & h & EF & I & G & IN); auto.
  - intros i j Hi Hj. apply (loc_fl n m); auto.
  - apply Inv_init.
  - apply (cells_NoDup [n; m]).
  - apply Forall_forall. intros c Hc. apply hex_cells in Hc as (i & j & -> & Hi & Hj). eauto.
  - exists s, L, h. split; [|auto]. eexists. split; [apply sq_builder|].
    unfold build. cbn [b_lattice b_motif b_frac l_dim length Nat.eqb negb]. fold L0.
    unfold build_from. rewrite EL. cbn [bind].
    replace (l_dim L) with (length [n; m]) by (destruct WL as (? & ? & ? & ? & -> & _); reflexivity). rewrite box_cells.
    rewrite <- EF. apply foldM_ext. intros s' c _. cbn [foldM fst snd].
    destruct (motif_loc FA L0 false c [f_ofZ 0; f_ofZ 0]) as [l|e]; cbn [bind]; auto.
    destruct (add_site_or_raise FA s' ("_A"%string, l)); reflexivity.
Qed.

Lemma rank2 n m i j : rank [n; m] [i; j] = i * m + j.
Proof. cbn [rank fold_right]. lia. Qed.

(** What a float grid is: its sites, and what lookups of whole points give. *)
Definition fl_facts (n m : Z) (s : structure b64) : Prop :=
  dense s /\ Z.of_nat (length (sites s None)) = n * m /\
  (forall i j, 0 <= i < n -> 0 <= j < m -> exists u v,
     get_site s (i * m + j) = Some (mkSite "_A" [u; v] (i * m + j)) /\ denotes u (IZR j) /\ denotes v (IZR i)) /\
  (forall x, In x (sites s None) -> exists i j, 0 <= i < n /\ 0 <= j < m /\ get_site s (i * m + j) = Some x) /\
  forall x y vx vy, Z.abs x <= M30 -> Z.abs y <= M30 -> denotes vx (IZR x) -> denotes vy (IZR y) ->
    (~ falls_short m x -> ~ falls_short n y -> id_at FA s [vx; vy] = Ok (Some ((y mod n) * m + x mod m))) /\
    (falls_short m x \/ falls_short n y -> id_at FA s [vx; vy] = Ok None).

Lemma fl_core n m : 1 <= n <= M20 -> 1 <= m <= M20 -> exists s, fl_grid [n; m] s /\ fl_facts n m s.
Proof.
  intros Hn Hm. destruct (build_fl n m Hn Hm) as (s & L & h & FG & WL & I & G & IN).
  assert (Pk : Forall (fun a => 0 < a) [n; m]) by (constructor; [lia|constructor; [lia|constructor]]).
  assert (LH : length h = length (cells [n; m])) by (symmetry; clear -G; induction G; simpl; auto).
  assert (GS : forall i j, 0 <= i < n -> 0 <= j < m -> exists u v,
       get_site s (i * m + j) = Some (mkSite "_A" [u; v] (i * m + j)) /\ denotes u (IZR j) /\ denotes v (IZR i)).
  { intros i j Hi Hj. pose proof (hex_cells_in n m i j Hi Hj) as HC. pose proof (cells_nth [n; m] _ Pk HC) as NT. pose proof (rank_bound _ _ HC) as RB.
    rewrite rank2 in NT, RB.
    assert (GE : exists e, nth_error h (Z.to_nat (i * m + j)) = Some e /\ good [i; j] e).
    { clear -G NT. revert NT. generalize (Z.to_nat (i * m + j)). induction G as [|c e cs h Gc G IH]; intros p E; [destruct p; discriminate|].
      destruct p; simpl in *; [injection E as ->; eauto|eauto]. }
    destruct GE as (e & Ee & (i' & j' & u & v & k1 & k2 & [= <- <-] & -> & D1 & D2 & _)).
    pose proof (get_site_nth FA L h s (Z.to_nat (i * m + j)) I) as GN. rewrite Ee in GN. cbn [option_map fst snd] in GN.
    rewrite Z2Nat.id in GN by lia. eexists _, _. split; [exact GN|]. auto. }
  assert (CNT : Z.of_nat (length (sites s None)) = n * m).
  { rewrite (sites_list FA L h s I), map_length. unfold enumerate. rewrite enumerate_from_length, LH. rewrite (cells_count _ Pk). cbn [fold_right]. lia. }
  pose proof (inv_dense FA L h s I) as DS.
  exists s. split; auto. split; auto. split; auto. split; auto. split.
  { intros x Hx. pose proof (dense_id s x DS Hx) as RB. rewrite CNT in RB.
    assert (Gx : get_site s (s_id x) = Some x) by (apply (inv_get_site FA L h s); auto).
    exists (s_id x / m), (s_id x mod m). pose proof (Z.mod_pos_bound (s_id x) m ltac:(lia)).
    assert (0 <= s_id x / m < n) by (split; [apply Z.div_pos; lia|apply Z.div_lt_upper_bound; lia]).
    split; auto. split; auto. replace (s_id x / m * m + s_id x mod m) with (s_id x); auto. rewrite (Z.div_mod (s_id x) m) at 1 by lia. lia. }
  intros x y vx vy Hx Hy Dx Dy.
  destruct (transformed_fl n m Hn Hm L h s vx vy x y WL I Hx Hy Dx Dy) as (u & v & k1 & k2 & _ & T & _ & _ & K1 & K2).
  pose proof (wrap_range m x Hm Hx) as [Rx _]. pose proof (wrap_range n y Hn Hy) as [Ry _].
  unfold id_at, site_at. rewrite T. cbn [bind]. pose proof I as (_ & _ & _ & _ & EL). rewrite EL. unfold enumerate. split.
  - intros Sx Sy. rewrite (wrap_mod m x Hm Hx Sx) in K1. rewrite (wrap_mod n y Hn Hy Sy) in K2.
    pose proof (Z.mod_pos_bound x m ltac:(lia)) as Mx. pose proof (Z.mod_pos_bound y n ltac:(lia)) as My.
    pose proof (hex_cells_in n m _ _ My Mx) as HC. pose proof (cells_nth [n; m] _ Pk HC) as NT. pose proof (rank_bound _ _ HC) as RB. rewrite rank2 in NT, RB.
    rewrite (lookup_some (cells [n; m]) h k1 k2 (x mod m) (y mod n) G IN K1 K2 ltac:(lia) ltac:(lia) (cells_NoDup [n; m]) _ 0 NT).
    rewrite Z2Nat.id, Z.add_0_l by lia. destruct (GS _ _ My Mx) as (a & b & -> & _). reflexivity.
  - intros SH. rewrite (lookup_none (cells [n; m]) h k1 k2 (wrap_of m x) (wrap_of n y) G IN K1 K2 ltac:(lia) ltac:(lia)); auto.
    intros X. apply hex_cells in X as (i & j & [= E1 E2] & Hi & Hj). destruct SH as [S|S]; apply wrap_short in S; auto; lia.
Qed.
Lemma fl_det size s s' : fl_grid size s -> fl_grid size s' -> s = s'.
Proof. intros (b & E & B) (b' & E' & B'). congruence. Qed.
Lemma fl_any n m s : 1 <= n <= M20 -> 1 <= m <= M20 -> fl_grid [n; m] s -> fl_facts n m s.
Proof. intros Hn Hm FG. destruct (fl_core n m Hn Hm) as (s' & FG' & H). now rewrite (fl_det _ _ _ FG FG'). Qed.

Lemma C30_lookup_lemma : forall n m, 1 <= n <= 2 ^ 20 -> 1 <= m <= 2 ^ 20 ->
  exists s, fl_grid [n; m] s /\ Z.of_nat (length (sites s None)) = n * m /\
    (forall i j, 0 <= i < n -> 0 <= j < m -> exists u v,
       get_site s (i * m + j) = Some (mkSite "_A" [u; v] (i * m + j)) /\ denotes u (IZR j) /\ denotes v (IZR i)) /\
    forall x y, Z.abs x <= 2 ^ 30 -> Z.abs y <= 2 ^ 30 ->
      (~ falls_short m x -> ~ falls_short n y -> id_at FA s (fl_at [x; y]) = Ok (Some ((y mod n) * m + x mod m))) /\
      (falls_short m x \/ falls_short n y -> id_at FA s (fl_at [x; y]) = Ok None).
Proof.
  intros n m Hn Hm. destruct (fl_core n m Hn Hm) as (s & FG & _ & C & GS & _ & H). exists s. split; auto. split; auto. split; auto.
  intros x y Hx Hy. change (2 ^ 30) with M30 in *. apply H; auto; apply denotes_ofZ; unfold M30 in *; lia.
Qed.

(** * When the product falls short *)
Lemma short_float n x : 1 <= n <= M20 -> Z.abs x <= M30 -> n <> 0 -> (n | x) ->
  (falls_short n x <-> f_ltb (f_mul (f_ofZ x) (f_div (f_ofZ 1) (f_ofZ n))) (f_ofZ (x / n)) = true).
Proof.
  intros Hn Hx Nn [k ->]. assert (Dx : denotes (f_ofZ (k * n)) (IZR (k * n))) by (apply denotes_ofZ; unfold M30 in *; lia).
  assert (Dn : denotes (f_ofZ n) (IZR n)) by (apply denotes_ofZ; unfold M20 in *; lia).
  assert (Da : denotes (f_div (f_ofZ 1) (f_ofZ n)) (rnd (1 / IZR n))).
  { apply denotes_div; auto using den_1; [apply not_0_IZR; lia|]. apply (proj1 (recip_big n Hn)). }
  destruct (one_coord n (k * n) _ _ _ Hn Hx Dx Da Dn) as (DF & _).
  assert (Dk : denotes (f_ofZ k) (IZR k)) by (apply denotes_ofZ; unfold M30, M20 in *; nia).
  rewrite Z.div_mul by auto. rewrite (denotes_ltb _ _ _ _ DF Dk). unfold falls_short. fold (frac_of n (k * n)).
  replace (IZR (k * n) / IZR n)%R with (IZR k) by (rewrite mult_IZR; field; apply not_0_IZR; lia).
  case Rlt_bool_spec; intros H; split; auto; try discriminate; try (intros _; split; auto; exists k; auto). intros [_ H']. exfalso. lra.
Qed.

Lemma C30_refuted_lemma : exists n s x y, 1 <= n <= 2 ^ 20 /\ fl_grid [n; n] s /\ x = n /\ 0 <= y < n /\
  id_at FA s (fl_at [x; y]) = Ok None.
Proof.
  destruct (C30_lookup_lemma 49 49 ltac:(lia) ltac:(lia)) as (s & FG & _ & _ & H).
  exists 49, s, 49, 0. split; [lia|]. split; auto. split; auto. split; [lia|]. apply H; try lia. left.
  apply short_float; try (unfold M20, M30; lia); [exists 1; reflexivity|vm_compute; reflexivity].
Qed.

(** Sides that are powers of two never fail. *)
Lemma C30_pow2_lemma : forall k x, 0 <= k <= 20 -> Z.abs x <= 2 ^ 30 -> ~ falls_short (2 ^ k) x.
Proof.
  intros k x Hk Hx [[z ->] L]. revert L. change (2 ^ k) with (radix2 ^ k). rewrite mult_IZR, IZR_Zpower by lia.
  replace (1 / bpow radix2 k)%R with (bpow radix2 (- k)) by (rewrite bpow_opp; field; apply Rgt_not_eq, bpow_gt_0).
  assert (E : rnd (bpow radix2 (- k)) = bpow radix2 (- k)).
  { unfold rnd. apply round_generic; auto with typeclass_instances. apply generic_format_bpow. unfold FLT_exp. lia. }
  rewrite E. replace (IZR z * bpow radix2 k * bpow radix2 (- k))%R with (IZR z).
  2: { rewrite Rmult_assoc, <- bpow_plus. replace (k + - k) with 0 by lia. simpl. ring. }
  replace (IZR z * bpow radix2 k / bpow radix2 k)%R with (IZR z) by (field; apply Rgt_not_eq, bpow_gt_0).
  rewrite rnd_IZR; [lra|]. assert (1 <= 2 ^ k) by (apply (Z.pow_le_mono_r 2 0 k); lia). nia.
Qed.

(** Sides up to 48: one step beyond the border. *)
Lemma C30_adjacent_lemma : forall n x, 1 <= n <= 48 -> -1 <= x <= n -> ~ falls_short n x.
Proof.
  intros n x Hn Hx SH. pose proof SH as [[z Ez] _].
  assert (C : forallb (fun n => negb (f_ltb (f_mul (f_ofZ n) (f_div (f_ofZ 1) (f_ofZ n))) (f_ofZ (n / n)))) (zrange 1 49) = true) by (vm_compute; reflexivity).
  rewrite forallb_forall in C.
  assert (Z0 : z = 0 \/ z = 1 \/ (z = -1 /\ n = 1)) by nia. destruct Z0 as [->|[->|[-> ->]]].
  - rewrite Z.mul_0_l in Ez. subst x. revert SH. apply not_short_inside; unfold M20; lia.
  - rewrite Z.mul_1_l in Ez. subst x. apply short_float in SH; try (unfold M20, M30; lia); [|apply Z.divide_refl].
    specialize (C n). rewrite SH in C. discriminate C. apply zrange_In. lia.
  - subst x. apply (C30_pow2_lemma 0 (-1)); try lia. exact SH.
Qed.

Lemma C30_pow2_found_lemma : forall a b, 0 <= a <= 20 -> 0 <= b <= 20 -> exists s, fl_grid [2 ^ a; 2 ^ b] s /\
  forall x y, Z.abs x <= 2 ^ 30 -> Z.abs y <= 2 ^ 30 ->
    id_at FA s (fl_at [x; y]) = Ok (Some ((y mod 2 ^ a) * 2 ^ b + x mod 2 ^ b)).
Proof.
  intros a b Ha Hb. assert (P : forall k, 0 <= k <= 20 -> 1 <= 2 ^ k <= 2 ^ 20).
  { intros k Hk. split; [apply (Z.pow_le_mono_r 2 0 k); lia|apply Z.pow_le_mono_r; lia]. }
  destruct (C30_lookup_lemma (2 ^ a) (2 ^ b) (P a Ha) (P b Hb)) as (s & FG & _ & _ & H).
  exists s. split; auto. intros x y Hx Hy. apply H; auto; apply C30_pow2_lemma; auto.
Qed.

Lemma C30_adjacent_found_lemma : forall n m, 1 <= n <= 48 -> 1 <= m <= 48 -> exists s, fl_grid [n; m] s /\
  forall x y, -1 <= x <= m -> -1 <= y <= n -> id_at FA s (fl_at [x; y]) = Ok (Some ((y mod n) * m + x mod m)).
Proof.
  intros n m Hn Hm. destruct (C30_lookup_lemma n m ltac:(lia) ltac:(lia)) as (s & FG & _ & _ & H).
  exists s. split; auto. intros x y Hx Hy. apply H; try lia; apply C30_adjacent_lemma; auto.
Qed.

(** On which sides does the first step past the border get lost? *)
Lemma short_at_border n : 1 <= n <= M20 ->
  (falls_short n n <-> f_ltb (f_mul (f_ofZ n) (f_div (f_ofZ 1) (f_ofZ n))) (f_ofZ 1) = true).
Proof.
  intros Hn. rewrite (short_float n n) by (auto using Z.divide_refl; unfold M20, M30 in *; lia). now rewrite Z.div_same by lia.
Qed.
