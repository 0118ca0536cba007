(** Starting states in binary64. *)
From Coq Require Import Reals Lra Psatz Permutation.
From Flocq Require Import Core BinarySingleNaN.
From Verif Require Import Prelude Dict Val ValFacts Arith RVec RealArith LatticeModel StructModel StateModel ResultModel RunnerModel NbModel GridModel SimModel SetupModel
  SpecState SpecGeom SpecNb SpecGrid SpecSetup StateFacts LatticeFacts StructFacts StructMore NbFacts NbMore GridFacts GridMore GridNb SetupFacts SetupMore
  FloatArith SpecFloat64 SpecNuc FloatFacts FloatCoord FloatGrid FloatMore FloatNb FloatVec FloatAxis FloatBox FloatNorm FloatCut FloatOpen FloatMotif FloatTorus FloatNuc.
Local Open Scope Z_scope.

(** * Distances between cells and points with half-integer coordinates are rounded once *)
Definition half (h : Z) : R := (IZR h / 2)%R.
Fixpoint sqh (c hs : list Z) : Z := match c, hs with a :: c', h :: hs' => (2 * a - h) * (2 * a - h) + sqh c' hs' | _, _ => 0 end.
Lemma sqh_nonneg c : forall hs, 0 <= sqh c hs.
Proof. induction c as [|a c IH]; intros [|h hs]; cbn [sqh]; try lia. specialize (IH hs). pose proof (Z.square_nonneg (2 * a - h)). lia. Qed.
Lemma dist_half c : forall hs, dist (at_ c) (map half hs) = sqrt (IZR (sqh c hs) / 4).
Proof.
  intros hs. unfold dist, vlength. f_equal. revert hs. induction c as [|a c IH]; intros [|h hs]; unfold at_, vminus in *; cbn [map zipwith vdot sqh]; try lra. rewrite IH.
  rewrite plus_IZR, mult_IZR, minus_IZR, mult_IZR. unfold half. field.
Qed.
Lemma rnd_quarter m : Z.abs m < 2 ^ 53 -> rnd (IZR m / 4) = (IZR m / 4)%R.
Proof.
  intros H. unfold rnd. apply round_generic; auto with typeclass_instances. apply generic_format_FLT.
  exists (Float radix2 m (-2)); [unfold F2R; cbn [Fnum Fexp]; change (bpow radix2 (-2)) with (/ 4)%R; reflexivity|exact H|simpl; lia].
Qed.
Lemma quarter_big m : Z.abs m < 2 ^ 53 -> (Rabs (IZR m / 4) <= big)%R.
Proof.
  intros H. apply small_big. unfold Rdiv. rewrite Rabs_mult, (Rabs_pos_eq (/ 4)) by lra. assert (X : (Rabs (IZR m) <= IZR (2 ^ 60))%R) by (apply IZR_abs_le; lia).
  pose proof (Rabs_pos (IZR m)). lra.
Qed.
Lemma distance_half loc center c hs : Forall2 (fun v a => denotes v (IZR a)) loc c -> Forall2 (fun v h => denotes v (half h)) center hs -> length c = length hs -> (length c <= 3)%nat ->
  Forall (fun a => Z.abs a <= 2 ^ 20) c -> Forall (fun h => Z.abs h <= 2 ^ 22) hs ->
  exists d, distance FA loc center = Ok d /\ denotes d (rnd (dist (at_ c) (map half hs))).
Proof.
  intros HC HH LE L3 BC BH. assert (LL : length loc = length center) by (apply (nth_Forall2 _ (f_ofZ 0) 0) in HC; apply (nth_Forall2 _ (f_ofZ 0) 0) in HH; lia).
  unfold distance. rewrite bcast_eq by auto. cbn [bind]. eexists. split; [reflexivity|]. rewrite dist_half.
  assert (D : denotes (dot FA (zipwith f_sub loc center) (zipwith f_sub loc center)) (IZR (sqh c hs) / 4) /\ sqh c hs <= Z.of_nat (length c) * 2 ^ 46).
  { revert center hs LE HH BH LL. induction HC as [|v a loc c Dv HC IH]; intros center hs LE HH BH LL; destruct HH as [|w h center hs Dw HH]; try (simpl in LE; lia).
    - cbn. split; [|lia]. replace (0 / 4)%R with 0%R by lra. apply den_0.
    - inversion BC; inversion BH; subst. cbn [length] in L3, LE, LL. destruct (IH ltac:(lia) ltac:(auto) center hs ltac:(lia) HH ltac:(auto) ltac:(lia)) as [D B]. clear IH. cbn [zipwith dot sqh length].
      pose proof (sqh_nonneg c hs) as P. set (t := 2 * a - h). assert (Bt : Z.abs t <= 2 ^ 23) by (unfold t; lia). assert (Q : 0 <= t * t <= 2 ^ 46) by nia.
      assert (D1 : denotes (f_sub v w) (IZR (2 * t) / 4)).
      { assert (E : (IZR a - half h = IZR (2 * t) / 4)%R) by (unfold t, half; rewrite mult_IZR, minus_IZR, mult_IZR; field).
        rewrite <- (rnd_quarter (2 * t)) by lia. rewrite <- E. apply denotes_sub; auto. rewrite E. apply quarter_big. lia. }
      assert (D2 : denotes (f_mul (f_sub v w) (f_sub v w)) (IZR (t * t) / 4)).
      { assert (E : (IZR (2 * t) / 4 * (IZR (2 * t) / 4) = IZR (t * t) / 4)%R) by (rewrite !mult_IZR; field).
        rewrite <- (rnd_quarter (t * t)) by lia. rewrite <- E. apply denotes_mul; auto. rewrite E. apply quarter_big. lia. }
      split; [|lia]. assert (E : (IZR (t * t) / 4 + IZR (sqh c hs) / 4 = IZR (t * t + sqh c hs) / 4)%R) by (rewrite plus_IZR; field).
      rewrite <- (rnd_quarter (t * t + sqh c hs)) by lia. rewrite <- E. apply denotes_add; auto. rewrite E. apply quarter_big. lia. }
  destruct D as [D _]. apply denotes_sqrt; auto. pose proof (sqh_nonneg c hs) as P. apply IZR_le in P. lra.
Qed.

(** * The cells of the grid *)
Lemma cell_loc size s c i x : Forall (fun m => 1 <= m <= 2 ^ 20) size -> fl_square size s -> Forall2 (fun a m => 0 <= a < m) c (extents size) -> fl_cell size s c i -> get_site s i = Some x ->
  Forall2 (fun v a => denotes v (IZR a)) (s_loc x) c.
Proof.
  intros Hk FS Hc Ci Gx. apply (torus_small size s Hk FS c i Hc) in Ci as (Lc & y & Gy & T). assert (y = x) by congruence. subst y. rewrite repeat_length in Lc.
  apply (nth_Forall2 _ 0 (f_ofZ 0)) in T as [Lt T]. rewrite FloatVec.zipwith_length in Lt, T by (now rewrite repeat_length).
  apply (Forall2_nth _ (f_ofZ 0) 0); [lia|]. intros a Ha. rewrite <- Lt in Ha. specialize (T a Ha). rewrite (FloatVec.nth_zipwith _ 0 0) in T by (rewrite ?repeat_length; lia).
  rewrite FloatBox.nth_repeat' in T by lia. replace (IZR (1000 * nth a c 0%Z + 0%Z) / 1000)%R with (IZR (nth a c 0)) in T by (rewrite plus_IZR, mult_IZR; field).
  rewrite rnd_IZR in T; auto. apply (nth_Forall2 _ 0 0) in Hc as [Lc' Hc]. specialize (Hc a ltac:(lia)). rewrite Forall_forall in Hk.
  assert (B : 1 <= nth a (extents size) 0 <= 2 ^ 20) by (apply Hk, (proj1 (extents_In _ _)), nth_In; lia). lia.
Qed.
Lemma site_cell_fl size s i x : Forall (fun m => 1 <= m <= 2 ^ 20) size -> fl_square size s -> get_site s i = Some x -> (exists L, built FA L s) ->
  exists c, Forall2 (fun a m => 0 <= a < m) c (extents size) /\ fl_cell size s c i.
Proof.
  intros Hk FS Gx (L & BU). assert (Hi : In i (map s_id (sites s None))) by (apply (get_site_ids FA L s i BU); eauto).
  apply (torus_ids size s Hk FS) in Hi as (p & Lp & c & SC & Si). exists c. pose proof (torus_in size s Hk FS c i Si) as Hc. split; auto. now apply (torus_small size s Hk FS).
Qed.
Lemma cell_unique size s c c' i : Forall (fun m => 1 <= m <= 2 ^ 20) size -> fl_square size s -> Forall2 (fun a m => 0 <= a < m) c (extents size) -> Forall2 (fun a m => 0 <= a < m) c' (extents size) ->
  fl_cell size s c i -> fl_cell size s c' i -> c' = c.
Proof.
  intros Hk FS Hc Hc' Ci Ci'. apply (torus_small size s Hk FS) in Ci, Ci'; auto. symmetry. apply (torus_fun size s Hk FS c c' i i Ci Ci'). reflexivity.
Qed.
Lemma cell_small size c : Forall (fun m => 1 <= m <= 2 ^ 20) size -> Forall2 (fun a m => 0 <= a < m) c (extents size) -> Forall (fun a => Z.abs a <= 2 ^ 20) c /\ length c = length size.
Proof.
  intros Hk Hc. apply (nth_Forall2 _ 0 0) in Hc as [Lc Hc]. split; [|rewrite Lc; apply extents_length]. apply Forall_forall. intros a Ha. apply (In_nth _ _ 0) in Ha as (j & Hj & <-).
  specialize (Hc j Hj). rewrite Forall_forall in Hk. assert (B : 1 <= nth j (extents size) 0 <= 2 ^ 20) by (apply Hk, (proj1 (extents_In _ _)), nth_In; lia). lia.
Qed.

(** [structure.lattice.vec_lengths[0]] is exact. *)
Fixpoint sqz (c : list Z) : Z := match c with a :: c' => a * a + sqz c' | [] => 0 end.
Lemma dot_int v c : Forall2 (fun w a => denotes w (IZR a)) v c -> Forall (fun a => Z.abs a <= 2 ^ 20) c -> (length c <= 3)%nat -> denotes (dot FA v v) (IZR (sqz c)) /\ 0 <= sqz c <= Z.of_nat (length c) * 2 ^ 40.
Proof.
  intros H. induction H as [|w a v c Dw H IH]; intros BC L3; [split; [apply den_0|cbn; lia]|]. inversion BC; subst. cbn [length] in L3. destruct (IH ltac:(auto) ltac:(lia)) as [D B]. cbn [dot sqz length].
  assert (Q : 0 <= a * a <= 2 ^ 40) by nia. split; [|lia].
  assert (D1 : denotes (f_mul w w) (IZR (a * a))).
  { rewrite <- (rnd_IZR (a * a)) by lia. rewrite mult_IZR. apply denotes_mul; auto. rewrite <- mult_IZR. apply small_big. apply IZR_abs_le. lia. }
  rewrite <- (rnd_IZR (a * a + sqz c)) by lia. rewrite plus_IZR. apply denotes_add; auto. rewrite <- plus_IZR. apply small_big. apply IZR_abs_le. lia.
Qed.
Lemma norm_axis v c k : 0 <= k <= 2 ^ 20 -> Forall2 (fun w a => denotes w (IZR a)) v c -> Forall (fun a => Z.abs a <= 2 ^ 20) c -> (length c <= 3)%nat -> sqz c = k * k -> denotes (norm FA v) (IZR k).
Proof.
  intros Hk HV BC L3 E. destruct (dot_int v c HV BC L3) as [D B]. unfold norm. rewrite E in D.
  assert (S : sqrt (IZR (k * k)) = IZR k) by (rewrite mult_IZR; apply sqrt_square, IZR_le; lia). rewrite <- (rnd_IZR k) by lia. rewrite <- S. apply denotes_sqrt; auto. apply IZR_le. nia.
Qed.
Lemma scaled b k : Z.abs b <= 1 -> 1 <= k <= 2 ^ 20 -> denotes (f_mul (f_ofZ b) (f_ofZ k)) (IZR (b * k)).
Proof.
  intros Hb Hk. rewrite <- (rnd_IZR (b * k)) by nia. rewrite mult_IZR. apply denotes_mul; try (apply denotes_ofZ; lia). rewrite <- mult_IZR. apply small_big. apply IZR_abs_le. nia.
Qed.
Lemma init_vecs {F} (vs : list (list F)) p L : lattice_init vs p = Ok L -> l_vecs L = vs.
Proof. unfold lattice_init. destruct (negb _); [discriminate|]. destruct (negb _); [discriminate|]. destruct vs; [discriminate|]. intros H. injection H as <-. reflexivity. Qed.
Lemma scaled_vecs {F} (A : arith F) L n L' : get_scaled_lattice A L n = Ok L' -> l_vecs L' = zipwith (fun amt v => map (fun x => a_mul A x (a_ofZ A amt)) v) n (l_vecs L).
Proof. apply init_vecs. Qed.
Lemma first_of {F} (A : arith F) s v vs : l_vecs (p_lattice s) = v :: vs -> first_length A s = Ok (norm A v).
Proof. unfold first_length, vec_lengths. intros ->. now rewrite (list_getE_nat _ 0). Qed.
Lemma first_fl dim sz s k t : fl_setup dim sz s -> grid_size dim sz = k :: t -> exists v, first_length FA s = Ok v /\ denotes v (IZR k).
Proof.
  intros FG EK. destruct (setup_facts dim sz s FG) as (Hk & FS & Ld & _). assert (Bk : 1 <= k <= 2 ^ 20) by (rewrite EK in Hk; exact (Forall_inv Hk)).
  destruct FS as [(E & b & Eb & Es)|(E & b & Eb & Es)]; [unfold SimpleSquare2DStructureBuilder, SquareGridLattice2D in Eb|unfold SimpleSquare3DStructureBuilder, SquareGridLattice3D in Eb];
    apply bind_Ok in Eb as (L0 & EL & Eb); injection Eb as <-; unfold build in Es; (destruct (negb _) in Es; [discriminate|]);
    apply build_from_fixed in Es as (L' & EL' & PL & _); cbn [b_lattice] in EL'; apply (scaled_vecs FA) in EL'; apply init_vecs in EL; rewrite EL, EK in EL'; rewrite EK in E;
    rewrite <- PL in EL'; clear EL PL.
  - destruct t as [|k2 [|]]; try discriminate E. cbn [map zipwith] in EL'. apply (first_of FA) in EL'. eexists. split; [exact EL'|]. apply (norm_axis _ [0 * k; 1 * k]); try lia.
    + constructor; [|constructor; [|constructor]]; apply scaled; lia.
    + repeat constructor; lia.
    + auto.
    + cbn [sqz]. lia.
  - destruct t as [|k2 [|k3 [|]]]; try discriminate E. cbn [map zipwith] in EL'. apply (first_of FA) in EL'. eexists. split; [exact EL'|]. apply (norm_axis _ [0 * k; 1 * k; 0 * k]); try lia.
    + constructor; [|constructor; [|constructor; [|constructor]]]; apply scaled; lia.
    + repeat constructor; lia.
    + auto.
    + cbn [sqz]. lia.
Qed.

(** * Interface *)
Lemma half_fl v k : denotes v (IZR k) -> 1 <= k <= 2 ^ 20 -> denotes (f_div v (f_ofZ 2)) (half k) /\ denotes (f_floor (f_div v (f_ofZ 2))) (IZR (k / 2)).
Proof.
  intros D B. assert (H : denotes (f_div v (f_ofZ 2)) (half k)).
  { assert (E : (IZR k / 2 = IZR (2 * k) / 4)%R) by (rewrite mult_IZR; field). unfold half. rewrite E, <- (rnd_quarter (2 * k)) by lia. rewrite <- E.
    apply denotes_div; auto; [apply (denotes_ofZ 2); reflexivity|]. rewrite E. apply quarter_big. lia. }
  split; auto. apply denotes_floor in H. unfold half in H. now rewrite Zfloor_div in H by lia.
Qed.

Lemma C99_interface_lemma : forall dim sz s k t p1 p2, fl_setup dim sz s -> grid_size dim sz = k :: t ->
  exists st, setup_interface FA (Z.of_nat dim) sz p1 p2 = Ok (mkSim st s) /\
    configuration s st (fun i q => forall x y, fl_cell (grid_size dim sz) s (x :: y) i -> Forall2 (fun a m => 0 <= a < m) (x :: y) (extents (grid_size dim sz)) ->
      q = if x <? k / 2 then p1 else p2).
Proof.
  intros dim sz s k t p1 p2 FG EK. destruct (setup_facts dim sz s FG) as (Hk & FS & Ld & EB & L & BU). destruct (first_fl dim sz s k t FG EK) as (v & EV & DV).
  assert (Bk : 1 <= k <= 2 ^ 20) by (rewrite EK in Hk; exact (Forall_inv Hk)). destruct (half_fl v k DV Bk) as [_ DF].
  pose proof (dense_NoDup s None (built_dense FA L s BU)) as ND. unfold setup_interface. rewrite EB. cbn [bind]. rewrite EV. cbn [bind]. rewrite blank_layout by auto.
  set (hf := a_floor FA (a_div FA v (a_ofZ FA 2))). change (f_floor (f_div v (f_ofZ 2))) with hf in DF. clearbody hf.
  set (h := fun x : site b64 => VStr (match s_loc x with x0 :: _ => if f_ltb x0 hf then p1 else p2 | [] => p1 end)).
  assert (LOC : forall x, In x (sites s None) -> exists a c v0 w, Forall2 (fun a m => 0 <= a < m) (a :: c) (extents (grid_size dim sz)) /\ fl_cell (grid_size dim sz) s (a :: c) (s_id x) /\ s_loc x = v0 :: w /\ denotes v0 (IZR a)).
  { intros x Hx. destruct (built_inv FA L s BU) as [h0 I]. assert (Gx : get_site s (s_id x) = Some x) by (apply (inv_get_site FA L h0 s _ x I); auto).
    destruct (site_cell_fl _ s _ x Hk FS Gx (ex_intro _ L BU)) as (c & Hc & Cc). pose proof (cell_loc _ s c _ x Hk FS Hc Cc Gx) as CL. destruct (cell_small _ c Hk Hc) as [_ Lc].
    destruct CL as [|v0 a w c D CL]; [rewrite EK in Lc; discriminate|]. exists a, c, v0, w. auto. }
  rewrite (foldM_puts _ (fun x => [(s_id x, h x)])); auto.
  2:{ intros x g Hx. destruct (LOC x Hx) as (a & c & v0 & w & _ & _ & E & _). unfold h. rewrite E. rewrite (list_getE_nat _ 0). cbn [nth_error bind]. unfold puts. cbn [fold_left fst snd].
      change (a_ltb FA v0 hf) with (f_ltb v0 hf). destruct (f_ltb v0 hf); rewrite set_layout; auto; now apply in_map. }
  cbn [bind]. eexists. split; [reflexivity|]. apply (config_layout FA L); auto.
  intros i x Gx. destruct (built_inv FA L s BU) as [h0 I]. pose proof Gx as Gx'. apply (inv_get_site FA L h0 s _ x I) in Gx' as [Hx <-].
  rewrite (puts_unique _ _ _ (h x)); [|now rewrite fst_tagged|now apply In_tagged]. eexists. split; [reflexivity|].
  intros a' y C B. destruct (LOC x Hx) as (a & c & v0 & w & Hc & Cc & E & D). pose proof (cell_unique _ s _ _ _ Hk FS Hc B Cc C) as U. injection U as -> _.
  rewrite E. rewrite (denotes_ltb _ _ _ _ D DF). destruct (Z.ltb_spec a (k / 2)) as [Y|Y].
  - rewrite Rlt_bool_true; auto. now apply IZR_lt.
  - rewrite Rlt_bool_false; auto. now apply IZR_le.
Qed.

(** * Particles *)
Section Paint.
Context {F : Type} (A : arith F).
Variables (L : lattice F) (s : structure F) (center : list F) (r : F) (p : string) (hit : site F -> bool).
Hypothesis BU : built A L s.
Hypothesis HIT : forall x, In x (sites s None) -> exists d, distance A (s_loc x) center = Ok d /\ a_ltb A d r = hit x.

Lemma paint_layout g : add_particle_to_state A s (layout (sites s None) g) center r p =
  Ok (layout (sites s None) (puts g (flat_map (fun x => if hit x then [(s_id x, VStr p)] else []) (sites s None)))).
Proof.
  pose proof (dense_NoDup s None (built_dense A L s BU)) as ND. unfold add_particle_to_state.
  apply foldM_puts; auto. clear g. intros x g Hx. destruct (HIT x Hx) as (d & -> & Ed). cbn [bind]. rewrite Ed.
  destruct (hit x); auto. rewrite set_layout; auto. now apply in_map.
Qed.
Lemma paint_at g i x : get_site s i = Some x ->
  puts g (flat_map (fun x => if hit x then [(s_id x, VStr p)] else []) (sites s None)) i = if hit x then VStr p else g i.
Proof.
  intros Gx. destruct (built_inv A L s BU) as [h I]. apply (inv_get_site A L h s i x I) in Gx as [Hx <-].
  pose proof (dense_NoDup s None (built_dense A L s BU)) as ND. revert ND Hx. generalize (sites s None) as xs. clear.
  assert (Q : forall (xs : list (site F)) i, ~ In i (map s_id xs) -> ~ In i (map fst (flat_map (fun x => if hit x then [(s_id x, VStr p)] else []) xs))).
  { induction xs as [|y xs IH]; simpl; auto. intros i H. rewrite map_app, in_app_iff. intros [X|X]; [|apply (IH i); auto].
    destruct (hit y); simpl in X; [destruct X as [X|[]]|destruct X]. apply H. auto. }
  intros xs. revert g. induction xs as [|y xs IH]; intros g ND Hx; [destruct Hx|]; destruct Hx as [->|Hx]; cbn [map flat_map] in *; inversion ND as [|? ? NI ND']; subst;
    unfold puts; rewrite fold_left_app; fold (puts g); (match goal with |- fold_left _ ?l ?g' _ = _ => fold (puts g' l) end).
  - rewrite puts_notin by (now apply Q). destruct (hit x); cbn [fold_left fst snd]; auto. unfold upd. now rewrite Z.eqb_refl.
  - rewrite IH by auto. destruct (hit x) eqn:N; auto.
    assert (s_id x =? s_id y = false) as E by (apply Z.eqb_neq; intros E; apply NI; rewrite <- E; now apply in_map).
    destruct (hit y); cbn [fold_left fst snd]; auto. unfold upd. now rewrite E.
Qed.
Lemma paint_run st : exists st', add_particle_to_state A s st center r p = Ok st' /\ get_general_state st' = get_general_state st /\
    (forall i x, get_site s i = Some x ->
       (hit x = true -> forall k, site_entry st' (KInt i) k = if eqb k DISCRETE_OCCUPANCY then Some (VStr p) else entry_or_new st (KInt i) k) /\
       (hit x = false -> get_site_state st' (KInt i) = get_site_state st (KInt i))) /\
    (forall k, (forall i x, get_site s i = Some x -> k <> KInt i) -> get_site_state st' k = get_site_state st k).
Proof.
  pose proof (built_dense A L s BU) as D. pose proof (dense_NoDup s None D) as ND. destruct (built_inv A L s BU) as [h I].
  assert (X : forall xs st, NoDup (map s_id xs) -> (forall x, In x xs -> In x (sites s None)) ->
    exists st', foldM (fun st x => do d <- distance A (s_loc x) center;
        Ok (if a_ltb A d r then set_site_state st (KInt (s_id x)) (occ (VStr p)) else st)) xs st = Ok st' /\
      get_general_state st' = get_general_state st /\
      (forall x, In x xs -> get_site_state st' (KInt (s_id x)) =
         if hit x then get_site_state (set_site_state st (KInt (s_id x)) (occ (VStr p))) (KInt (s_id x)) else get_site_state st (KInt (s_id x))) /\
      (forall k, (forall x, In x xs -> k <> KInt (s_id x)) -> get_site_state st' k = get_site_state st k)).
  { clear st ND. induction xs as [|x xs IH]; intros st ND LL; cbn [foldM].
    - exists st. split; auto. split; auto. split; [intros x []|auto].
    - destruct (HIT x) as (d & -> & Ed); [apply LL; simpl; auto|]. cbn [bind map] in *. rewrite Ed. inversion ND as [|? ? NI ND']; subst.
      set (st1 := if hit x then set_site_state st (KInt (s_id x)) (occ (VStr p)) else st).
      destruct (IH st1) as (st' & E & G & H1 & H2); [auto|intros; apply LL; simpl; auto|]. exists st'. split; auto.
      assert (O : forall k, k <> KInt (s_id x) -> get_site_state st1 k = get_site_state st k).
      { intros k Nk. unfold st1. destruct (hit x); auto. rewrite get_set_site. destruct (eqb_spec k (KInt (s_id x))); congruence. }
      split; [|split].
      + rewrite G. unfold st1. destruct (hit x); auto.
      + intros y [<-|Hy].
        * rewrite H2. { unfold st1. destruct (hit x); auto. }
          intros y Hy E'. injection E' as E'. apply NI. rewrite E'. now apply in_map.
        * rewrite H1 by auto. assert (Ny : KInt (s_id y) <> KInt (s_id x)) by (intros E'; injection E' as E'; apply NI; rewrite <- E'; now apply in_map).
          destruct (hit y); [|auto]. rewrite !get_set_site, !eqb_refl. now rewrite O.
      + intros k Hk. rewrite H2 by (intros; apply Hk; simpl; auto). apply O. apply Hk; simpl; auto. }
  destruct (X (sites s None) st ND (fun x H => H)) as (st' & E & G & H1 & H2). exists st'. split; auto. split; auto. split.
  - intros i x Gx. apply (inv_get_site A L h s i x I) in Gx as [Hx <-]. specialize (H1 x Hx). destruct (hit x) eqn:Y.
    + split; [|discriminate]. intros _ k. unfold site_entry. rewrite H1.
      change (match get_site_state (set_site_state st (KInt (s_id x)) (occ (VStr p))) (KInt (s_id x)) with Some d => dget k d | None => None end)
        with (site_entry (set_site_state st (KInt (s_id x)) (occ (VStr p))) (KInt (s_id x)) k).
      rewrite site_entry_set by (repeat constructor; simpl; tauto). rewrite eqb_refl. unfold upd_entry, occ. cbn [dget].
      destruct (eqb k DISCRETE_OCCUPANCY); reflexivity.
    + split; [discriminate|auto].
  - intros k Hk. apply H2. intros x Hx. apply (Hk (s_id x) x). apply (inv_get_site A L h s _ x I). auto.
Qed.
End Paint.

(** The site [x] of the grid is found at distance [rnd (dist …)]. *)
Definition near (center : list R) (rho : R) (x : site b64) : bool := Rlt_bool (rnd (dist (map B2R (s_loc x)) center)) rho.
Lemma B2R_loc loc c : Forall2 (fun v a => denotes v (IZR a)) loc c -> map B2R loc = at_ c.
Proof. unfold at_. induction 1 as [|v a loc c [_ D] H IH]; cbn [map]; [reflexivity|]. now rewrite D, IH. Qed.
Lemma near_site size s c i x center rho : Forall (fun m => 1 <= m <= 2 ^ 20) size -> fl_square size s -> Forall2 (fun a m => 0 <= a < m) c (extents size) -> fl_cell size s c i -> get_site s i = Some x ->
  near center rho x = Rlt_bool (rnd (dist (at_ c) center)) rho.
Proof. intros Hk FS Hc Ci Gx. unfold near. now rewrite (B2R_loc _ c) by (now apply (cell_loc size s c i x)). Qed.
Lemma near_ok size s L center hs r rho : Forall (fun m => 1 <= m <= 2 ^ 20) size -> fl_square size s -> built FA L s -> (length size <= 3)%nat ->
  Forall2 (fun v h => denotes v (half h)) center hs -> length hs = length size -> Forall (fun h => Z.abs h <= 2 ^ 22) hs -> denotes r rho ->
  forall x, In x (sites s None) -> exists d, distance FA (s_loc x) center = Ok d /\ a_ltb FA d r = near (map half hs) rho x.
Proof.
  intros Hk FS BU L3 HH LE BH DR x Hx. destruct (built_inv FA L s BU) as [h0 I]. assert (Gx : get_site s (s_id x) = Some x) by (apply (inv_get_site FA L h0 s _ x I); auto).
  destruct (site_cell_fl _ s _ x Hk FS Gx (ex_intro _ L BU)) as (c & Hc & Cc). destruct (cell_small _ c Hk Hc) as [Sc Lc].
  destruct (distance_half (s_loc x) center c hs (cell_loc _ s c _ x Hk FS Hc Cc Gx) HH ltac:(lia) ltac:(lia) Sc BH) as (d & E & D). exists d. split; auto.
  rewrite (near_site _ s c _ x _ _ Hk FS Hc Cc Gx). now apply denotes_ltb.
Qed.

Lemma C99_add_lemma : forall dim sz s st center hs r rho p, fl_setup dim sz s ->
  Forall2 (fun v h => denotes v (IZR h / 2)) center hs -> length hs = dim -> Forall (fun h => Z.abs h <= 2 ^ 22) hs -> denotes r rho ->
  exists st', add_particle_to_state FA s st center r p = Ok st' /\
    get_general_state st' = get_general_state st /\
    (forall i c, fl_cell (grid_size dim sz) s c i -> Forall2 (fun a m => 0 <= a < m) c (extents (grid_size dim sz)) ->
       ((rnd (dist (at_ c) (map (fun h => IZR h / 2) hs)) < rho)%R -> forall k, site_entry st' (KInt i) k = if eqb k DISCRETE_OCCUPANCY then Some (VStr p) else entry_or_new st (KInt i) k) /\
       (~ (rnd (dist (at_ c) (map (fun h => IZR h / 2) hs)) < rho)%R -> get_site_state st' (KInt i) = get_site_state st (KInt i))) /\
    (forall k, (forall i x, get_site s i = Some x -> k <> KInt i) -> get_site_state st' k = get_site_state st k).
Proof.
  intros dim sz s st center hs r rho p FG HH LE BH DR. destruct (setup_facts dim sz s FG) as (Hk & FS & Ld & EB & L & BU).
  assert (L3 : (length (grid_size dim sz) <= 3)%nat) by (destruct FG as (([->| ->] & E & _) & _); lia).
  destruct (paint_run FA L s center r p (near (map half hs) rho) BU (near_ok _ s L center hs r rho Hk FS BU L3 HH ltac:(lia) BH DR) st) as (st' & E & G & H1 & H2).
  exists st'. split; auto. split; auto. split; auto. intros i c Ci Hc.
  assert (HX : exists x, get_site s i = Some x). { apply (torus_small _ s Hk FS) in Ci as (_ & x & Gx & _); eauto. }
  destruct HX as [x Gx]. destruct (H1 i x Gx) as [Y N]. rewrite (near_site _ s c i x _ _ Hk FS Hc Ci Gx) in Y, N. change (fun h => (IZR h / 2)%R) with half. split; intros K.
  - apply Y. now apply Rlt_bool_true.
  - apply N. apply Rlt_bool_false. lra.
Qed.

Lemma C99_particle_lemma : forall dim sz s k t r rho bulk p, fl_setup dim sz s -> grid_size dim sz = k :: t -> denotes r rho ->
  exists st, setup_particle FA (Z.of_nat dim) sz r bulk p = Ok (mkSim st s) /\
    configuration s st (fun i q => forall c, fl_cell (grid_size dim sz) s c i -> Forall2 (fun a m => 0 <= a < m) c (extents (grid_size dim sz)) ->
      ((rnd (dist (at_ c) (repeat (IZR k / 2) dim)) < rho)%R -> q = p) /\ (~ (rnd (dist (at_ c) (repeat (IZR k / 2) dim)) < rho)%R -> q = bulk)).
Proof.
  intros dim sz s k t r rho bulk p FG EK DR. destruct (setup_facts dim sz s FG) as (Hk & FS & Ld & EB & L & BU). destruct (first_fl dim sz s k t FG EK) as (v & EV & DV).
  assert (Bk : 1 <= k <= 2 ^ 20) by (rewrite EK in Hk; exact (Forall_inv Hk)). destruct (half_fl v k DV Bk) as [DH _].
  assert (L3 : (length (grid_size dim sz) <= 3)%nat) by (destruct FG as (([->| ->] & E & _) & _); lia).
  pose proof (torus_dim _ s Hk FS) as PD. rewrite Ld in PD. pose proof (dense_NoDup s None (built_dense FA L s BU)) as ND.
  set (ctr := repeat (f_div v (f_ofZ 2)) dim). set (hs := repeat k dim).
  assert (HH : Forall2 (fun v h => denotes v (half h)) ctr hs) by (unfold ctr, hs; clear -DH; induction dim; cbn [repeat]; constructor; auto).
  assert (Eh : map half hs = repeat (IZR k / 2)%R dim) by (unfold hs; clear; induction dim as [|n IH]; cbn [repeat map]; [|rewrite IH]; reflexivity).
  assert (LH : length hs = length (grid_size dim sz)) by (unfold hs; now rewrite repeat_length, Ld).
  assert (BH : Forall (fun h => Z.abs h <= 2 ^ 22) hs) by (apply Forall_forall; intros h Hh; apply repeat_spec in Hh; lia).
  pose proof (near_ok _ s L ctr hs r rho Hk FS BU L3 HH LH BH DR) as HIT.
  unfold setup_particle. rewrite EB. cbn [bind]. rewrite (mapM_const _ (f_div v (f_ofZ 2))) by (intros b _; rewrite EV; reflexivity).
  cbn [bind]. rewrite seq_length, PD. fold ctr. unfold setup_solid_phase. rewrite blank_layout by auto.
  rewrite (paint_layout FA L s ctr r p _ BU HIT). cbn [bind]. eexists. split; [reflexivity|].
  apply (config_layout FA L); auto. intros i x Gx. rewrite (paint_at FA L s _ _ BU _ i x Gx). exists (if near (map half hs) rho x then p else bulk). split; [destruct (near _ _ _); reflexivity|].
  intros c Ci Hc. rewrite (near_site _ s c i x _ _ Hk FS Hc Ci Gx), Eh. split; intros K; [rewrite Rlt_bool_true|rewrite Rlt_bool_false]; auto. lra.
Qed.

Lemma C99_random_lemma : forall dim sz s k t r rho m bulk phases pos ph, fl_setup dim sz s -> grid_size dim sz = k :: t -> denotes r rho -> phases <> [] ->
  (forall j a, 0 <= pos j a < k) ->
  exists st parts, setup_random_particles FA (Z.of_nat dim) sz r m bulk phases pos ph = Ok (mkSim st s) /\
    length parts = Z.to_nat m /\
    (forall j q b, nth_error parts j = Some (q, b) -> choice phases (ph j) = Ok q /\ b = map (pos j) (seq 0 dim)) /\
    configuration s st (fun i q => (q = bulk \/ In q phases) /\
      forall c, fl_cell (grid_size dim sz) s c i -> Forall2 (fun a m => 0 <= a < m) c (extents (grid_size dim sz)) ->
        last_hit (fun b => (rnd (dist (at_ c) (at_ b)) < rho)%R) parts bulk q).
Proof.
  intros dim sz s k t r rho m bulk phases pos ph FG EK DR NE HP. destruct (setup_facts dim sz s FG) as (Hk & FS & Ld & EB & L & BU). destruct (first_fl dim sz s k t FG EK) as (v & EV & DV).
  assert (Bk : 1 <= k <= 2 ^ 20) by (rewrite EK in Hk; exact (Forall_inv Hk)).
  assert (L3 : (length (grid_size dim sz) <= 3)%nat) by (destruct FG as (([->| ->] & E & _) & _); lia).
  pose proof (torus_dim _ s Hk FS) as PD. rewrite Ld in PD. pose proof (dense_NoDup s None (built_dense FA L s BU)) as ND.
  set (mk := fun j => (match choice phases (ph j) with Ok q => q | Err _ => bulk end, map (pos j) (seq 0 dim))).
  set (parts := map mk (seq 0 (Z.to_nat m))).
  assert (MC : forall j, mapM (fun k0 => do len <- first_length FA s; if a_ltb FA len (a_ofZ FA 1) then Err ValueError else Ok (a_ofZ FA (pos j k0))) (seq 0 dim) =
     Ok (map (fun a => f_ofZ (pos j a)) (seq 0 dim))).
  { intros j. rewrite (mapM_ext _ (fun k0 => Ok (f_ofZ (pos j k0)))); [apply mapM_pure|]. intros a _. rewrite EV. cbn [bind].
    assert (E : a_ltb FA v (a_ofZ FA 1) = false); [|now rewrite E]. change (f_ltb v (f_ofZ 1) = false). rewrite (denotes_ltb _ _ _ _ DV (denotes_ofZ 1 eq_refl)). apply Rlt_bool_false. apply IZR_le. lia. }
  set (hits := fun e : string * list Z => flat_map (fun x => if near (at_ (snd e)) rho x then [(s_id x, VStr (fst e))] else []) (sites s None)).
  assert (HIT : forall j x, In x (sites s None) -> exists d, distance FA (s_loc x) (map (fun a => f_ofZ (pos j a)) (seq 0 dim)) = Ok d /\ a_ltb FA d r = near (at_ (map (pos j) (seq 0 dim))) rho x).
  { intros j. set (hs := map (fun a => 2 * pos j a) (seq 0 dim)).
    assert (Eh : map half hs = at_ (map (pos j) (seq 0 dim))) by (unfold hs, at_; rewrite !map_map; apply map_ext; intros a; unfold half; rewrite mult_IZR; field).
    rewrite <- Eh. apply (near_ok _ s L _ hs r rho Hk FS BU L3); auto.
    - unfold hs. generalize (seq 0 dim) as l. induction l as [|a l IH]; cbn [map]; constructor; auto. replace (half (2 * pos j a)) with (IZR (pos j a)) by (unfold half; rewrite mult_IZR; field).
      apply denotes_ofZ. specialize (HP j a). lia.
    - unfold hs. rewrite map_length, seq_length. lia.
    - unfold hs. apply Forall_forall. intros h Hh. apply in_map_iff in Hh as (a & <- & _). specialize (HP j a). lia. }
  unfold setup_random_particles. rewrite EB. cbn [bind]. rewrite PD. unfold setup_solid_phase. rewrite blank_layout by auto.
  rewrite (foldM_puts _ (fun j => hits (mk j))); auto.
  2:{ intros j g Hj. rewrite MC. cbn [bind]. destruct (choice_total phases (ph j) NE) as (q & Eq & _). unfold mk, hits. cbn [fst snd]. rewrite Eq. cbn [bind].
      now rewrite (paint_layout FA L s _ r q _ BU (HIT j)). }
  cbn [bind]. eexists. exists parts. split; [reflexivity|]. split; [unfold parts; now rewrite map_length, seq_length|].
  assert (PQ : forall j q b, nth_error parts j = Some (q, b) -> choice phases (ph j) = Ok q /\ b = map (pos j) (seq 0 dim)).
  { intros j q c E. unfold parts in E. rewrite nth_error_map in E. destruct (nth_error (seq 0 (Z.to_nat m)) j) as [j'|] eqn:Ej; [|discriminate].
    assert (j' = j). { assert (j < length (seq 0 (Z.to_nat m)))%nat by (apply nth_error_Some; congruence). rewrite seq_length in *.
      rewrite (nth_error_nth' _ 0%nat) in Ej by now rewrite seq_length. rewrite seq_nth in Ej by auto. injection Ej as <-. reflexivity. }
    subst j'. unfold mk in E. cbn [option_map] in E. destruct (choice_total phases (ph j) NE) as (q' & Eq & _). rewrite Eq in *. injection E as <- <-. auto. }
  split; auto. apply (config_layout FA L); auto. intros i x Gx.
  replace (flat_map (fun j => hits (mk j)) (seq 0 (Z.to_nat m))) with (flat_map hits parts) by (unfold parts; rewrite !flat_map_concat_map, map_map; reflexivity).
  assert (X : forall l, (forall e, In e l -> In (fst e) phases) -> exists q, puts (fun _ => VStr bulk) (flat_map hits l) i = VStr q /\ (q = bulk \/ In q phases) /\
     last_hit (fun b => near (at_ b) rho x = true) l bulk q).
  { clear -BU Gx. intros l. induction l as [|e l IH] using rev_ind; intros Hl.
    - exists bulk. split; auto. split; auto. right. split; [intros e []|auto].
    - destruct IH as (q & E & Q & H); [intros; apply Hl; apply in_or_app; auto|].
      rewrite flat_map_app. unfold puts. rewrite fold_left_app. fold (puts (fun _ => VStr bulk) (flat_map hits l)).
      cbn [flat_map]. rewrite app_nil_r. unfold hits at 1.
      match goal with |- context [fold_left _ ?l ?g' i] => fold (puts g' l) end. rewrite (paint_at FA L s _ _ BU _ i x Gx).
      destruct (near _ _ _) eqn:Y.
      + exists (fst e). split; auto. split; [right; apply Hl; apply in_or_app; simpl; auto|]. left. exists l, (snd e), []. rewrite <- surjective_pairing. split; auto.
      + exists q. split; auto. split; auto. destruct H as [(l1 & b & l2 & -> & Hb & Hn)|[Hn ->]].
        * left. exists l1, b, (l2 ++ [e]). rewrite <- app_assoc. split; auto. split; auto. intros e' He'. apply in_app_or in He' as [He'|[<-|[]]]; auto. congruence.
        * right. split; auto. intros e' He'. apply in_app_or in He' as [He'|[<-|[]]]; auto. congruence. }
  destruct (X parts) as (q & E & Q & H).
  { intros [q c] He. apply In_nth_error in He as [j Hj]. destruct (PQ j q c Hj) as [Ej _]. cbn [fst]. eapply choice_in; eauto. }
  exists q. split; auto. split; auto. intros c Ci Hc.
  assert (W : forall b, near (at_ b) rho x = true <-> (rnd (dist (at_ c) (at_ b)) < rho)%R).
  { intros b. rewrite (near_site _ s c i x _ _ Hk FS Hc Ci Gx). destruct (Rlt_bool_spec (rnd (dist (at_ c) (at_ b))) rho); split; intros; auto; try discriminate. lra. }
  destruct H as [(l1 & b & l2 & E' & Hb & Hn)|[Hn ->]].
  - left. exists l1, b, l2. split; auto. split; [now apply W|]. intros e He N. apply (Hn e He). now apply W.
  - right. split; auto. intros e He N. apply (Hn e He). now apply W.
Qed.

(** * Half-integer radii give exact balls *)
Lemma rnd_le_IZR x f : rnd f = f -> (x <= f)%R -> (rnd x <= f)%R.
Proof. intros E H. rewrite <- E. apply round_le; auto with typeclass_instances. Qed.
Lemma small_root N : 0 <= N < 2 ^ 46 -> (sqrt (IZR N / 4) <= IZR (2 ^ 22))%R.
Proof.
  intros [P B]. apply IZR_le in P. apply IZR_lt in B. rewrite <- (sqrt_square (IZR (2 ^ 22))) by (apply IZR_le; lia). apply sqrt_le_1; [lra| |].
  - rewrite <- mult_IZR. apply IZR_le. lia.
  - rewrite <- mult_IZR. change (2 ^ 46) with (4 * (2 ^ 22 * 2 ^ 22)) in B. rewrite mult_IZR in B. lra.
Qed.
Lemma ball_exact N m : 0 <= N < 2 ^ 46 -> (rnd (sqrt (IZR N / 4)) < IZR m / 2)%R <-> (sqrt (IZR N / 4) < IZR m / 2)%R.
Proof.
  intros HN. assert (PN : (0 <= IZR N / 4)%R) by (apply proj1, IZR_le in HN; lra). split; intros H.
  - destruct (Rlt_or_le (sqrt (IZR N / 4)) (IZR m / 2)) as [Y|Y]; auto. exfalso.
    destruct (Z_lt_le_dec (Z.abs m) (2 ^ 52)) as [B|B].
    + assert (E : (IZR m / 2 = IZR (2 * m) / 4)%R) by (rewrite mult_IZR; field).
      assert (E2 : rnd (IZR m / 2) = (IZR m / 2)%R) by (rewrite E; apply rnd_quarter; lia).
      assert (rnd (IZR m / 2) <= rnd (sqrt (IZR N / 4)))%R by (apply round_le; auto with typeclass_instances). lra.
    + assert (S : (sqrt (IZR N / 4) <= IZR (2 ^ 22))%R) by (now apply small_root).
      assert (0 <= rnd (sqrt (IZR N / 4)))%R. { rewrite <- (rnd_IZR 0) by lia. apply round_le; auto with typeclass_instances. apply sqrt_pos. }
      destruct (Z_lt_le_dec m 0) as [Q|Q]; [apply IZR_lt in Q; lra|]. assert (K : 2 ^ 52 <= m) by lia. apply IZR_le in K.
      assert (IZR (2 ^ 22) < IZR (2 ^ 52) / 2)%R; [|lra]. cut (IZR (2 * 2 ^ 22) < IZR (2 ^ 52))%R; [rewrite mult_IZR; lra|]. apply IZR_lt. reflexivity.
  - assert (P0 : (0 <= sqrt (IZR N / 4))%R) by apply sqrt_pos. assert (Pm : 0 < m) by (apply lt_IZR; lra).
    destruct (Z_lt_le_dec m (2 ^ 24)) as [B|B].
    + assert (LT : N < m * m).
      { apply lt_IZR. rewrite mult_IZR. assert (Q : (IZR N / 4 < IZR m / 2 * (IZR m / 2))%R); [|lra].
        rewrite <- (sqrt_sqrt (IZR N / 4)) by auto. apply Rmult_le_0_lt_compat; auto. }
      set (f := (IZR (m * 2 ^ 27 - 1) * bpow radix2 (-28))%R).
      assert (Ef : f = (IZR m / 2 - / IZR (2 ^ 28))%R).
      { unfold f. rewrite minus_IZR, mult_IZR. change (bpow radix2 (-28)) with (/ IZR (2 ^ 28))%R. change (2 ^ 28) with (2 * 2 ^ 27). rewrite mult_IZR. field. apply IZR_neq. lia. }
      assert (F : rnd f = f).
      { unfold rnd. apply round_generic; auto with typeclass_instances. apply generic_format_FLT. exists (Float radix2 (m * 2 ^ 27 - 1) (-28)); [reflexivity| |simpl; lia]. cbn [Fnum].
        change (radix_val radix2) with 2. change (2 ^ 53) with 9007199254740992. change (2 ^ 24) with 16777216 in B. change (2 ^ 27) with 134217728. lia. }
      assert (I : (0 < / IZR (2 ^ 28))%R) by (apply Rinv_0_lt_compat, IZR_lt; reflexivity).
      assert (I1 : (IZR (2 ^ 28) * / IZR (2 ^ 28) = 1)%R) by (apply Rinv_r, IZR_neq; lia). set (e := (/ IZR (2 ^ 28))%R) in *.
      assert (S : (sqrt (IZR N / 4) <= f)%R).
      { assert (M1 : (1 <= IZR m)%R) by (apply IZR_le; lia). assert (M2 : (IZR m <= IZR (2 ^ 24))%R) by (apply IZR_le; lia).
        change (2 ^ 28) with 268435456 in I1. change (2 ^ 24) with 16777216 in M2. assert (E1 : (IZR m * e <= 1 / 16)%R) by nra. assert (E2 : (e <= 1 / 16)%R) by nra.
        assert (P : (0 <= f)%R) by (rewrite Ef; lra). rewrite <- (sqrt_square f) by auto. apply sqrt_le_1; auto; [now apply Rmult_le_pos|].
        assert (K : (IZR N <= IZR m * IZR m - 1)%R) by (rewrite <- mult_IZR, <- minus_IZR; apply IZR_le; lia). rewrite Ef.
        replace ((IZR m / 2 - e) * (IZR m / 2 - e))%R with (IZR m * IZR m / 4 - IZR m * e + e * e)%R by field. assert (0 <= e * e)%R by nra. lra. }
      apply (rnd_le_IZR _ _ F) in S. rewrite Ef in S. lra.
    + apply small_root in HN. apply rnd_le_IZR in HN; [|apply rnd_IZR; lia]. apply IZR_le in B. assert (IZR (2 ^ 22) < IZR (2 ^ 24) / 2)%R; [|lra].
      cut (IZR (2 * 2 ^ 22) < IZR (2 ^ 24))%R; [rewrite mult_IZR; lra|]. apply IZR_lt. reflexivity.
Qed.
Lemma sqh_small size c hs : Forall (fun m => 1 <= m <= 2 ^ 20) size -> (length size <= 3)%nat -> Forall2 (fun a m => 0 <= a < m) c (extents size) -> Forall (fun h => 0 <= h <= 2 ^ 21) hs ->
  0 <= sqh c hs < 2 ^ 46.
Proof.
  intros Hk L3 Hc BH. split; [apply sqh_nonneg|]. destruct (cell_small size c Hk Hc) as [Sc Lc]. assert (X : sqh c hs <= Z.of_nat (length c) * 2 ^ 44); [|lia].
  clear -Sc BH. revert hs BH. induction Sc as [|a c Ha Sc IH]; intros [|h hs] BH; cbn [sqh length]; try lia. inversion BH; subst. specialize (IH hs ltac:(auto)).
  set (t := 2 * a - h). assert (Z.abs t <= 2 ^ 22) by (unfold t; lia). assert (t * t <= 2 ^ 44) by nia. lia.
Qed.
Lemma dist_exact size c hs m : Forall (fun m => 1 <= m <= 2 ^ 20) size -> (length size <= 3)%nat -> Forall2 (fun a m => 0 <= a < m) c (extents size) -> Forall (fun h => 0 <= h <= 2 ^ 21) hs ->
  (rnd (dist (at_ c) (map half hs)) < IZR m / 2)%R <-> (dist (at_ c) (map half hs) < IZR m / 2)%R.
Proof. intros Hk L3 Hc BH. rewrite dist_half. apply ball_exact. now apply (sqh_small size). Qed.

Lemma C99_ball_lemma : forall dim sz s k t r m bulk p, fl_setup dim sz s -> grid_size dim sz = k :: t -> denotes r (IZR m / 2) ->
  exists st, setup_particle FA (Z.of_nat dim) sz r bulk p = Ok (mkSim st s) /\
    configuration s st (fun i q => forall c, fl_cell (grid_size dim sz) s c i -> Forall2 (fun a m => 0 <= a < m) c (extents (grid_size dim sz)) ->
      ((dist (at_ c) (repeat (IZR k / 2) dim) < IZR m / 2)%R -> q = p) /\ (~ (dist (at_ c) (repeat (IZR k / 2) dim) < IZR m / 2)%R -> q = bulk)).
Proof.
  intros dim sz s k t r m bulk p FG EK DR. destruct (C99_particle_lemma dim sz s k t r _ bulk p FG EK DR) as (st & E & SI & GE & H). exists st. split; auto. split; auto. split; auto.
  intros i x Gx. destruct (H i x Gx) as (q & Eq & Q). exists q. split; auto. intros c Ci Hc. specialize (Q c Ci Hc).
  destruct (setup_facts dim sz s FG) as (Hk & FS & Ld & EB & L & BU). assert (L3 : (length (grid_size dim sz) <= 3)%nat) by (destruct FG as (([->| ->] & E' & _) & _); lia).
  assert (Bk : 1 <= k <= 2 ^ 20) by (rewrite EK in Hk; exact (Forall_inv Hk)).
  assert (Eh : map half (repeat k dim) = repeat (IZR k / 2)%R dim) by (clear; induction dim as [|n IH]; cbn [repeat map]; [|rewrite IH]; reflexivity).
  pose proof (dist_exact _ c (repeat k dim) m Hk L3 Hc ltac:(apply Forall_forall; intros h Hh; apply repeat_spec in Hh; lia)) as X. rewrite Eh in X. tauto.
Qed.
Lemma C99_balls_lemma : forall dim sz s k t r w m bulk phases pos ph, fl_setup dim sz s -> grid_size dim sz = k :: t -> denotes r (IZR w / 2) -> phases <> [] ->
  (forall j a, 0 <= pos j a < k) ->
  exists st parts, setup_random_particles FA (Z.of_nat dim) sz r m bulk phases pos ph = Ok (mkSim st s) /\
    length parts = Z.to_nat m /\
    (forall j q b, nth_error parts j = Some (q, b) -> choice phases (ph j) = Ok q /\ b = map (pos j) (seq 0 dim)) /\
    configuration s st (fun i q => (q = bulk \/ In q phases) /\
      forall c, fl_cell (grid_size dim sz) s c i -> Forall2 (fun a m => 0 <= a < m) c (extents (grid_size dim sz)) ->
        last_hit (fun b => (dist (at_ c) (at_ b) < IZR w / 2)%R) parts bulk q).
Proof.
  intros dim sz s k t r w m bulk phases pos ph FG EK DR NE HP. destruct (C99_random_lemma dim sz s k t r _ m bulk phases pos ph FG EK DR NE HP) as (st & parts & E & LP & PQ & SI & GE & H).
  exists st, parts. split; auto. split; auto. split; auto. split; auto. split; auto.
  intros i x Gx. destruct (H i x Gx) as (q & Eq & Q & R). exists q. split; auto. split; auto. intros c Ci Hc. specialize (R c Ci Hc).
  destruct (setup_facts dim sz s FG) as (Hk & FS & Ld & EB & L & BU). assert (L3 : (length (grid_size dim sz) <= 3)%nat) by (destruct FG as (([->| ->] & E' & _) & _); lia).
  assert (Bk : 1 <= k <= 2 ^ 20) by (rewrite EK in Hk; exact (Forall_inv Hk)).
  assert (W : forall e, In e parts -> (rnd (dist (at_ c) (at_ (snd e))) < IZR w / 2)%R <-> (dist (at_ c) (at_ (snd e)) < IZR w / 2)%R).
  { intros [q' b] He. apply In_nth_error in He as [j Hj]. destruct (PQ j q' b Hj) as [_ ->]. cbn [snd].
    assert (Eh : map half (map (fun a => 2 * pos j a) (seq 0 dim)) = at_ (map (pos j) (seq 0 dim))) by (unfold at_; rewrite !map_map; apply map_ext; intros a; unfold half; rewrite mult_IZR; field).
    rewrite <- Eh. apply (dist_exact (grid_size dim sz)); auto. apply Forall_forall. intros h Hh. apply in_map_iff in Hh as (a & <- & _). specialize (HP j a). lia. }
  destruct R as [(l1 & b & l2 & -> & Hb & Hn)|[Hn ->]].
  - left. exists l1, b, l2. split; auto. split; [apply (W (q, b)); auto; apply in_or_app; simpl; auto|]. intros e He N. apply (Hn e He). apply W; auto. apply in_or_app. simpl. auto.
  - right. split; auto. intros e He N. apply (Hn e He). now apply W.
Qed.

(** * Given coordinates *)
Lemma listed_coords coords : listed (fl_coords coords) = map (fun e => (fst e, fl_at (snd e))) (listed coords).
Proof.
  unfold listed, fl_coords. induction coords as [|[p l] coords IH]; cbn [map flat_map fst snd]; auto. rewrite map_app, IH. f_equal. rewrite !map_map. reflexivity.
Qed.
Lemma missed_dec size x : missed size x \/ ~ missed size x.
Proof.
  unfold missed. generalize (extents size) as w. clear size. induction x as [|v x IH]; intros [|m w]; try (right; intros (a & m' & v' & E1 & E2 & _); destruct a; discriminate).
  destruct (short_dec m v) as [Y|N]; [left; exists 0%nat, m, v; auto|]. destruct (IH w) as [(a & m' & v' & E)|N'].
  - left. exists (S a), m', v'. exact E.
  - right. intros ([|a] & m' & v' & E1 & E2 & SH); cbn in E1, E2; [congruence|]. apply N'. exists a, m', v'. auto.
Qed.
Lemma C99_coords_lemma : forall dim sz s bg coords, fl_setup dim sz s ->
  (forall p x, In (p, x) (listed coords) -> length x = dim /\ Forall (fun a => Z.abs a <= 2 ^ 27) x) ->
  ((forall p x, In (p, x) (listed coords) -> ~ missed (grid_size dim sz) x) ->
     exists st, setup_coords FA (Z.of_nat dim) sz bg (fl_coords coords) = Ok (mkSim st s) /\
       configuration s st (fun i q => last_hit (fun x => fl_cell (grid_size dim sz) s x i) (listed coords) bg q)) /\
  ((exists p x, In (p, x) (listed coords) /\ missed (grid_size dim sz) x) -> setup_coords FA (Z.of_nat dim) sz bg (fl_coords coords) = Err TypeError).
Proof.
  intros dim sz s bg coords FG HC. destruct (setup_facts dim sz s FG) as (Hk & FS & Ld & EB & L & BU).
  assert (LK : forall e, In e (listed coords) -> (~ missed (grid_size dim sz) (snd e) -> exists i, id_at FA s (fl_at (snd e)) = Ok (Some i) /\ fl_cell (grid_size dim sz) s (snd e) i) /\
     (missed (grid_size dim sz) (snd e) -> id_at FA s (fl_at (snd e)) = Ok None)).
  { intros [p x] He. cbn [snd]. destruct (HC p x He) as [Lx Bx]. destruct (C30_grids_lemma _ s x Hk FS ltac:(lia) Bx) as ((i & Ci) & F & M). split; [|exact M].
    intros NM. exists i. split; auto. apply F; auto. intros a m v Ea Ev SH. apply NM. exists a, m, v. auto. }
  split.
  - intros NM. destruct (coords_run FA dim sz s L bg (fl_coords coords) EB BU) as (st & E & SI & GE & H).
    { intros e He. rewrite listed_coords in He. apply in_map_iff in He as ([p x] & <- & He). cbn [snd fst]. destruct (proj1 (LK _ He) (NM p x He)) as (i & Ei & _). eauto. }
    exists st. split; auto. split; auto. split; auto. intros i x Gx. destruct (H i x Gx) as (q & Eq & R). exists q. split; auto. rewrite listed_coords in R.
    assert (W : forall e, In e (listed coords) -> id_at FA s (fl_at (snd e)) = Ok (Some i) <-> fl_cell (grid_size dim sz) s (snd e) i).
    { intros [p y] He. destruct (proj1 (LK _ He) (NM p y He)) as (j & Ej & Cj). cbn [snd] in *. split; intros K.
      - rewrite K in Ej. injection Ej as ->. exact Cj.
      - rewrite Ej. do 2 f_equal. apply (torus_same _ s Hk FS y y j i); auto. apply same_cell_refl. rewrite extents_length. destruct (HC p y He) as [-> _]. lia. }
    destruct R as [(l1 & b & l2 & E1 & Hb & Hn)|[Hn ->]].
    + apply map_eq_app in E1 as (m1 & m2 & E1 & <- & E2). destruct m2 as [|[q' y] m2]; [discriminate|]. cbn [map fst snd] in E2. injection E2 as -> E3 E4. subst b l2.
      left. exists m1, y, m2. split; auto. split; [apply (W (q, y)); auto; rewrite E1; apply in_or_app; simpl; auto|].
      intros e He N. apply (Hn (fst e, fl_at (snd e))); [apply in_map_iff; eauto|]. cbn [snd]. apply W; auto. rewrite E1. apply in_or_app. simpl. auto.
    + right. split; auto. intros e He N. apply (Hn (fst e, fl_at (snd e))); [apply in_map_iff; eauto|]. cbn [snd]. now apply W.
  - intros (p & x & He & MX). apply (coords_missing FA dim sz bg _ s EB).
    + intros e Hin. rewrite listed_coords in Hin. apply in_map_iff in Hin as (e' & <- & Hin). cbn [snd]. destruct (missed_dec (grid_size dim sz) (snd e')) as [Y|N].
      * exists None. now apply LK.
      * destruct (proj1 (LK _ Hin) N) as (i & Ei & _). eauto.
    + exists (p, fl_at x). split; [rewrite listed_coords; apply in_map_iff; exists (p, x); auto|]. cbn [snd]. now apply (LK (p, x)).
Qed.
Lemma C99_inside_lemma : forall dim sz s bg coords, fl_setup dim sz s ->
  (forall p x, In (p, x) (listed coords) -> Forall2 (fun a m => 0 <= a < m) x (extents (grid_size dim sz))) ->
  exists st, setup_coords FA (Z.of_nat dim) sz bg (fl_coords coords) = Ok (mkSim st s) /\
    configuration s st (fun i q => forall c, fl_cell (grid_size dim sz) s c i -> Forall2 (fun a m => 0 <= a < m) c (extents (grid_size dim sz)) -> last_hit (fun x => x = c) (listed coords) bg q).
Proof.
  intros dim sz s bg coords FG HC. destruct (setup_facts dim sz s FG) as (Hk & FS & Ld & EB & L & BU).
  destruct (C99_coords_lemma dim sz s bg coords FG) as [H _].
  { intros p x He. specialize (HC p x He). destruct (cell_small _ x Hk HC) as [Sx Lx]. split; [lia|]. eapply Forall_impl; [|exact Sx]. cbn. intros. lia. }
  destruct H as (st & E & SI & GE & H).
  { intros p x He (a & m & v & Ea & Ev & SH). specialize (HC p x He). apply (nth_Forall2 _ 0 0) in HC as [Lx HC].
    assert (La : (a < length x)%nat) by (apply nth_error_Some; congruence). specialize (HC a La). rewrite (nth_error_nth _ _ 0 Ea), (nth_error_nth _ _ 0 Ev) in HC.
    revert SH. apply not_short_inside; auto. rewrite Forall_forall in Hk. apply Hk, (proj1 (extents_In _ _)). eapply nth_error_In. exact Ea. }
  exists st. split; auto. split; auto. split; auto. intros i x Gx. destruct (H i x Gx) as (q & Eq & R). exists q. split; auto. intros c Ci Hc.
  assert (W : forall e, In e (listed coords) -> fl_cell (grid_size dim sz) s (snd e) i <-> snd e = c).
  { intros [p y] He. cbn [snd]. split; [|intros ->; auto]. intros K. apply (cell_unique _ s c y i Hk FS); auto. apply (HC p y He). }
  destruct R as [(l1 & b & l2 & E1 & Hb & Hn)|[Hn ->]].
  - left. exists l1, b, l2. split; auto. split; [apply (W (q, b)); auto; rewrite E1; apply in_or_app; simpl; auto|]. intros e He N. apply (Hn e He). apply W; auto. rewrite E1. apply in_or_app. simpl. auto.
  - right. split; auto. intros e He N. apply (Hn e He). now apply W.
Qed.

Lemma C99_noise_lemma : forall dim sz s phases rnd, fl_setup dim sz s -> phases <> [] ->
  exists st, setup_noise FA (Z.of_nat dim) sz phases rnd = Ok (mkSim st s) /\ configuration s st (fun i q => choice phases (rnd (Z.to_nat i)) = Ok q).
Proof.
  intros dim sz s phases rnd FG NE. destruct (setup_facts dim sz s FG) as (Hk & FS & Ld & EB & L & BU). now apply (noise_run FA dim sz phases rnd s L).
Qed.

(** * A radius for which rounding matters *)
Lemma root2 : denotes (f_sqrt (f_ofZ 2)) (rnd (sqrt 2)) /\ (sqrt 2 < rnd (sqrt 2))%R.
Proof.
  assert (D : denotes (f_sqrt (f_ofZ 2)) (rnd (sqrt 2))) by (apply denotes_sqrt; [apply denotes_ofZ; reflexivity|lra]). split; auto.
  destruct D as [_ D]. rewrite <- D. rewrite <- (SF2R_B2SF _ _ (f_sqrt (f_ofZ 2))). replace (B2SF (f_sqrt (f_ofZ 2))) with (SpecFloat.S754_finite false 6369051672525773 (-52)) by (vm_compute; reflexivity).
  cbn [SF2R cond_Zopp]. unfold F2R. cbn [Fnum Fexp]. change (bpow radix2 (-52)) with (/ IZR (2 ^ 52))%R. change (2 ^ 52) with 4503599627370496.
  set (e := (6369051672525773 * / 4503599627370496)%R). assert (P : (0 <= e)%R) by (unfold e; lra). rewrite <- (sqrt_square e) by auto. apply sqrt_lt_1; [lra|now apply Rmult_le_pos|]. unfold e. lra.
Qed.
Lemma C99_ball_refuted_lemma : exists s st r rho c i, fl_setup 2 (SzInt 4) s /\ denotes r rho /\ setup_particle FA 2 (SzInt 4) r "bulk" "particle" = Ok (mkSim st s) /\
  fl_cell [4; 4] s c i /\ Forall2 (fun a m => 0 <= a < m) c [4; 4] /\ (dist (at_ c) [2; 2] < rho)%R /\ site_entry st (KInt i) DISCRETE_OCCUPANCY = Some (VStr "bulk").
Proof.
  assert (Hk : Forall (fun m => 1 <= m <= 2 ^ 20) [4; 4]) by (repeat constructor; lia). destruct (square_box [4; 4] (or_introl eq_refl) Hk) as (s & L & FS & _).
  assert (FG : fl_setup 2 (SzInt 4) s) by (split; [split; [auto|split; [reflexivity|]]|split; [|exact FS]]; repeat constructor; lia).
  destruct root2 as [DR LT]. destruct (C99_particle_lemma 2 (SzInt 4) s 4 [4] (f_sqrt (f_ofZ 2)) _ "bulk" "particle" FG eq_refl DR) as (st & E & SI & GE & H).
  assert (Hc : Forall2 (fun a m => 0 <= a < m) [1; 1] [4; 4]) by (repeat constructor; lia).
  destruct (torus_total [4; 4] s Hk FS [1; 1] eq_refl) as [i Ci]. pose proof Ci as Ci'. apply (torus_small [4; 4] s Hk FS [1; 1] i Hc) in Ci' as (_ & x & Gx & _).
  assert (Ed : dist (at_ [1; 1]) [2%R; 2%R] = sqrt 2) by (unfold dist, vlength, at_, vminus; cbn [map zipwith vdot]; f_equal; lra).
  exists s, st, (f_sqrt (f_ofZ 2)), (rnd (sqrt 2)), [1; 1], i. split; auto. split; auto. split; auto. split; auto. split; auto. split; [now rewrite Ed|].
  destruct (H i x Gx) as (q & Eq & Q). destruct (Q [1; 1] Ci Hc) as [_ N]. unfold site_entry. change (KInt i) with (KInt i) in Eq. rewrite Eq. cbn [dget]. rewrite N; [reflexivity|].
  cbn [repeat]. replace (IZR 4 / 2)%R with 2%R by lra. rewrite Ed. lra.
Qed.
