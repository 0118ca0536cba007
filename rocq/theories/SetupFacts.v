(** Starting states: layouts, and the deterministic and noisy setups. *)
From Coq Require Import Reals Lra Permutation.
From Verif Require Import Prelude Dict Val ValFacts Arith RVec RealArith LatticeModel JsonModel StructModel StateModel NbModel GridModel
  SimModel SetupModel SpecState SpecGeom SpecNb SpecGrid SpecSetup StateFacts LatticeFacts LatticeMore StructFacts StructMore StructBuild
  NbFacts NbMore GridFacts GridMore GridNb.
Local Open Scope Z_scope.

(** * States that give every site of a structure one occupancy *)
Section Layout.
  Context {F : Type}.

  Definition entry (i : Z) (v : val) : pdict := [(SITE_ID, VInt i); (DISCRETE_OCCUPANCY, v)].
  Definition layout (xs : list (site F)) (g : Z -> val) : sstate :=
    mkS (map (fun x => (KInt (s_id x), entry (s_id x) (g (s_id x)))) xs) [].
  Definition upd (g : Z -> val) (i : Z) (v : val) : Z -> val := fun j => if j =? i then v else g j.
  Definition puts (g : Z -> val) (l : list (Z * val)) : Z -> val := fold_left (fun g iv => upd g (fst iv) (snd iv)) l g.

  Lemma layout_ext xs g g' : (forall i, In i (map s_id xs) -> g i = g' i) -> layout xs g = layout xs g'.
  Proof.
    intros H. unfold layout. f_equal. apply map_ext_in. intros x Hx. rewrite H; auto. now apply in_map.
  Qed.
  Lemma layout_get xs g i : NoDup (map s_id xs) -> In i (map s_id xs) -> get_site_state (layout xs g) (KInt i) = Some (entry i (g i)).
  Proof.
    intros ND Hi. unfold get_site_state, layout. cbn [s_sites]. apply in_map_iff in Hi as (x & <- & Hx).
    apply In_dget.
    - unfold dkeys. rewrite map_map. cbn [fst]. rewrite <- (map_map s_id KInt). apply FinFun.Injective_map_NoDup; auto. intros a b E; congruence.
    - apply (in_map (fun x => (KInt (s_id x), entry (s_id x) (g (s_id x))))). auto.
  Qed.
  Lemma layout_keys xs g : dkeys (s_sites (layout xs g)) = map (fun x => KInt (s_id x)) xs.
  Proof. unfold layout, dkeys. cbn [s_sites]. rewrite map_map. reflexivity. Qed.

  Lemma set_layout xs g i v : NoDup (map s_id xs) -> In i (map s_id xs) ->
    set_site_state (layout xs g) (KInt i) (occ v) = layout xs (upd g i v).
  Proof.
    intros ND Hi. unfold set_site_state. pose proof (layout_get xs g i ND Hi) as G. unfold get_site_state in G. rewrite G.
    unfold layout at 2 3. cbn [s_general]. f_equal.
    change (dmerge (entry i (g i)) (occ v)) with (entry i v).
    unfold layout. cbn [s_sites]. clear G. induction xs as [|x xs IH]; [destruct Hi|]. cbn [map] in *. inversion ND as [|? ? NI ND']; subst.
    cbn [dset]. destruct (eqb_spec (KInt i) (KInt (s_id x))) as [E|D].
    - injection E as ->. f_equal.
      + f_equal. unfold upd. now rewrite Z.eqb_refl.
      + apply map_ext_in. intros y Hy. unfold upd. replace (s_id y =? s_id x) with false; auto. symmetry. apply Z.eqb_neq. intros E.
        apply NI. rewrite <- E. now apply in_map.
    - f_equal.
      + f_equal. unfold upd. replace (s_id x =? i) with false; auto. symmetry. apply Z.eqb_neq. congruence.
      + apply IH; auto. destruct Hi; auto. congruence.
  Qed.

  Lemma blank_layout (s : structure F) v : NoDup (map s_id (sites s None)) -> build_blank_state s v = layout (sites s None) (fun _ => v).
  Proof.
    unfold build_blank_state. generalize (sites s None) as xs. intros xs.
    assert (G : forall rest done, NoDup (map s_id (done ++ rest)) ->
      fold_left (fun st x => set_site_state st (KInt (s_id x)) (occ v)) rest (layout done (fun _ => v)) = layout (done ++ rest) (fun _ => v)).
    { induction rest as [|x rest IH]; intros done ND; cbn [fold_left]; [now rewrite app_nil_r|].
      replace (done ++ x :: rest) with ((done ++ [x]) ++ rest) in ND |- * by (now rewrite <- app_assoc). rewrite <- IH; auto. f_equal.
      assert (NI : ~ In (KInt (s_id x)) (dkeys (s_sites (layout done (fun _ => v))))).
      { rewrite layout_keys. intros Hx. apply in_map_iff in Hx as (y & E & Hy). injection E as E.
        rewrite map_app, map_app in ND. apply NoDup_remove_1 with (a := s_id x) in ND || idtac.
        rewrite <- app_assoc in ND. cbn [map app] in ND. apply NoDup_remove_2 in ND. apply ND. apply in_or_app. left. rewrite <- E. now apply in_map. }
      unfold set_site_state. apply dget_None in NI as NG. rewrite NG. unfold layout at 2. f_equal.
      rewrite dset_snoc by exact NI. unfold layout. cbn [s_sites]. rewrite map_app. reflexivity. }
    intros ND. exact (G xs [] ND).
  Qed.

  Lemma foldM_puts {B} (f : sstate -> B -> res sstate) (t : B -> list (Z * val)) xs : NoDup (map s_id xs) -> forall l g,
    (forall b g, In b l -> f (layout xs g) b = Ok (layout xs (puts g (t b)))) ->
    foldM f l (layout xs g) = Ok (layout xs (puts g (flat_map t l))).
  Proof.
    intros ND l. induction l as [|b l IH]; intros g H; cbn [foldM flat_map]; auto.
    rewrite H by (simpl; auto). cbn [bind]. rewrite IH by (intros; apply H; simpl; auto). unfold puts. now rewrite fold_left_app.
  Qed.

  Lemma puts_in g l i : puts g l i = g i \/ In (i, puts g l i) l.
  Proof.
    revert g. induction l as [|[j v] l IH]; intros g; cbn [puts fold_left fst snd]; auto.
    destruct (IH (upd g j v)) as [E|E]; [|right; right; exact E]. fold (puts (upd g j v) l). rewrite E. unfold upd.
    destruct (i =? j) eqn:D; auto. apply Z.eqb_eq in D. subst. right. left. reflexivity.
  Qed.
  Lemma puts_notin g l i : ~ In i (map fst l) -> puts g l i = g i.
  Proof.
    intros NI. destruct (puts_in g l i) as [E|E]; auto. exfalso. apply NI. apply (in_map fst) in E. exact E.
  Qed.
  Lemma puts_last g l1 i v l2 : ~ In i (map fst l2) -> puts g (l1 ++ (i, v) :: l2) i = v.
  Proof.
    intros NI. unfold puts. rewrite fold_left_app. cbn [fold_left fst snd]. fold (puts g l1). fold (puts (upd (puts g l1) i v) l2).
    rewrite puts_notin by auto. unfold upd. now rewrite Z.eqb_refl.
  Qed.
  Lemma puts_unique g l i v : NoDup (map fst l) -> In (i, v) l -> puts g l i = v.
  Proof.
    intros ND H. apply in_split in H as (l1 & l2 & ->). apply puts_last. rewrite map_app in ND. cbn [map fst] in ND.
    apply NoDup_remove_2 in ND. intros X. apply ND. apply in_or_app. auto.
  Qed.
  Lemma split_last {B} (p : B -> Prop) (dec : forall b, {p b} + {~ p b}) (l : list B) :
    (exists l1 b l2, l = l1 ++ b :: l2 /\ p b /\ forall e, In e l2 -> ~ p e) \/ (forall e, In e l -> ~ p e).
  Proof.
    induction l as [|a l IH]; [right; intros e []|]. destruct IH as [(l1 & b & l2 & -> & H & N)|N].
    - left. exists (a :: l1), b, l2. auto.
    - destruct (dec a) as [Y|Y]; [left; exists [], a, l; auto|right]. intros e [<-|He]; auto.
  Qed.

  Lemma config_layout (A : arith F) L (s : structure F) g (P : Z -> string -> Prop) : built A L s ->
    (forall i x, get_site s i = Some x -> exists p, g i = VStr p /\ P i p) -> configuration s (layout (sites s None) g) P.
  Proof.
    intros HB H. pose proof (built_dense A L s HB) as D. pose proof (dense_NoDup s None D) as ND. split; [apply layout_keys|].
    split; [reflexivity|]. intros i x Gx. destruct (H i x Gx) as (p & E & Hp). exists p. split; auto.
    destruct (built_inv A L s HB) as [h I]. apply (inv_get_site A L h s i x I) in Gx as [Hx <-].
    rewrite layout_get; [|auto|now apply in_map]. unfold entry. now rewrite E.
  Qed.
  Lemma get_site_ids (A : arith F) L (s : structure F) i : built A L s -> (In i (map s_id (sites s None)) <-> exists x, get_site s i = Some x).
  Proof.
    intros HB. destruct (built_inv A L s HB) as [h I]. rewrite in_map_iff. split.
    - intros (x & <- & Hx). exists x. apply (inv_get_site A L h s _ x I). auto.
    - intros [x Gx]. apply (inv_get_site A L h s _ x I) in Gx as [Hx <-]. eauto.
  Qed.
End Layout.

(** C47, solid phase: any arithmetic, any structure the API can produce. *)
Lemma C47_solid_lemma : forall F (A : arith F) L s phase, built A L s ->
  configuration s (setup_solid_phase s phase) (fun _ p => p = phase).
Proof.
  intros F A L s phase HB. unfold setup_solid_phase. rewrite blank_layout by (apply dense_NoDup, (built_dense A L s HB)).
  apply (config_layout A L); auto. intros. exists phase. auto.
Qed.

(** * Building the grid of a setup *)
Lemma add_or_raise_fixed {F} (A : arith F) s x s' : add_site_or_raise A s x = Ok s' -> p_lattice s' = p_lattice s /\ p_dim s' = p_dim s.
Proof.
  unfold add_site_or_raise, add_site. destruct (get_periodized_cartesian_coords _ _ _); [|discriminate].
  destruct (transformed_coords _ _ _); [|discriminate]. destruct (dget _ _); [discriminate|]. intros H; injection H as <-. auto.
Qed.
Lemma foldM_keep {B C} (P : C -> Prop) (f : C -> B -> res C) l : (forall c b c', P c -> f c b = Ok c' -> P c') -> forall c c', P c -> foldM f l c = Ok c' -> P c'.
Proof.
  intros H. induction l as [|b l IH]; cbn [foldM]; intros c c' Pc E; [injection E as <-; auto|].
  apply bind_Ok in E as (d & E1 & E2). eauto.
Qed.
Lemma build_from_fixed {F} (A : arith F) L k m fr s : build_from A L k m fr = Ok s ->
  exists L', get_scaled_lattice A L k = Ok L' /\ p_lattice s = L' /\ p_dim s = l_dim L'.
Proof.
  unfold build_from. intros E. apply bind_Ok in E as (L' & EL & E). exists L'. split; auto.
  refine (foldM_keep (fun s => p_lattice s = L' /\ p_dim s = l_dim L') _ _ _ _ _ _ E); [|split; reflexivity].
  intros c cs c' Pc. apply (foldM_keep (fun s => p_lattice s = L' /\ p_dim s = l_dim L')); auto.
  clear. intros c cv c' Pc. apply (foldM_keep (fun s => p_lattice s = L' /\ p_dim s = l_dim L')); auto.
  clear. intros c v c' [P1 P2] E. apply bind_Ok in E as (loc & _ & E). apply add_or_raise_fixed in E as [-> ->]. auto.
Qed.

Lemma axis2 k : (0 <= k)%Z -> norm RA [(0 * IZR k)%R; (1 * IZR k)%R] = IZR k.
Proof.
  intros H. rewrite norm_RA. unfold vlength, vdot; simpl. apply IZR_le in H.
  replace (0 * IZR k * (0 * IZR k) + (1 * IZR k * (1 * IZR k) + 0))%R with (Rsqr (IZR k)) by (unfold Rsqr; ring). now apply sqrt_Rsqr.
Qed.
Lemma axis3 k : (0 <= k)%Z -> norm RA [(0 * IZR k)%R; (1 * IZR k)%R; (0 * IZR k)%R] = IZR k.
Proof.
  intros H. rewrite norm_RA. unfold vlength, vdot; simpl. apply IZR_le in H.
  replace (0 * IZR k * (0 * IZR k) + (1 * IZR k * (1 * IZR k) + (0 * IZR k * (0 * IZR k) + 0)))%R with (Rsqr (IZR k)) by (unfold Rsqr; ring). now apply sqrt_Rsqr.
Qed.

(** What the setups need to know of their grid. *)
Lemma setup_grid dim sz : good_size dim sz ->
  exists s L, build_structure RA (Z.of_nat dim) sz = Ok s /\ square_grid (grid_size dim sz) s /\ grid_facts (grid_size dim sz) s L /\
    p_dim s = dim /\ forall k t, grid_size dim sz = k :: t -> first_length RA s = Ok (IZR k).
Proof.
  intros (Hd & Ld & P). destruct (C67_exists_lemma (grid_size dim sz) P) as [s G]; [rewrite Ld; auto|].
  destruct (square_facts _ _ G) as [L GF]. exists s, L.
  assert (SZ : forall b : builder R, l_dim (b_lattice b) = dim -> build RA b sz = build RA b (SzTuple (grid_size dim sz))).
  { intros b E. destruct sz as [l|k]; auto. cbn [grid_size]. rewrite <- E. apply C34_lemma. }
  assert (PD : forall b, build RA b (SzTuple (grid_size dim sz)) = Ok s -> l_dim (b_lattice b) = dim ->
    exists L', get_scaled_lattice RA (b_lattice b) (grid_size dim sz) = Ok L' /\ p_lattice s = L' /\ p_dim s = l_dim L').
  { intros b E D. cbn [build] in E. rewrite Ld, D, Nat.eqb_refl in E. cbn [negb] in E. now apply build_from_fixed in E. }
  destruct G as [P' [[D2 (b & Eb & Es)]|[D3 (b & Eb & Es)]]].
  - rewrite Ld in D2. subst dim.
    assert (BL : l_dim (b_lattice b) = 2%nat /\ l_vecs (b_lattice b) = sq2).
    { cbv [SimpleSquare2DStructureBuilder SquareGridLattice2D] in Eb. apply bind_Ok in Eb as (L0 & EL & Eb). injection Eb as <-. cbn [b_lattice].
      cbv in EL. injection EL as <-. split; reflexivity. }
    destruct BL as [BD BV]. destruct (PD b Es BD) as (L' & EL & PL & PP). rewrite <- SZ in Es by auto.
    split; [unfold build_structure, setup_builder; cbn [Z.of_nat Z.eqb]; rewrite Eb; exact Es|].
    split; [split; auto; left; split; auto; exists b; rewrite <- SZ by auto; auto|]. split; auto.
    unfold get_scaled_lattice in EL. rewrite BV in EL. destruct (grid_size 2 sz) as [|a [|c [|]]]; try discriminate.
    cbn in EL. injection EL as EL. rewrite <- EL in PL, PP. split; [exact PP|].
    intros k t E. injection E as <- <-. unfold first_length. rewrite PL. cbn [vec_lengths l_vecs map].
    change (list_getE _ 0) with (Ok (norm RA [(0 * IZR a)%R; (1 * IZR a)%R])). rewrite axis2; auto. apply Forall_inv in P. lia.
  - rewrite Ld in D3. subst dim.
    assert (BL : l_dim (b_lattice b) = 3%nat /\ l_vecs (b_lattice b) = sq3).
    { cbv [SimpleSquare3DStructureBuilder SquareGridLattice3D] in Eb. apply bind_Ok in Eb as (L0 & EL & Eb). injection Eb as <-. cbn [b_lattice].
      cbv in EL. injection EL as <-. split; reflexivity. }
    destruct BL as [BD BV]. destruct (PD b Es BD) as (L' & EL & PL & PP). rewrite <- SZ in Es by auto.
    split; [unfold build_structure, setup_builder; cbn [Z.of_nat Z.eqb Pos.of_succ_nat Pos.succ Pos.eqb]; rewrite Eb; exact Es|].
    split; [split; auto; right; split; auto; exists b; rewrite <- SZ by auto; auto|]. split; auto.
    unfold get_scaled_lattice in EL. rewrite BV in EL. destruct (grid_size 3 sz) as [|a [|c [|e [|]]]]; try discriminate.
    cbn in EL. injection EL as EL. rewrite <- EL in PL, PP. split; [exact PP|].
    intros k t E. injection E as <- <-. unfold first_length. rewrite PL. cbn [vec_lengths l_vecs map].
    change (list_getE _ 0) with (Ok (norm RA [(0 * IZR a)%R; (1 * IZR a)%R; (0 * IZR a)%R])). rewrite axis3; auto. apply Forall_inv in P. lia.
Qed.

(** * Interface *)
Lemma fst_tagged {F} (xs : list (site F)) (h : site F -> val) : map fst (flat_map (fun x => [(s_id x, h x)]) xs) = map s_id xs.
Proof. induction xs; simpl; auto. now f_equal. Qed.
Lemma In_tagged {F} (xs : list (site F)) (h : site F -> val) x : In x xs -> In (s_id x, h x) (flat_map (fun x => [(s_id x, h x)]) xs).
Proof. intros H. apply in_flat_map. exists x. split; simpl; auto. Qed.

Lemma half_floor k : zfloor (IZR k / 2) = k / 2.
Proof.
  apply zfloor_unique. pose proof (Z.div_mod k 2 ltac:(lia)) as E. pose proof (Z.mod_pos_bound k 2 ltac:(lia)) as B.
  assert (IZR k = 2 * IZR (k / 2) + IZR (k mod 2))%R as ER by (rewrite <- mult_IZR, <- plus_IZR; f_equal; auto).
  assert (0 <= IZR (k mod 2) <= 1)%R by (split; apply IZR_le; lia). lra.
Qed.

Lemma cell_own size s L p i x : grid_facts size s L -> get_site s i = Some x -> cell s p i -> length p = length size ->
  Forall2 (fun a m => 0 <= a < m) p (extents size) -> s_loc x = at_ p.
Proof.
  intros G Gx C Lp B. destruct (site_cell _ _ _ _ _ G Gx) as (q & Lq & Bq & E & Cq & _). rewrite E. f_equal.
  assert (SC : same_cell (extents size) q p) by (apply (cell_iff size s L q p i i G); auto).
  destruct SC as (_ & _ & H). rewrite <- (extents_length size) in Lp, Lq. revert Lp Lq B Bq H. generalize (extents size) as w. clear.
  intros w; revert p q. induction w as [|m w IH]; intros [|a p] [|b q]; simpl; intros Lp Lq B Bq H; try discriminate; auto.
  inversion B; subst. inversion Bq; subst. f_equal.
  - destruct (H 0%nat _ _ _ eq_refl eq_refl eq_refl) as [z E]. assert (z = 0) by nia. lia.
  - apply IH; auto. intros k. apply (H (S k)).
Qed.

Lemma C47_interface_lemma : forall dim sz k t p1 p2, good_size dim sz -> grid_size dim sz = k :: t ->
  exists s st, setup_interface RA (Z.of_nat dim) sz p1 p2 = Ok (mkSim st s) /\ square_grid (grid_size dim sz) s /\
    configuration s st (fun i q => forall x y, cell s (x :: y) i -> Forall2 (fun a m => 0 <= a < m) (x :: y) (extents (grid_size dim sz)) ->
      q = if x <? k / 2 then p1 else p2).
Proof.
  intros dim sz k t p1 p2 GS EK. destruct (setup_grid dim sz GS) as (s & L & Es & SG & G & PD & FL). exists s.
  pose proof (gf_built _ _ _ G) as HB. pose proof (dense_NoDup s None (built_dense RA L s HB)) as ND.
  assert (Ld : length (grid_size dim sz) = dim) by apply GS.
  unfold setup_interface. rewrite Es. cbn [bind]. rewrite (FL k t EK). cbn [bind]. rewrite blank_layout by auto.
  set (h := fun x : site R => VStr (match s_loc x with x0 :: _ => if a_ltb RA x0 (a_floor RA (a_div RA (IZR k) (a_ofZ RA 2))) then p1 else p2 | [] => p1 end)).
  rewrite (foldM_puts _ (fun x => [(s_id x, h x)])); auto.
  2:{ intros x g Hx. destruct (built_inv RA L s HB) as [h0 I].
      assert (Gx : get_site s (s_id x) = Some x) by (apply (inv_get_site RA L h0 s _ x I); auto).
      destruct (site_cell _ _ _ _ _ G Gx) as (p & Lp & _ & E & _).
      unfold h. rewrite E. destruct p as [|p0 p]; [rewrite EK in Lp; discriminate|].
      cbn [at_ map]. rewrite (list_getE_nat _ 0). cbn [nth_error bind]. unfold puts. cbn [fold_left fst snd].
      destruct (a_ltb RA _ _); rewrite set_layout; auto; now apply in_map. }
  cbn [bind]. eexists. split; [reflexivity|]. split; auto. apply (config_layout RA L); auto.
  intros i x Gx. destruct (built_inv RA L s HB) as [h0 I]. pose proof Gx as Gx'. apply (inv_get_site RA L h0 s _ x I) in Gx' as [Hx <-].
  rewrite (puts_unique _ _ _ (h x)); [|now rewrite fst_tagged|now apply In_tagged]. eexists. split; [reflexivity|].
  intros a y C B. assert (Lp : length (a :: y) = length (grid_size dim sz)) by (apply Forall2_length in B || (rewrite <- (extents_length (grid_size dim sz)); clear -B; induction B; simpl; auto)).
  rewrite (cell_own _ s L (a :: y) (s_id x) x G Gx C Lp B). cbn [at_ map].
  cbn [a_floor a_div a_ofZ a_ltb RA]. rewrite half_floor. destruct (Rlt_dec _ _) as [Y|N].
  - apply lt_IZR in Y. now replace (a <? k / 2) with true by lia.
  - replace (a <? k / 2) with false; auto. symmetry. apply Z.ltb_ge. apply Rnot_lt_le, le_IZR in N. auto.
Qed.

(** * Coordinates *)
Lemma site_at_id {F} (A : arith F) s p i : id_at A s p = Ok (Some i) -> exists x, site_at A s p = Ok (Some x) /\ s_id x = i.
Proof.
  unfold id_at. intros E. apply bind_Ok in E as (o & -> & E). destruct o as [x|]; [|discriminate]. injection E as <-. eauto.
Qed.
Lemma site_at_found {F} (A : arith F) L (s : structure F) p x : built A L s -> site_at A s p = Ok (Some x) -> In x (sites s None).
Proof.
  intros HB. unfold site_at. destruct (transformed_coords A s p) as [key|]; [|discriminate]. cbn [bind].
  destruct (dget key (p_lookup s)) as [i|]; [|discriminate]. intros E. injection E as E.
  destruct (built_inv A L s HB) as [h I]. apply (inv_get_site A L h s i x I) in E. tauto.
Qed.
Lemma flat_map_flat_map {B C D} (f : C -> list D) (g : B -> list C) l : flat_map f (flat_map g l) = flat_map (fun x => flat_map f (g x)) l.
Proof. induction l; simpl; auto. rewrite flat_map_app. now f_equal. Qed.

Lemma coords_run {F} (A : arith F) dim sz s L bg coordinates : build_structure A (Z.of_nat dim) sz = Ok s -> built A L s ->
  (forall e, In e (listed coordinates) -> exists i, id_at A s (snd e) = Ok (Some i)) ->
  exists st, setup_coords A (Z.of_nat dim) sz bg coordinates = Ok (mkSim st s) /\
    configuration s st (fun i q => last_hit (fun c => id_at A s c = Ok (Some i)) (listed coordinates) bg q).
Proof.
  intros Es HB H. pose proof (dense_NoDup s None (built_dense A L s HB)) as ND.
  unfold setup_coords. rewrite Es. cbn [bind]. unfold setup_solid_phase. rewrite blank_layout by auto.
  set (put := fun e : string * list F => match id_at A s (snd e) with Ok (Some i) => [(i, VStr (fst e))] | _ => [] end).
  assert (E : foldM (fun st pc => foldM (fun st coords => do x <- site_at A s coords;
        match x with None => Err TypeError | Some x => Ok (set_site_state st (KInt (s_id x)) (occ (VStr (fst pc)))) end) (snd pc) st)
      coordinates (layout (sites s None) (fun _ => VStr bg)) = Ok (layout (sites s None) (puts (fun _ => VStr bg) (flat_map put (listed coordinates))))).
  { unfold listed. rewrite flat_map_flat_map. apply foldM_puts; auto. intros pc g Hpc.
    rewrite flat_map_concat_map, map_map, <- flat_map_concat_map. apply foldM_puts; auto. clear g. intros c g Hc.
    destruct (H (fst pc, c)) as [i Ei]; [apply in_flat_map; exists pc; split; auto; now apply in_map|]. cbn [snd] in Ei.
    unfold put. cbn [fst snd]. rewrite Ei. apply site_at_id in Ei as (x & Ex & <-). rewrite Ex. cbn [bind].
    rewrite set_layout; auto. apply in_map. eapply site_at_found; eauto. }
  rewrite E. cbn [bind]. eexists. split; [reflexivity|]. apply (config_layout A L); auto.
  intros i x Gx. 
  destruct (split_last (fun e : string * list F => id_at A s (snd e) = Ok (Some i))) with (l := listed coordinates) as [(l1 & b & l2 & EL & Hb & N)|N].
  { intros e. destruct (id_at A s (snd e)) as [[j|]|]; try (right; discriminate). destruct (Z.eq_dec j i) as [->|D]; [left; auto|right; congruence]. }
  - exists (fst b). split.
    + rewrite EL, flat_map_app. cbn [flat_map]. unfold put at 2. rewrite Hb. cbn [app]. apply puts_last. intros X.
      apply in_map_iff in X as ([j v] & Ej & X). cbn [fst] in Ej. subst j. apply in_flat_map in X as (e & He & X).
      unfold put in X. destruct (id_at A s (snd e)) as [[j|]|] eqn:Q; [|destruct X|destruct X]; destruct X as [X|[]]. injection X as -> _.
      exact (N e He Q).
    + left. exists l1, (snd b), l2. rewrite <- surjective_pairing. auto.
  - exists bg. split; [|right; auto]. rewrite puts_notin; auto. intros X. apply in_map_iff in X as ([j v] & Ej & X). cbn [fst] in Ej. subst j.
    apply in_flat_map in X as (e & He & X). unfold put in X. destruct (id_at A s (snd e)) as [[j|]|] eqn:Q; [|destruct X|destruct X]; destruct X as [X|[]].
    injection X as -> _. exact (N e He Q).
Qed.

Lemma C47_coords_lemma : forall dim sz bg coordinates, good_size dim sz ->
  exists s, build_structure RA (Z.of_nat dim) sz = Ok s /\ square_grid (grid_size dim sz) s /\
    ((forall e, In e (listed coordinates) -> exists i, id_at RA s (snd e) = Ok (Some i)) ->
     exists st, setup_coords RA (Z.of_nat dim) sz bg coordinates = Ok (mkSim st s) /\
       configuration s st (fun i q => last_hit (fun c => id_at RA s c = Ok (Some i)) (listed coordinates) bg q)).
Proof.
  intros dim sz bg coordinates GS. destruct (setup_grid dim sz GS) as (s & L & Es & SG & G & PD & FL). exists s. split; auto. split; auto.
  apply (coords_run RA dim sz s L bg coordinates Es (gf_built _ _ _ G)).
Qed.

(** A point where there is no site. *)
Lemma coords_missing {F} (A : arith F) dim sz bg coordinates s : build_structure A (Z.of_nat dim) sz = Ok s ->
  (forall e, In e (listed coordinates) -> exists o, id_at A s (snd e) = Ok o) ->
  (exists e, In e (listed coordinates) /\ id_at A s (snd e) = Ok None) ->
  setup_coords A (Z.of_nat dim) sz bg coordinates = Err TypeError.
Proof.
  intros Es H (e & He & Ne). unfold setup_coords. rewrite Es. cbn [bind].
  set (st0 := setup_solid_phase s bg). clearbody st0.
  assert (T : forall cs p st, (forall c, In c cs -> exists o, id_at A s c = Ok o) ->
    (exists st', foldM (fun st coords => do x <- site_at A s coords;
        match x with None => Err TypeError | Some x => Ok (set_site_state st (KInt (s_id x)) (occ (VStr p))) end) cs st = Ok st' /\ forall c, In c cs -> id_at A s c <> Ok None) \/
    foldM (fun st coords => do x <- site_at A s coords;
        match x with None => Err TypeError | Some x => Ok (set_site_state st (KInt (s_id x)) (occ (VStr p))) end) cs st = Err TypeError).
  { induction cs as [|c cs IH]; intros p st Hc; cbn [foldM]; [left; eexists; split; [reflexivity|]; intros c []|].
    destruct (Hc c) as [o Eo]; [simpl; auto|]. unfold id_at in Eo. apply bind_Ok in Eo as (x & Ex & Eo). rewrite Ex. cbn [bind].
    destruct x as [x|]; [|right; reflexivity]. cbn [bind]. destruct (IH p (set_site_state st (KInt (s_id x)) (occ (VStr p)))) as [(st' & E' & K)|E'].
    - intros; apply Hc; simpl; auto.
    - left. exists st'. split; auto. intros d [<-|Hd]; auto. unfold id_at. rewrite Ex. discriminate.
    - right. exact E'. }
  assert (U : forall l st, (forall e, In e (listed l) -> exists o, id_at A s (snd e) = Ok o) -> (exists e, In e (listed l) /\ id_at A s (snd e) = Ok None) ->
    foldM (fun st pc => foldM (fun st coords => do x <- site_at A s coords;
        match x with None => Err TypeError | Some x => Ok (set_site_state st (KInt (s_id x)) (occ (VStr (fst pc)))) end) (snd pc) st) l st = Err TypeError).
  { induction l as [|pc l IH]; intros st K (e' & He' & Ne'); [destruct He'|]. cbn [foldM].
    assert (KI : forall c, In c (snd pc) -> In (fst pc, c) (listed (pc :: l))).
    { intros c Hc. apply in_flat_map. exists pc. split; [simpl; auto|]. now apply in_map. }
    destruct (T (snd pc) (fst pc) st) as [(st' & E' & M)|E'].
    - intros c Hc. exact (K _ (KI c Hc)).
    - rewrite E'. cbn [bind]. apply IH.
      + intros d Hd. apply K. unfold listed. cbn [flat_map]. apply in_or_app. auto.
      + unfold listed in He'. cbn [flat_map] in He'. apply in_app_or in He' as [He'|He']; [|eauto].
        apply in_map_iff in He' as (c & <- & Hc). exfalso. apply (M c Hc). exact Ne'.
    - rewrite E'. reflexivity. }
  rewrite U; eauto.
Qed.
Lemma C47_coords_missing_lemma : forall dim sz bg coordinates s, good_size dim sz -> build_structure RA (Z.of_nat dim) sz = Ok s ->
  (forall e, In e (listed coordinates) -> exists o, id_at RA s (snd e) = Ok o) ->
  (exists e, In e (listed coordinates) /\ id_at RA s (snd e) = Ok None) ->
  setup_coords RA (Z.of_nat dim) sz bg coordinates = Err TypeError.
Proof. intros dim sz bg coordinates s GS. apply (coords_missing RA). Qed.

(** * Noise *)
Lemma choice_in {B} (l : list B) k x : choice l k = Ok x -> In x l.
Proof. unfold choice. destruct (nth_error l (k mod length l)) eqn:E; [|discriminate]. intros H; injection H as <-. eapply nth_error_In; eauto. Qed.
Lemma choice_total {B} (l : list B) k : l <> [] -> exists x, choice l k = Ok x /\ In x l.
Proof.
  intros N. destruct (choice l k) as [x|e] eqn:E; [exists x; split; auto; eapply choice_in; eauto|].
  unfold choice in E. destruct (nth_error l (k mod length l)) eqn:Q; [discriminate|]. apply nth_error_None in Q.
  assert (length l <> 0%nat) as Ll by (destruct l; simpl; congruence). pose proof (Nat.mod_upper_bound k _ Ll). lia.
Qed.
Lemma choice_nth {B} (l : list B) k x : nth_error l k = Some x -> choice l k = Ok x.
Proof.
  intros E. unfold choice. rewrite Nat.mod_small; [now rewrite E|]. apply nth_error_Some. congruence.
Qed.
Lemma combine_seq_nth {B} (l : list B) k x : nth_error l k = Some x -> forall a, In ((a + k)%nat, x) (combine (seq a (length l)) l).
Proof.
  revert k. induction l as [|y l IH]; intros [|k] E a; simpl in *; try discriminate.
  - injection E as <-. left. f_equal. lia.
  - right. replace (a + S k)%nat with (S a + k)%nat by lia. auto.
Qed.
Lemma combine_seq_inv {B} (l : list B) a n x : In (n, x) (combine (seq a (length l)) l) -> (a <= n)%nat /\ nth_error l (n - a) = Some x.
Proof.
  revert a. induction l as [|y l IH]; intros a; simpl; [intros []|]. intros [E|H].
  - injection E as <- <-. rewrite Nat.sub_diag. auto.
  - apply IH in H as [H1 H2]. split; [lia|]. replace (n - a)%nat with (S (n - S a)) by lia. auto.
Qed.

Lemma noise_run {F} (A : arith F) dim sz phases rnd s L : phases <> [] -> build_structure A (Z.of_nat dim) sz = Ok s -> built A L s ->
  exists st, setup_noise A (Z.of_nat dim) sz phases rnd = Ok (mkSim st s) /\
    configuration s st (fun i q => choice phases (rnd (Z.to_nat i)) = Ok q).
Proof.
  intros NE Es HB. pose proof (built_dense A L s HB) as D. pose proof (dense_NoDup s None D) as ND.
  unfold setup_noise. rewrite Es. cbn [bind]. rewrite blank_layout by auto. set (xs := sites s None) in *.
  set (put := fun kx : nat * site F => match choice phases (rnd (fst kx)) with Ok p => [(s_id (snd kx), VStr p)] | _ => [] end).
  rewrite (foldM_puts _ put); auto.
  2:{ intros [k x] g Hx. unfold put. cbn [fst snd]. destruct (choice_total phases (rnd k) NE) as (p & E & _). rewrite E. cbn [bind].
      rewrite set_layout; auto. apply in_combine_r in Hx. now apply in_map. }
  cbn [bind]. eexists. split; [reflexivity|]. apply (config_layout A L); auto. intros i x Gx.
  destruct (built_inv A L s HB) as [h I]. apply (inv_get_site A L h s i x I) in Gx as [Hx <-].
  apply In_nth_error in Hx as [m Hm]. pose proof (dense_nth s m x D Hm) as Ei. rewrite Ei, Nat2Z.id.
  destruct (choice_total phases (rnd m) NE) as (p & E & _). exists p. split; auto. rewrite <- Ei.
  apply puts_unique.
  - assert (FE : forall l, map fst (flat_map put l) = map (fun kx => s_id (snd kx)) l).
    { induction l as [|[k y] l IH]; auto. cbn [flat_map map]. unfold put at 1. cbn [fst snd].
      destruct (choice_total phases (rnd k) NE) as (q & -> & _). cbn [app map fst]. now f_equal. }
    rewrite FE, <- (map_map snd s_id).
    replace (map snd (combine (seq 0 (length xs)) xs)) with xs; auto.
    generalize 0%nat as a. clear. induction xs as [|x xs IH]; intros a; simpl; auto. now f_equal.
  - apply in_flat_map. exists (m, x). split; [exact (combine_seq_nth xs m x Hm 0%nat)|]. unfold put. cbn [fst snd]. rewrite E. simpl; auto.
Qed.

Lemma config_weaken {F} (s : structure F) st (P Q : Z -> string -> Prop) : (forall i p, P i p -> Q i p) -> configuration s st P -> configuration s st Q.
Proof. intros H (A & B & C). split; auto. split; auto. intros i x Gx. destruct (C i x Gx) as (p & E & Hp). eauto. Qed.

Lemma C47_noise_lemma : forall dim sz phases, good_size dim sz -> phases <> [] ->
  exists s, square_grid (grid_size dim sz) s /\
    (forall rnd, exists st, setup_noise RA (Z.of_nat dim) sz phases rnd = Ok (mkSim st s) /\ configuration s st (fun _ q => In q phases)) /\
    (forall f, (forall i, In (f i) phases) -> exists rnd st, setup_noise RA (Z.of_nat dim) sz phases rnd = Ok (mkSim st s) /\
       configuration s st (fun i q => q = f i)).
Proof.
  intros dim sz phases GS NE. destruct (setup_grid dim sz GS) as (s & L & Es & SG & G & PD & FL). exists s. split; auto. split.
  - intros rnd. destruct (noise_run RA dim sz phases rnd s L NE Es (gf_built _ _ _ G)) as (st & E & C). exists st. split; auto.
    eapply config_weaken; [|exact C]. intros i p. apply choice_in.
  - intros f Hf.
    assert (X : forall l (p : string), In p l -> exists k, nth_error l k = Some p /\ find (fun k => match nth_error l k with Some q => eqb q p | None => false end) (seq 0 (length l)) <> None).
    { intros l p Hp. apply In_nth_error in Hp as [k Hk]. exists k. split; auto. intros F. eapply find_none in F; [|apply in_seq; split; [lia|simpl; apply nth_error_Some; rewrite Hk; discriminate]].
      rewrite Hk in F. rewrite eqb_refl in F. discriminate. }
    set (idx := fun p => match find (fun k => match nth_error phases k with Some q => eqb q p | None => false end) (seq 0 (length phases)) with Some k => k | None => 0%nat end).
    assert (I : forall p, In p phases -> nth_error phases (idx p) = Some p).
    { intros p Hp. destruct (X phases p Hp) as (k & _ & F). unfold idx. destruct (find _ _) as [j|] eqn:E; [|congruence].
      apply find_some in E as [_ E]. destruct (nth_error phases j) as [q|]; [|discriminate]. apply (proj1 (eqb_true q p)) in E. now rewrite E. }
    exists (fun k => idx (f (Z.of_nat k))). destruct (noise_run RA dim sz phases (fun k => idx (f (Z.of_nat k))) s L NE Es (gf_built _ _ _ G)) as (st & E & C).
    exists st. split; auto. destruct C as (C1 & C2 & C3). split; auto. split; auto. intros i x Gx. destruct (C3 i x Gx) as (p & Ep & Hp).
    exists p. split; auto. pose proof (gf_built _ _ _ G) as HB. destruct (built_inv RA L s HB) as [h II].
    apply (inv_get_site RA L h s i x II) in Gx as [Hx <-]. pose proof (dense_id s x (built_dense RA L s HB) Hx). rewrite Z2Nat.id in Hp by lia.
    rewrite (choice_nth _ _ _ (I _ (Hf (s_id x)))) in Hp. congruence.
Qed.

Lemma C47_noise_empty_lemma : forall dim sz rnd, good_size dim sz -> setup_noise RA (Z.of_nat dim) sz [] rnd = Err IndexError.
Proof.
  intros dim sz rnd GS. destruct (setup_grid dim sz GS) as (s & L & Es & SG & G & PD & FL). unfold setup_noise. rewrite Es. cbn [bind].
  pose proof (gf_count _ _ _ G) as C. destruct GS as (_ & _ & P). pose proof (prod_pos _ P). destruct (sites s None) as [|x xs]; [simpl in C; lia|].
  cbn [length seq combine foldM fst]. unfold choice. destruct (nth_error [] _) eqn:E; [apply nth_error_In in E; destruct E|reflexivity].
Qed.
