(** Moore, von Neumann and stochastic neighbourhoods on square grids. *)
From Coq Require Import Reals Lra Permutation.
From Verif Require Import Prelude Dict Arith RVec RealArith LatticeModel JsonModel StructModel NbModel GridModel
  SpecGeom SpecNb SpecGrid LatticeFacts LatticeMore StructFacts StructMore StructBuild NbFacts NbMore NbDemo GridFacts GridMore.
Local Open Scope Z_scope.

(* ---------------------------------------------------------------- C67 *)
Lemma C67_exists_lemma : forall size, Forall (fun k => 0 < k) size -> length size = 2%nat \/ length size = 3%nat ->
  exists s, square_grid size s.
Proof.
  intros size P [D|D].
  - destruct (square_exists size P D) as (b & s & L & E & B & _). exists s. split; auto. left. eauto.
  - destruct (cube_exists size P D) as (b & s & L & E & B & _). exists s. split; auto. right. eauto.
Qed.
Lemma C67_lemma : forall size s, square_grid size s ->
  Z.of_nat (length (sites s None)) = fold_right Z.mul 1 size /\
  (forall p, length p = length size -> exists i, cell s p i) /\
  (forall p q i j, length p = length size -> length q = length size -> cell s p i -> cell s q j ->
     (i = j <-> same_cell (extents size) p q)) /\
  (forall i x, get_site s i = Some x -> exists p, length p = length size /\
     Forall2 (fun a m => 0 <= a < m) p (extents size) /\ s_loc x = at_ p /\ cell s p i /\ s_class x = "_A"%string) /\
  (forall p i, length p = length size -> cell s p i -> get_site s i <> None).
Proof.
  intros size s SG. destruct (square_facts size s SG) as [L G]. split; [apply (gf_count _ _ _ G)|].
  split; [intros p Lp; eexists; now apply (gf_cell _ _ _ G)|]. split; [intros; now apply (cell_iff size s L)|].
  split; [intros i x; now apply (site_cell size s L)|].
  intros p i Lp Cp. pose proof (gf_cell _ _ _ G p Lp) as C. unfold cell in *. rewrite Cp in C. injection C as ->.
  rewrite (gf_site _ _ _ G); [discriminate|]. apply wrap_cells; [apply (gf_pos _ _ _ G)|now rewrite extents_length].
Qed.

(* ---------------------------------------------------------------- offsets *)
Lemma moore_points r dim d : In d (get_points_in_cube (- r) (r + 1) dim) <-> length d = dim /\ within_moore r d.
Proof.
  destruct (C46_lemma [] [] eq_refl) as (_ & _ & _ & H). rewrite H. unfold within_moore.
  split; intros [L F]; (split; [auto|]); (eapply Forall_impl; [|exact F]); simpl; intros; lia.
Qed.
Lemma abs_sum_eq d : abs_sum d = fold_right (fun a t => Z.abs a + t) 0 d.
Proof. unfold abs_sum. induction d; simpl; auto. now rewrite IHd. Qed.
Lemma vn_moore r d : within_vn r d -> within_moore r d.
Proof.
  unfold within_vn, within_moore. intros H.
  assert (P : forall d, 0 <= fold_right (fun a t => Z.abs a + t) 0 d) by (induction d0; simpl; lia).
  revert r H; induction d as [|a d IH]; intros r H; constructor; simpl in H.
  - specialize (P d). lia.
  - eapply Forall_impl; [|apply (IH (r - Z.abs a)); lia]. simpl; intros; lia.
Qed.
Lemma vn_points r dim d : In d (von_neumann_points r dim) <-> length d = dim /\ within_vn r d.
Proof.
  unfold von_neumann_points. rewrite filter_In, moore_points, abs_sum_eq. unfold within_vn. split.
  - intros [[L _] H]. split; auto. lia.
  - intros [L H]. split; [split; [auto|now apply vn_moore]|lia].
Qed.
Lemma cube_NoDup a b dim : NoDup (get_points_in_cube a b dim).
Proof. destruct (C46_lemma (repeat a dim) (repeat b dim)) as (_ & H & _); auto. now rewrite !repeat_length. Qed.

Lemma torus_motif size s L D (P : list Z -> Prop) : grid_facts size s L ->
  (forall d, In d D <-> length d = length size /\ P d) ->
  exists b N, motif_builder RA (map (nums RA) D) = Ok b /\ nb_get RA b s None = Ok N /\ torus_nb size s P N.
Proof.
  intros G HD. destruct (grid_motif size s L D G) as (b & N & Eb & EN & H).
  { apply Forall_forall. intros d Hd. now apply HD in Hd. }
  exists b, N. split; auto. split; auto. intros x i Lx Cx o Lo. destruct (H x i Lx Cx o Lo) as (l & El & ND & IN).
  exists l. split; auto. split; auto. intros j. rewrite IN. split; intros (Nj & d & R); (split; [auto|]); exists d.
  - destruct R as [Hd C]. apply HD in Hd as [Hd Pd]. auto.
  - destruct R as (Ld & Pd & C). split; auto. now apply HD.
Qed.
Lemma torus_count size s L D (P : list Z -> Prop) (N : nbhood R) r i x (o : @nb_oracle R) l : grid_facts size s L ->
  (forall d, In d D <-> length d = length size /\ P d) -> NoDup D -> (forall d, P d -> within_moore r d) ->
  Forall (fun m => 2 * r + 1 <= m) size -> torus_nb size s P N -> get_site s i = Some x -> legal o -> neighbors_of o N i = Ok l ->
  length l = length (filter (fun d => negb (forallb (Z.eqb 0) d)) D).
Proof.
  intros G HD ND PB BS TN Gx Lo El. destruct (site_cell _ _ _ _ _ G Gx) as (p & Lp & _ & _ & Cp & _).
  apply (grid_motif_count size s L D N r p i o l G); auto.
  - apply Forall_forall. intros d Hd. now apply HD in Hd.
  - apply Forall_forall. intros d Hd. apply HD in Hd. now apply PB.
  - intros o' Lo'. destruct (TN p i Lp Cp o' Lo') as (l' & El' & ND' & IN). exists l'. split; auto. split; auto.
    intros j. rewrite IN. split; intros (Nj & d & R); (split; [auto|]); exists d.
    + destruct R as (Ld & Pd & C). split; auto. now apply HD.
    + destruct R as [Hd C]. apply HD in Hd as [Hd Pd]. auto.
Qed.
Lemma one_zero D dim : NoDup D -> (forall d, In d D -> length d = dim) -> In (repeat 0 dim) D ->
  length D = S (length (filter (fun d => negb (forallb (Z.eqb 0) d)) D)).
Proof.
  intros ND HL H0. assert (Z1 : forallb (Z.eqb 0) (repeat 0 dim) = true) by (clear; induction dim; auto).
  assert (Z2 : forall d, length d = dim -> forallb (Z.eqb 0) d = true -> d = repeat 0 dim).
  { clear. induction dim as [|n IH]; destruct d as [|a d]; intros L E; try discriminate; auto.
    cbn [forallb] in E. apply andb_prop in E as [E1 E2]. apply Z.eqb_eq in E1. subst a. simpl. f_equal. apply IH; auto. }
  induction D as [|d D IH]; [contradiction|]. inversion ND as [|? ? NI ND']; subst. cbn [filter length].
  destruct (forallb (Z.eqb 0) d) eqn:E; cbn [negb].
  - apply Z2 in E; [|apply HL; simpl; auto]. subst d. f_equal.
    assert (F : forall D', (forall d, In d D' -> length d = dim) -> ~ In (repeat 0 dim) D' -> filter (fun d => negb (forallb (Z.eqb 0) d)) D' = D').
    { induction D' as [|d D' IH']; intros HL' NI'; auto. cbn [filter]. destruct (forallb (Z.eqb 0) d) eqn:E; cbn [negb].
      - apply Z2 in E; [|apply HL'; simpl; auto]. subst d. exfalso. apply NI'. simpl; auto.
      - f_equal. apply IH'; [intros; apply HL'; simpl; auto|]. intros X. apply NI'. simpl; auto. }
    rewrite F; auto. intros; apply HL; simpl; auto.
  - destruct H0 as [->|H0]; [congruence|]. cbn [length]. f_equal. apply IH; auto. intros; apply HL; simpl; auto.
Qed.

(* counting *)
Lemma flat_map_const_length {B C} (f : B -> list C) n l : (forall b, In b l -> length (f b) = n) -> length (flat_map f l) = (length l * n)%nat.
Proof. induction l; simpl; intros H; auto. rewrite app_length, H, IHl; auto. Qed.
Lemma cube_count r dim : 0 <= r -> Z.of_nat (length (get_points_in_cube (- r) (r + 1) dim)) = (2 * r + 1) ^ Z.of_nat dim.
Proof.
  intros Hr. unfold get_points_in_cube, get_points_in_box. induction dim as [|n IH]; [reflexivity|]. cbn [repeat zipwith product].
  rewrite (flat_map_const_length _ (length (product (zipwith zrange (repeat (- r) n) (repeat (r + 1) n))))) by (intros; apply map_length).
  rewrite Nat2Z.inj_mul, IH. unfold zrange at 1. rewrite map_length, seq_length. rewrite Nat2Z.inj_succ, Z.pow_succ_r by lia. lia.
Qed.

Definition zsum (l : list Z) : Z := fold_right Z.add 0 l.
Lemma zsum_app a b : zsum (a ++ b) = zsum a + zsum b.
Proof. unfold zsum. induction a; simpl; auto. rewrite IHa. lia. Qed.
Lemma zrange_snoc a b : a <= b -> zrange a (b + 1) = zrange a b ++ [b].
Proof.
  intros H. unfold zrange. replace (Z.to_nat (b + 1 - a)) with (Z.to_nat (b - a) + 1)%nat by lia. rewrite seq_app, map_app. simpl. do 2 f_equal. lia.
Qed.
Lemma sym_sum h r : 0 <= r -> zsum (map (fun a => h (Z.abs a)) (zrange (- r) (r + 1))) = h 0 + 2 * zsum (map h (zrange 1 (r + 1))).
Proof.
  intros Hr. pattern r. apply natlike_ind; [| |exact Hr]; clear r Hr.
  - reflexivity.
  - intros r Hr IH. replace (Z.succ r) with (r + 1) by lia. rewrite (zrange_snoc (- (r + 1)) (r + 1)) by lia. rewrite (zrange_cons (- (r + 1)) (r + 1)) by lia.
    replace (- (r + 1) + 1) with (- r) by lia. rewrite map_app. cbn [map]. rewrite zsum_app. cbn [map].
    rewrite (zrange_snoc 1 (r + 1)) by lia. rewrite map_app, zsum_app. unfold zsum at 1 2 4. cbn [fold_right map]. fold (zsum (map (fun a => h (Z.abs a)) (zrange (- r) (r + 1)))).
    rewrite IH. replace (Z.abs (- (r + 1))) with (r + 1) by lia. replace (Z.abs (r + 1)) with (r + 1) by lia. lia.
Qed.
(** Sums over a budget [k] inside a box of half width [r]. *)
Lemma budget_sum g r k : (forall t, t < 0 -> g t = 0) -> 0 <= k <= r ->
  zsum (map (fun a => g (k - Z.abs a)) (zrange (- r) (r + 1))) = g k + 2 * zsum (map g (zrange 0 k)).
Proof.
  intros G0 [K0 Kr]. rewrite (sym_sum (fun t => g (k - t))) by lia. rewrite Z.sub_0_r. do 2 f_equal.
  assert (E : forall m, 0 <= m -> k + m = r -> zsum (map (fun t => g (k - t)) (zrange 1 (r + 1))) = zsum (map (fun t => g (k - t)) (zrange 1 (k + 1)))).
  { intros m Hm. revert r Kr. pattern m. apply natlike_ind; [| |exact Hm]; clear m Hm.
    - intros r _ E. replace r with k by lia. auto.
    - intros m Hm IH r Kr E. rewrite zrange_snoc by lia. rewrite map_app, zsum_app. cbn [map]. rewrite (G0 (k - r)) by lia.
      replace r with (r - 1 + 1) at 1 by lia. rewrite (IH (r - 1)) by lia. unfold zsum at 2. simpl. lia. }
  rewrite (E (r - k)) by lia. clear E r Kr. clear G0. pattern k. apply natlike_ind; [| |exact K0]; clear k K0.
  - reflexivity.
  - intros k K0 IH. replace (Z.succ k) with (k + 1) by lia. rewrite (zrange_snoc 0 k) by lia. rewrite map_app, zsum_app.
    rewrite (zrange_cons 1 (k + 1 + 1)) by lia. cbn [map]. rewrite <- IH. unfold zsum at 1 3. cbn [fold_right]. fold (zsum (map (fun t => g (k + 1 - t)) (zrange (1 + 1) (k + 1 + 1)))).
    replace (k + 1 - 1) with k by lia.
    assert (E : map (fun t => g (k + 1 - t)) (zrange (1 + 1) (k + 1 + 1)) = map (fun t => g (k - t)) (zrange 1 (k + 1))).
    { unfold zrange. rewrite !map_map. replace (Z.to_nat (k + 1 + 1 - (1 + 1))) with (Z.to_nat (k + 1 - 1)) by lia. apply map_ext. intros; f_equal; lia. }
    rewrite E. lia.
Qed.

Definition vn_count (r : Z) (dim : nat) (k : Z) : Z :=
  Z.of_nat (length (filter (fun p => abs_sum p <=? k) (get_points_in_cube (- r) (r + 1) dim))).
Lemma filter_flat_map {B C} (p : C -> bool) (f : B -> list C) l : filter p (flat_map f l) = flat_map (fun x => filter p (f x)) l.
Proof. induction l; simpl; auto. now rewrite filter_app, IHl. Qed.
Lemma filter_map {B C} (p : C -> bool) (f : B -> C) l : filter p (map f l) = map f (filter (fun x => p (f x)) l).
Proof. induction l as [|a l IH]; simpl; auto. destruct (p (f a)); simpl; now rewrite IH. Qed.
Lemma vn_count_S r dim k : vn_count r (S dim) k = zsum (map (fun a => vn_count r dim (k - Z.abs a)) (zrange (- r) (r + 1))).
Proof.
  unfold vn_count at 1, get_points_in_cube, get_points_in_box. cbn [repeat zipwith product]. rewrite filter_flat_map.
  induction (zrange (- r) (r + 1)) as [|a l IH]; [reflexivity|]. cbn [flat_map map]. rewrite app_length, Nat2Z.inj_add, IH.
  unfold zsum at 2. cbn [fold_right]. fold (zsum (map (fun a => vn_count r dim (k - Z.abs a)) l)). f_equal.
  rewrite filter_map, map_length. unfold vn_count, get_points_in_cube, get_points_in_box. f_equal. f_equal. apply filter_ext.
  intros p. unfold abs_sum. simpl. lia.
Qed.
Lemma abs_sum_nonneg p : 0 <= abs_sum p.
Proof. unfold abs_sum. induction p; simpl; lia. Qed.
Lemma vn_count_neg r dim k : k < 0 -> vn_count r dim k = 0.
Proof.
  intros H. unfold vn_count. replace (filter _ _) with (@nil (list Z)); auto. generalize (get_points_in_cube (- r) (r + 1) dim).
  induction l as [|p l IH]; simpl; auto. pose proof (abs_sum_nonneg p). replace (abs_sum p <=? k) with false by lia. auto.
Qed.
Lemma vn_count_0 r k : 0 <= k -> vn_count r 0 k = 1.
Proof. intros H. unfold vn_count, get_points_in_cube, get_points_in_box. simpl. unfold abs_sum; simpl. now replace (0 <=? k) with true by lia. Qed.
Lemma sum_upto (g : Z -> Z) (S : Z -> Z) r k : S 0 = 0 -> (forall t, 0 <= t -> t < r -> g t = S (t + 1) - S t) -> 0 <= k <= r ->
  zsum (map g (zrange 0 k)) = S k.
Proof.
  intros S0 HS [K0 Kr]. revert Kr. pattern k. apply natlike_ind; [| |exact K0]; clear k K0; [auto|].
  intros k K0 IH Kr. replace (Z.succ k) with (k + 1) in * by lia. rewrite zrange_snoc by lia. rewrite map_app, zsum_app, IH by lia.
  cbn [map]. unfold zsum. cbn [fold_right]. rewrite HS by lia. lia.
Qed.
Lemma vn_count_1 r k : 0 <= k <= r -> vn_count r 1 k = 2 * k + 1.
Proof.
  intros H. rewrite vn_count_S, (budget_sum (vn_count r 0)) by (auto using vn_count_neg). rewrite vn_count_0 by lia.
  rewrite (sum_upto _ (fun k => k) r); auto; [lia|]. intros. rewrite vn_count_0 by lia. lia.
Qed.
Lemma vn_count_2 r k : 0 <= k <= r -> vn_count r 2 k = 2 * k * (k + 1) + 1.
Proof.
  intros H. rewrite vn_count_S, (budget_sum (vn_count r 1)) by (auto using vn_count_neg). rewrite vn_count_1 by lia.
  rewrite (sum_upto _ (fun k => k * k) r); auto; [lia|]. intros. rewrite vn_count_1 by lia. lia.
Qed.
Lemma vn_count_3 r k : 0 <= k <= r -> 3 * vn_count r 3 k = (2 * k + 1) * (2 * k * k + 2 * k + 3).
Proof.
  intros H. rewrite vn_count_S, (budget_sum (vn_count r 2)) by (auto using vn_count_neg). rewrite vn_count_2 by lia.
  assert (E : 3 * zsum (map (vn_count r 2) (zrange 0 k)) = k * (2 * k * k + 1)); [|lia].
  destruct H as [K0 Kr]. revert Kr. pattern k. apply natlike_ind; [| |exact K0]; clear k K0; [auto|].
  intros k K0 IH Kr. replace (Z.succ k) with (k + 1) in * by lia. rewrite zrange_snoc by lia. rewrite map_app, zsum_app.
  cbn [map]. unfold zsum at 2. cbn [fold_right]. rewrite vn_count_2 by lia. rewrite Z.mul_add_distr_l, IH by lia. lia.
Qed.

(* ---------------------------------------------------------------- C41 *)
Lemma moore_zero r dim : 0 <= r -> within_moore r (repeat 0 dim).
Proof. intros H. unfold within_moore. induction dim; simpl; constructor; auto. Qed.
Lemma vn_zero r dim : 0 <= r -> within_vn r (repeat 0 dim).
Proof. intros H. unfold within_vn. assert (E : fold_right (fun a t => Z.abs a + t) 0 (repeat 0 dim) = 0) by (induction dim; simpl; auto). lia. Qed.

Lemma C41_moore_lemma : forall size s r, square_grid size s ->
  exists b N, MooreNbHoodBuilder RA r (length size) = Ok b /\ nb_get RA b s None = Ok N /\
    torus_nb size s (within_moore r) N /\
    (0 <= r -> Forall (fun m => 2 * r + 1 <= m) size -> forall i x o l, get_site s i = Some x -> legal o -> neighbors_of o N i = Ok l ->
       Z.of_nat (length l) = (2 * r + 1) ^ Z.of_nat (length size) - 1).
Proof.
  intros size s r SG. destruct (square_facts size s SG) as [L G].
  destruct (torus_motif size s L (get_points_in_cube (- r) (r + 1) (length size)) (within_moore r) G) as (b & N & Eb & EN & TN).
  { intros d. apply moore_points. }
  exists b, N. split; auto. split; auto. split; auto. intros Hr BS i x o l Gx Lo El.
  erewrite (torus_count size s L (get_points_in_cube (- r) (r + 1) (length size)) (within_moore r) N r i x o l G); eauto using cube_NoDup.
  2:{ intros d. apply moore_points. }
  pose proof (one_zero (get_points_in_cube (- r) (r + 1) (length size)) (length size) (cube_NoDup _ _ _)) as OZ.
  pose proof (cube_count r (length size) Hr) as CC. rewrite OZ in CC; [lia| |].
  - intros d Hd. now apply moore_points in Hd.
  - apply moore_points. split; [apply repeat_length|now apply moore_zero].
Qed.

Lemma vn_general size s r : square_grid size s ->
  exists b N, motif_builder RA (map (nums RA) (von_neumann_points r (length size))) = Ok b /\ nb_get RA b s None = Ok N /\
    torus_nb size s (within_vn r) N /\
    (0 <= r -> Forall (fun m => 2 * r + 1 <= m) size -> forall i x o l, get_site s i = Some x -> legal o -> neighbors_of o N i = Ok l ->
       Z.of_nat (length l) = vn_count r (length size) r - 1).
Proof.
  intros SG. destruct (square_facts size s SG) as [L G].
  destruct (torus_motif size s L (von_neumann_points r (length size)) (within_vn r) G) as (b & N & Eb & EN & TN).
  { intros d. apply vn_points. }
  assert (ND : NoDup (von_neumann_points r (length size))) by (apply NoDup_filter, cube_NoDup).
  exists b, N. split; auto. split; auto. split; auto. intros Hr BS i x o l Gx Lo El.
  erewrite (torus_count size s L (von_neumann_points r (length size)) (within_vn r) N r i x o l G); eauto using vn_moore.
  2:{ intros d. apply vn_points. }
  unfold vn_count. fold (von_neumann_points r (length size)). rewrite (one_zero (von_neumann_points r (length size)) (length size) ND); [lia| |].
  - intros d Hd. now apply vn_points in Hd.
  - apply vn_points. split; [apply repeat_length|now apply vn_zero].
Qed.

Lemma C41_von_neumann_lemma : forall size s r, square_grid size s ->
  (length size = 2%nat -> exists b N, VonNeumannNbHood2DBuilder RA r = Ok b /\ nb_get RA b s None = Ok N /\
    torus_nb size s (within_vn r) N /\
    (0 <= r -> Forall (fun m => 2 * r + 1 <= m) size -> forall i x o l, get_site s i = Some x -> legal o -> neighbors_of o N i = Ok l ->
       Z.of_nat (length l) = 2 * r * (r + 1))) /\
  (length size = 3%nat -> exists b N, VonNeumannNbHood3DBuilder RA r = Ok b /\ nb_get RA b s None = Ok N /\
    torus_nb size s (within_vn r) N /\
    (0 <= r -> Forall (fun m => 2 * r + 1 <= m) size -> forall i x o l, get_site s i = Some x -> legal o -> neighbors_of o N i = Ok l ->
       3 * Z.of_nat (length l) = (2 * r + 1) * (2 * r * r + 2 * r + 3) - 3)).
Proof.
  intros size s r SG. destruct (vn_general size s r SG) as (b & N & Eb & EN & TN & CNT).
  split; intros D; rewrite D in *; exists b, N; (split; [exact Eb|]); (split; [auto|]); (split; [auto|]); intros Hr BS i x o l Gx Lo El;
    specialize (CNT Hr BS i x o l Gx Lo El).
  - rewrite CNT, vn_count_2 by lia. lia.
  - pose proof (vn_count_3 r r). lia.
Qed.

(** Symmetry and translation invariance follow for every symmetric set of offsets. *)
Lemma grid_builder_torus size s r b N : square_grid size s -> grid_builder size r b -> nb_get RA b s None = Ok N ->
  torus_nb size s (within_moore r) N \/ torus_nb size s (within_vn r) N.
Proof.
  intros SG [E|[[D E]|[D E]]] EN.
  - left. destruct (C41_moore_lemma size s r SG) as (b' & N' & Eb & EN' & T & _). assert (b = b') by congruence. subst. assert (N = N') by congruence. now subst.
  - right. destruct (C41_von_neumann_lemma size s r SG) as [H _]. destruct (H D) as (b' & N' & Eb & EN' & T & _). assert (b = b') by congruence. subst. assert (N = N') by congruence. now subst.
  - right. destruct (C41_von_neumann_lemma size s r SG) as [_ H]. destruct (H D) as (b' & N' & Eb & EN' & T & _). assert (b = b') by congruence. subst. assert (N = N') by congruence. now subst.
Qed.
Lemma moore_opp r d : within_moore r d -> within_moore r (map Z.opp d).
Proof. unfold within_moore. rewrite Forall_map. apply Forall_impl. intros; lia. Qed.
Lemma vn_opp r d : within_vn r d -> within_vn r (map Z.opp d).
Proof. unfold within_vn. replace (fold_right _ 0 (map Z.opp d)) with (fold_right (fun a t => Z.abs a + t) 0 d); auto. induction d; simpl; lia. Qed.
Lemma shift_opp x d : length d = length x -> shift (shift x d) (map Z.opp d) = x.
Proof. unfold shift. revert d; induction x; destruct d; simpl; intros; try discriminate; auto. f_equal; auto. lia. Qed.
Lemma shift_comm x d t : shift (shift x d) t = shift (shift x t) d.
Proof. unfold shift. revert d t; induction x; destruct d, t; simpl; auto. f_equal; auto. lia. Qed.

Lemma torus_sym size s (P : list Z -> Prop) (N : nbhood R) (o : @nb_oracle R) i j l l' : square_grid size s -> (forall d, P d -> P (map Z.opp d)) ->
  torus_nb size s P N -> legal o -> get_site s i <> None -> get_site s j <> None ->
  neighbors_of o N i = Ok l -> neighbors_of o N j = Ok l' -> In j l -> In i l'.
Proof.
  intros SG OP TN Lo Gi Gj El El' Hj. destruct (square_facts size s SG) as [L G].
  destruct (get_site s i) as [x|] eqn:Gx; [|congruence]. destruct (get_site s j) as [y|] eqn:Gy; [|congruence].
  destruct (site_cell _ _ _ _ _ G Gx) as (p & Lp & _ & _ & Cp & _). destruct (site_cell _ _ _ _ _ G Gy) as (q & Lq & _ & _ & Cq & _).
  destruct (TN p i Lp Cp o Lo) as (m & Em & _ & IN). rewrite El in Em. injection Em as <-.
  apply IN in Hj as (Nj & d & Ld & Pd & C).
  assert (Ls : length (shift p d) = length size) by (rewrite shift_length; congruence).
  destruct (TN (shift p d) j Ls C o Lo) as (m & Em & _ & IN'). rewrite El' in Em. injection Em as <-.
  apply IN'. split; auto. exists (map Z.opp d). rewrite map_length. split; auto. split; auto. rewrite shift_opp by congruence. auto.
Qed.
Lemma torus_trans size s (P : list Z -> Prop) (N : nbhood R) (o : @nb_oracle R) p q t i j i' j' l l' : square_grid size s ->
  torus_nb size s P N -> legal o -> length p = length size -> length q = length size -> length t = length size ->
  cell s p i -> cell s q j -> cell s (shift p t) i' -> cell s (shift q t) j' ->
  neighbors_of o N i = Ok l -> neighbors_of o N i' = Ok l' -> In j l -> In j' l'.
Proof.
  intros SG TN Lo Lp Lq Lt Ci Cj Ci' Cj' El El' Hj. destruct (square_facts size s SG) as [L G].
  destruct (TN p i Lp Ci o Lo) as (m & Em & _ & IN). rewrite El in Em. injection Em as <-.
  assert (Lpt : length (shift p t) = length size) by (rewrite shift_length; congruence).
  assert (Lqt : length (shift q t) = length size) by (rewrite shift_length; congruence).
  destruct (TN (shift p t) i' Lpt Ci' o Lo) as (m & Em & _ & IN'). rewrite El' in Em. injection Em as <-.
  apply IN in Hj as (Nj & d & Ld & Pd & C). apply IN'.
  assert (Lpd : length (shift p d) = length size) by (rewrite shift_length; congruence).
  assert (SC : same_cell (extents size) (shift p d) q) by (apply (cell_iff size s L _ _ j j G); auto).
  split.
  - intros E. apply Nj. apply (cell_iff size s L q p j i G); auto. apply same_cell_sym. subst j'.
    assert (SC' : same_cell (extents size) (shift p t) (shift q t)) by (apply (cell_iff size s L _ _ i' i' G); auto).
    apply (same_shift _ _ _ (map Z.opp t)) in SC'; [|rewrite map_length, extents_length; auto]. rewrite !shift_opp in SC' by congruence. auto.
  - exists d. split; auto. split; auto. rewrite <- shift_comm. apply (cell_same size s L (shift q t)); auto.
    apply same_cell_sym. apply same_shift; auto. now rewrite extents_length.
Qed.

Lemma C41_symmetric_lemma : forall size s r b N o, square_grid size s -> grid_builder size r b -> nb_get RA b s None = Ok N -> legal o ->
  (forall i j l l', get_site s i <> None -> get_site s j <> None -> neighbors_of o N i = Ok l -> neighbors_of o N j = Ok l' ->
     (In j l <-> In i l')) /\
  (forall p q t i j i' j' l l', length p = length size -> length q = length size -> length t = length size ->
     cell s p i -> cell s q j -> cell s (shift p t) i' -> cell s (shift q t) j' ->
     neighbors_of o N i = Ok l -> neighbors_of o N i' = Ok l' -> (In j l <-> In j' l')).
Proof.
  intros size s r b N o SG GB EN Lo.
  assert (exists P : list Z -> Prop, (forall d, P d -> P (map Z.opp d)) /\ torus_nb size s P N) as (P & OP & T).
  { destruct (grid_builder_torus size s r b N SG GB EN) as [T|T]; [exists (within_moore r)|exists (within_vn r)]; auto using moore_opp, vn_opp. }
  split.
  - intros i j l l' Gi Gj El El'. split; [apply (torus_sym size s P N o i j l l')|apply (torus_sym size s P N o j i l' l)]; auto.
  - intros p q t i j i' j' l l' Lp Lq Lt Ci Cj Ci' Cj' El El'. split; [apply (torus_trans size s P N o p q t i j i' j' l l'); auto|].
    assert (Lpt : length (shift p t) = length size) by (rewrite shift_length; congruence).
    assert (Lqt : length (shift q t) = length size) by (rewrite shift_length; congruence).
    apply (torus_trans size s P N o (shift p t) (shift q t) (map Z.opp t) i' j' i j l' l); auto; [now rewrite map_length| |];
      rewrite shift_opp by congruence; auto.
Qed.

(* ---------------------------------------------------------------- C42, second half *)
Lemma mapM_nth {B C} (f : B -> res C) l ys : mapM f l = Ok ys -> forall k y, nth_error ys k = Some y -> exists x, nth_error l k = Some x /\ f x = Ok y.
Proof.
  revert ys; induction l as [|a l IH]; intros ys E; cbn [mapM] in E.
  - injection E as <-. intros [|k]; discriminate.
  - apply bind_Ok in E as (y & Ey & E). apply bind_Ok in E as (t & Et & E). injection E as <-.
    intros [|k] z Hk; simpl in *; [injection Hk as <-; eauto|eauto].
Qed.
Lemma mapM_total {B C} (f : B -> res C) l : (forall x, In x l -> exists y, f x = Ok y) -> exists ys, mapM f l = Ok ys.
Proof.
  induction l as [|a l IH]; intros H; [exists []; reflexivity|]. destruct (H a) as [y E]; [simpl; auto|].
  destruct IH as [ys E']; [intros; apply H; simpl; auto|]. exists (y :: ys). cbn [mapM]. rewrite E. cbn [bind]. rewrite E'. reflexivity.
Qed.
Lemma stochastic_get {F} (A : arith F) (s : structure F) bs : (forall b, In b bs -> exists N, nb_get A b s None = Ok N) -> exists N, nb_get A (BStochastic bs) s None = Ok N.
Proof.
  intros H. cbn [nb_get]. match goal with |- exists N, bind ?e _ = _ => assert (exists l, e = Ok l) as [l ->] end; [|eexists; reflexivity].
  induction bs as [|b bs IH]; [eexists; reflexivity|]. destruct (H b) as [N E]; [simpl; auto|]. rewrite E. cbn [bind].
  destruct IH as [l ->]; [intros; apply H; simpl; auto|]. eexists; reflexivity.
Qed.

Lemma stochastic_count size s motifs n : square_grid size s -> Forall (fun m => 3 <= m) size -> motifs <> [] ->
  (forall D, In D motifs -> NoDup D /\ length D = n /\ Forall (fun d => length d = length size /\ within_moore 1 d /\ forallb (Z.eqb 0) d = false) D) ->
  exists b N, stochastic_motifs RA motifs = Ok b /\ nb_get RA b s None = Ok N /\
    forall i x o, get_site s i = Some x -> legal o -> exists l, neighbors_of o N i = Ok l /\ NoDup l /\ length l = n.
Proof.
  intros SG BS NE HM. destruct (square_facts size s SG) as [L G].
  assert (ONE : forall D, In D motifs -> exists b N, motif_builder RA (map (nums RA) D) = Ok b /\ nb_get RA b s None = Ok N /\
     forall i x o, get_site s i = Some x -> legal o -> exists l, neighbors_of o N i = Ok l /\ NoDup l /\ length l = n).
  { intros D HD. destruct (HM D HD) as (ND & LD & FD). rewrite Forall_forall in FD.
    assert (FL : Forall (fun d => length d = length size) D) by (apply Forall_forall; intros d Hd; now apply FD).
    destruct (grid_motif size s L D G FL) as (b & N & Eb & EN & H). exists b, N. split; auto. split; auto.
    intros i x o Gx Lo. destruct (site_cell _ _ _ _ _ G Gx) as (p & Lp & _ & _ & Cp & _). pose proof (H p i Lp Cp) as HN.
    destruct (HN o Lo) as (l & El & NDl & _). exists l. split; auto. split; auto.
    rewrite (grid_motif_count size s L D N 1 p i o l G); auto.
    - rewrite <- LD. clear -FD. induction D as [|d D IH]; auto. cbn [filter]. destruct (FD d) as (_ & _ & E); [simpl; auto|]. rewrite E. cbn [negb length].
      rewrite IH; auto. intros; apply FD; simpl; auto.
    - apply Forall_forall. intros d Hd. now apply FD. }
  destruct (mapM_total (fun m => motif_builder RA (map (nums RA) m)) motifs) as [bs Ebs].
  { intros D HD. destruct (ONE D HD) as (b & _ & E & _). eauto. }
  assert (BSN : forall b, In b bs -> exists N, nb_get RA b s None = Ok N /\ forall i x o, get_site s i = Some x -> legal o ->
     exists l, neighbors_of o N i = Ok l /\ NoDup l /\ length l = n).
  { intros b Hb. apply In_nth_error in Hb as [k Hk]. destruct (mapM_nth _ _ _ Ebs k b Hk) as (D & HD & E). apply nth_error_In in HD.
    destruct (ONE D HD) as (b' & N & E' & EN & H). assert (b = b') by congruence. subst. eauto. }
  destruct (stochastic_get RA s bs) as [N EN].
  { intros b Hb. destruct (BSN b Hb) as (N & E & _). eauto. }
  exists (BStochastic bs), N. split; [unfold stochastic_motifs; rewrite Ebs; reflexivity|]. split; auto. intros i x o Gx Lo.
  destruct (C42_lemma R RA s bs N o i EN Lo) as [_ H]. destruct H as (k & b & M & Hk & EM & E1 & _).
  { intros ->. destruct motifs; [congruence|]. cbn [mapM] in Ebs. apply bind_Ok in Ebs as (? & _ & Ebs). apply bind_Ok in Ebs as (? & _ & Ebs). discriminate. }
  destruct (BSN b) as (M' & EM' & HM'); [eapply nth_error_In; eauto|]. rewrite EM in EM'. injection EM' as <-. rewrite E1. eauto.
Qed.

Ltac motif_case := 
  split; [repeat (constructor; [simpl; intuition discriminate|]); constructor|]; split; [reflexivity|];
  repeat (constructor; [split; [reflexivity|split; [repeat (constructor; [lia|]); constructor|reflexivity]]|]); constructor.
Lemma C42_counts_lemma : forall size s, square_grid size s -> Forall (fun m => 3 <= m) size ->
  (length size = 2%nat ->
     (exists b N, PseudoHexagonalNeighborhoodBuilder2D RA = Ok b /\ nb_get RA b s None = Ok N /\
        forall i x o, get_site s i = Some x -> legal o -> exists l, neighbors_of o N i = Ok l /\ NoDup l /\ length l = 6%nat) /\
     (exists b N, PseudoPentagonalNeighborhoodBuilder RA = Ok b /\ nb_get RA b s None = Ok N /\
        forall i x o, get_site s i = Some x -> legal o -> exists l, neighbors_of o N i = Ok l /\ NoDup l /\ length l = 5%nat)) /\
  (length size = 3%nat ->
     exists b N, PseudoHexagonalNeighborhoodBuilder3D RA = Ok b /\ nb_get RA b s None = Ok N /\
        forall i x o, get_site s i = Some x -> legal o -> exists l, neighbors_of o N i = Ok l /\ NoDup l /\ length l = 8%nat).
Proof.
  intros size s SG BS. split; intros D; [split|]; apply (stochastic_count size s); auto; try discriminate; rewrite D;
    (intros M HM; simpl in HM; repeat (destruct HM as [<-|HM]; [motif_case|]); contradiction).
Qed.
