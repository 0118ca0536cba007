(** Building structures (C33) and boxes of integer points (C46), as lemmas. *)
From Coq Require Import Reals Lra Permutation Sorted.
From Verif Require Import Prelude Dict Arith RVec RealArith LatticeModel JsonModel StructModel SpecGeom
  LatticeFacts LatticeMore StructFacts StructMore.
Local Open Scope Z_scope.

(* ---------------------------------------------------------------- C46 *)
Lemma product_In {B} (args : list (list B)) p : In p (product args) <-> Forall2 (fun x l => In x l) p args.
Proof.
  revert p; induction args as [|l t IH]; intros p; simpl.
  - split; [intros [<-|[]]; constructor|intros H; inversion H; auto].
  - rewrite in_flat_map. split.
    + intros (x & Hx & H). apply in_map_iff in H as (q & <- & Hq). constructor; auto. now apply IH.
    + intros H. inversion H; subst. eexists. split; eauto. apply in_map. now apply IH.
Qed.

Lemma zrange_cons a b : a < b -> zrange a b = a :: zrange (a + 1) b.
Proof.
  intros H. unfold zrange. replace (Z.to_nat (b - a)) with (S (Z.to_nat (b - (a + 1)))) by lia. simpl.
  f_equal; [lia|]. rewrite <- seq_shift, map_map. apply map_ext. intros; lia.
Qed.
Lemma zrange_nil a b : b <= a -> zrange a b = [].
Proof. intros H. unfold zrange. replace (Z.to_nat (b - a)) with 0%nat by lia. reflexivity. Qed.
Lemma zrange_sorted a b : StronglySorted Z.lt (zrange a b).
Proof.
  remember (Z.to_nat (b - a)) as m eqn:E. revert a E; induction m; intros a E.
  - rewrite zrange_nil by lia. constructor.
  - rewrite zrange_cons by lia. constructor; [apply IHm; lia|]. apply Forall_forall. intros x Hx.
    apply zrange_In in Hx. lia.
Qed.

Lemma StronglySorted_app {B} (Q : B -> B -> Prop) l m : StronglySorted Q l -> StronglySorted Q m ->
  (forall x y, In x l -> In y m -> Q x y) -> StronglySorted Q (l ++ m).
Proof.
  intros S1 S2 H. induction S1; simpl; auto. constructor.
  - apply IHS1. intros; apply H; simpl; auto.
  - apply Forall_app. split; auto. apply Forall_forall. intros; apply H; simpl; auto.
Qed.

Lemma product_sorted (args : list (list Z)) : Forall (StronglySorted Z.lt) args -> StronglySorted lex_lt (product args).
Proof.
  induction 1 as [|l t Hl Ht IH]; simpl; [repeat constructor|].
  induction Hl as [|x l Hs IHl HF]; simpl; [constructor|]. apply StronglySorted_app; auto.
  - clear -IH. induction IH; simpl; constructor; auto. rewrite Forall_map. eapply Forall_impl; [|eauto]. simpl; auto.
  - intros p q Hp Hq. apply in_map_iff in Hp as (p' & <- & _). apply in_flat_map in Hq as (y & Hy & Hq).
    apply in_map_iff in Hq as (q' & <- & _). simpl. left. rewrite Forall_forall in HF. auto.
Qed.
Lemma lex_irrefl p : ~ lex_lt p p.
Proof. induction p; simpl; auto. intros [H|[_ H]]; [lia|auto]. Qed.
Lemma sorted_NoDup {B} (Q : B -> B -> Prop) l : (forall x, ~ Q x x) -> StronglySorted Q l -> NoDup l.
Proof.
  intros I S. induction S; constructor; auto. intros X. rewrite Forall_forall in H. exact (I a (H a X)).
Qed.

Lemma box_In lbs ubs p : length lbs = length ubs ->
  (In p (get_points_in_box lbs ubs) <->
   length p = length lbs /\
   forall i x a b, nth_error p i = Some x -> nth_error lbs i = Some a -> nth_error ubs i = Some b -> a <= x < b).
Proof.
  intros LL. unfold get_points_in_box. rewrite product_In. revert p ubs LL. induction lbs as [|a lbs IH]; destruct ubs as [|b ubs]; simpl; intros LL; try discriminate.
  - split.
    + intros H; inversion H; subst. split; auto. intros [|i]; discriminate.
    + intros [H _]. destruct p; [constructor|discriminate].
  - injection LL as LL. split.
    + intros H. inversion H as [|x l p' t Hx Ht]; subst. apply IH in Ht as [L1 Ht]; auto. split; [simpl; auto|].
      intros [|i] x' a' b'; simpl.
      * intros E1 E2 E3. injection E1 as <-. injection E2 as <-. injection E3 as <-. now apply zrange_In.
      * apply Ht.
    + intros [L1 H]. destruct p as [|x p]; [discriminate|]. constructor.
      * apply zrange_In. apply (H 0%nat x a b); auto.
      * apply IH; auto. split; [simpl in L1; lia|]. intros i x' a' b' E1 E2 E3. apply (H (S i) x' a' b'); auto.
Qed.

Lemma C46_lemma : forall lbs ubs, length lbs = length ubs ->
  (forall p, In p (get_points_in_box lbs ubs) <->
     length p = length lbs /\
     forall i x a b, nth_error p i = Some x -> nth_error lbs i = Some a -> nth_error ubs i = Some b -> a <= x < b) /\
  NoDup (get_points_in_box lbs ubs) /\ StronglySorted lex_lt (get_points_in_box lbs ubs) /\
  (forall lb ub dim p, In p (get_points_in_cube lb ub dim) <-> length p = dim /\ Forall (fun x => lb <= x < ub) p).
Proof.
  intros lbs ubs LL. split; [intros; now apply box_In|].
  assert (S : StronglySorted lex_lt (get_points_in_box lbs ubs)).
  { apply product_sorted. clear. revert ubs; induction lbs; destruct ubs; simpl; constructor; auto. apply zrange_sorted. }
  split; [eapply sorted_NoDup; [apply lex_irrefl|auto]|]. split; auto.
  intros lb ub dim p. unfold get_points_in_cube. rewrite box_In by (rewrite !repeat_length; auto). rewrite repeat_length.
  split; intros [L1 H]; split; auto.
  - apply Forall_forall. intros x Hx. apply In_nth_error in Hx as [i Hi].
    assert (Li : (i < dim)%nat) by (rewrite <- L1; apply nth_error_Some; congruence).
    apply (H i x lb ub); auto; now apply nth_error_repeat.
  - intros i x a b E1 E2 E3. apply nth_error_In in E1, E2, E3. apply repeat_spec in E2, E3. subst.
    rewrite Forall_forall in H. auto.
Qed.

(** The boxes of [build_from] are the cells. *)
Lemma box_cells k : get_points_in_box (repeat 0 (length k)) k = cells k.
Proof. unfold get_points_in_box. induction k; simpl; auto. now rewrite IHk. Qed.
Lemma cells_length k c : In c (cells k) -> length c = length k.
Proof.
  revert c; induction k; simpl; intros c H; [destruct H as [<-|[]]; auto|].
  apply in_flat_map in H as (x & _ & H). apply in_map_iff in H as (c' & <- & H). simpl. f_equal; auto.
Qed.
Lemma cells_count k : Forall (fun a => 0 < a) k -> Z.of_nat (length (cells k)) = fold_right Z.mul 1 k.
Proof.
  induction 1 as [|a k Ha _ IH]; [reflexivity|]. cbn [cells fold_right].
  assert (G : forall l : list Z, length (flat_map (fun i => map (cons i) (cells k)) l) = (length l * length (cells k))%nat).
  { induction l; simpl; auto. rewrite app_length, map_length, IHl. reflexivity. }
  rewrite G, zrange_length. rewrite <- IH. lia.
Qed.
Lemma cells_In k c : In c (cells k) <-> Forall2 (fun x a => 0 <= x < a) c k.
Proof.
  revert c; induction k as [|a k IH]; intros c; simpl.
  - split; [intros [<-|[]]; constructor|intros H; inversion H; auto].
  - rewrite in_flat_map. split.
    + intros (x & Hx & H). apply in_map_iff in H as (q & <- & Hq). constructor; [now apply zrange_In|now apply IH].
    + intros H. inversion H; subst. eexists. split; [apply zrange_In; eauto|]. apply in_map. now apply IH.
Qed.

(* ---------------------------------------------------------------- C33 *)
Lemma foldM_flat_map {B C D} (f : B -> C -> res B) (g : D -> list C) l a :
  foldM f (flat_map g l) a = foldM (fun a x => foldM f (g x) a) l a.
Proof.
  revert a; induction l; simpl; auto. intros. rewrite foldM_app. destruct (foldM f (g a) a0); simpl; auto.
Qed.
Lemma foldM_map {B C D} (f : B -> C -> res B) (g : D -> C) l a : foldM f (map g l) a = foldM (fun a x => f a (g x)) l a.
Proof. revert a; induction l; simpl; auto. intros. destruct (f a0 (g a)); simpl; auto. Qed.

Section Build.
  Variables (n : nat) (vs : list vec) (per : list bool) (L : lattice R).
  Hypothesis HL : lattice_on n vs per L.

  (** Adding a list of sites that do not collide. *)
  Lemma add_all l : forall h0 acc0 s, Inv RA L h0 s -> real_hist n vs per acc0 h0 -> NoDup (keys h0) ->
    Forall (fun x => length (snd x) = n) l ->
    (exists s' h, foldM (add_site_or_raise RA) l s = Ok s' /\ Inv RA L (h0 ++ h) s' /\ real_hist n vs per (acc0 ++ l) (h0 ++ h) /\
       NoDup (keys (h0 ++ h))) \/
    (foldM (add_site_or_raise RA) l s = Err AssertionError /\ ~ no_collision n vs per (acc0 ++ l)).
  Proof.
    induction l as [|[c p] l IH]; intros h0 acc0 s I H ND FL.
    - left. exists s, []. rewrite !app_nil_r. auto.
    - pose proof (Forall_inv FL) as Lp. pose proof (Forall_inv_tail FL) as FL'. cbn [snd] in Lp. cbn [foldM].
      unfold add_site_or_raise at 1 3. cbn [fst snd].
      destruct (add_site_real n vs per L HL h0 s c p I ND) as [[X _]|(q & _ & P & [[K ->]|(K & s1 & -> & I1)])]; [contradiction| |].
      + right. split; auto. intros NC. apply In_nth_error in K as [i Hi]. unfold keys in Hi. rewrite nth_error_map in Hi.
        destruct (nth_error h0 i) as [e|] eqn:Eh; [|discriminate]. injection Hi as Ek.
        destruct (real_hist_nth' n vs per acc0 h0 i e H Eh) as (c' & p' & q' & Ha & Lp' & P' & ->). cbn [snd] in Ek.
        assert (Li : (i < length acc0)%nat) by (apply nth_error_Some; congruence).
        apply (NC i (length acc0) c' c p' p); [lia| | |].
        * rewrite nth_error_app1; auto.
        * rewrite nth_error_app2, Nat.sub_diag; auto.
        * exists q', q. auto.
      + cbn [bind].
        assert (H1 : real_hist n vs per (acc0 ++ [(c, p)]) (h0 ++ [(c, q, place q)])).
        { apply Forall2_app; auto. constructor; [|constructor]. simpl. split; auto. exists q. auto. }
        assert (ND1 : NoDup (keys (h0 ++ [(c, q, place q)]))).
        { unfold keys. rewrite map_app. simpl. apply NoDup_app_single; auto. }
        destruct (IH _ _ s1 I1 H1 ND1 FL') as [(s' & h & E & I' & H' & ND')|[E NC]].
        * left. exists s', ((c, q, place q) :: h). rewrite <- !app_assoc in *. auto.
        * right. rewrite <- app_assoc in NC. auto.
  Qed.

  Lemma real_hist_holds acc h s : Inv RA L h s -> real_hist n vs per acc h -> holds_sites n vs per s acc.
  Proof.
    intros I H. unfold holds_sites. rewrite (sites_list RA L h s I). unfold enumerate. generalize 0 as i.
    clear I. induction H as [|[c p] e acc h (Lp & q & P & ->) _ IH]; intros i; simpl; constructor; auto.
    exists q. auto.
  Qed.
End Build.

Lemma tiling_fold {B} (f : B -> string * vec -> res B) k motif pl a :
  foldM f (tiling k motif pl) a =
  foldM (fun s c => foldM (fun s cv => foldM (fun s v => f s (fst cv, pl c v)) (snd cv) s) motif s) (cells k) a.
Proof.
  unfold tiling. rewrite foldM_flat_map. apply foldM_ext. intros x c _. rewrite foldM_flat_map. apply foldM_ext.
  intros y cv _. now rewrite foldM_map.
Qed.

Lemma build_tiling n vs per L k m fr pl : lattice_on n vs per L -> length k = n -> Forall (fun a => 0 < a) k ->
  (forall c v, In c (cells k) -> In v (concat (map snd (motif_dict m))) -> motif_loc RA L fr c v = Ok (pl c v)) ->
  exists L', lattice_on n (scaled k vs) per L' /\
    build_from RA L k m fr = foldM (add_site_or_raise RA) (tiling k (motif_dict m) pl) (struct_init L').
Proof.
  intros HL Lk Pk HM. destruct (C27_lemma n vs per L k HL Lk) as (L' & E & HL' & _).
  { eapply Forall_impl; [|exact Pk]. intros; simpl in *; lia. }
  exists L'. split; auto. unfold build_from. rewrite E. cbn [bind]. rewrite (on_dim _ _ _ _ HL'), <- Lk, box_cells.
  rewrite tiling_fold. change (match m with MDict d => d | MList l => [(DEFAULT_SITE_CLASS, l)] end) with (motif_dict m).
  apply foldM_ext. intros s c Hc. apply foldM_ext. intros s' cv Hcv. apply foldM_ext. intros s'' v Hv.
  rewrite HM; auto. apply in_concat. exists (snd cv). split; auto. now apply in_map.
Qed.

Lemma motif_vec_in {F} (m : motif_arg F) v : In v (concat (map snd (motif_dict m))) <->
  exists c l, In (c, l) (motif_dict m) /\ In v l.
Proof.
  rewrite in_concat. split.
  - intros (l & H & Hv). apply in_map_iff in H as ([c l'] & <- & H). eauto.
  - intros (c & l & H & Hv). exists l. split; auto. apply in_map_iff. exists (c, l). auto.
Qed.

Lemma tiling_count k motif pl : Forall (fun a => 0 < a) k ->
  Z.of_nat (length (tiling k motif pl)) = fold_right Z.mul 1 k * Z.of_nat (motif_size motif).
Proof.
  intros P. rewrite <- cells_count by auto. unfold tiling.
  assert (G : forall (l : list (list Z)), length (flat_map (fun c => flat_map (fun cv : string * list vec => map (fun v => (fst cv, pl c v)) (snd cv)) motif) l)
      = (length l * motif_size motif)%nat).
  { induction l; simpl; auto. rewrite app_length, IHl. f_equal. clear. unfold motif_size.
    induction motif as [|cv t IH]; simpl; auto. rewrite app_length, map_length, IH. reflexivity. }
  rewrite G. lia.
Qed.

Lemma tiling_lengths n k motif pl :
  (forall c v, In c (cells k) -> In v (concat (map snd motif)) -> length (pl c v) = n) ->
  Forall (fun x => length (snd x) = n) (tiling k motif pl).
Proof.
  intros H. apply Forall_forall. intros x Hx. unfold tiling in Hx. apply in_flat_map in Hx as (c & Hc & Hx).
  apply in_flat_map in Hx as (cv & Hcv & Hx). apply in_map_iff in Hx as (v & <- & Hv). simpl. apply H; auto.
  apply in_concat. exists (snd cv). split; auto. now apply in_map.
Qed.

Lemma build_general n vs per L k m fr pl : lattice_on n vs per L -> length k = n -> Forall (fun a => 0 < a) k ->
  (forall c v, In c (cells k) -> In v (concat (map snd (motif_dict m))) ->
     motif_loc RA L fr c v = Ok (pl c v) /\ length (pl c v) = n) ->
  let t := tiling k (motif_dict m) pl in
  (no_collision n (scaled k vs) per t ->
     exists s, build_from RA L k m fr = Ok s /\ holds_sites n (scaled k vs) per s t /\
       Z.of_nat (length (sites s None)) = fold_right Z.mul 1 k * Z.of_nat (motif_size (motif_dict m))) /\
  (~ no_collision n (scaled k vs) per t -> build_from RA L k m fr = Err AssertionError).
Proof.
  intros HL Lk Pk HM t. destruct (build_tiling n vs per L k m fr pl HL Lk Pk) as (L' & HL' & ->); [intros; now apply HM|].
  fold t.
  assert (FL : Forall (fun x => length (snd x) = n) t) by (apply tiling_lengths; intros; now apply HM).
  destruct (add_all n (scaled k vs) per L' HL' t [] [] (struct_init L') (Inv_init RA L')) as [(s' & h & E & I & H & ND)|[E NC]]; auto; try constructor.
  - intros _. exists s'. split; auto. cbn [app] in *.
    pose proof (real_hist_holds n (scaled k vs) per L' t h s' I H) as HS. split; auto.
    unfold holds_sites in HS. assert (length (sites s' None) = length t) as ->.
    { clear -HS. remember (enumerate t) as et eqn:X. assert (Y : length et = length t) by (subst; unfold enumerate; now rewrite enumerate_from_length).
      rewrite <- Y. symmetry. clear X Y. induction HS; simpl; auto. }
    now apply tiling_count.
  - intros NC. exfalso. apply NC. intros i j c d p q N Hi Hj SP. cbn [app] in *.
    destruct (real_hist_nth n (scaled k vs) per t h i c p H Hi) as (L1 & q1 & P1 & E1).
    destruct (real_hist_nth n (scaled k vs) per t h j d q H Hj) as (L2 & q2 & P2 & E2).
    apply (same_place_iff n (scaled k vs) per L' HL' p q q1 q2 L1 L2 P1 P2) in SP.
    apply N. eapply (proj1 (NoDup_nth_error (keys h)) ND).
    + unfold keys. rewrite map_length. apply nth_error_Some. congruence.
    + unfold keys. rewrite !nth_error_map, E1, E2. simpl. congruence.
  - intros X. contradiction.
  - auto.
Qed.

(** Fractional motifs: every lattice. *)
Lemma C33_fractional_lemma : forall n vs per L k m, lattice_on n vs per L -> length k = n ->
  Forall (fun a => 0 < a) k -> motif_ok n m ->
  let t := tiling k (motif_dict m) (frac_place n vs) in
  (no_collision n (scaled k vs) per t ->
     exists s, build_from RA L k m true = Ok s /\ holds_sites n (scaled k vs) per s t /\
       Z.of_nat (length (sites s None)) = fold_right Z.mul 1 k * Z.of_nat (motif_size (motif_dict m))) /\
  (~ no_collision n (scaled k vs) per t -> build_from RA L k m true = Err AssertionError).
Proof.
  intros n vs per L k m HL Lk Pk MO. apply build_general; auto. intros c v Hc Hv.
  assert (Lc : length c = n) by (apply cells_length in Hc; lia).
  apply motif_vec_in in Hv as (cl & l & Hl & Hv). pose proof (MO _ _ _ Hl Hv) as Lv.
  assert (LS : length (vplus (map IZR c) v) = n) by (rewrite vplus_length; rewrite map_length; congruence).
  unfold motif_loc, frac_place. cbn [bind]. change (map (a_ofZ RA) c) with (map IZR c).
  rewrite bcast_eq by (rewrite map_length; congruence). cbn [bind]. change (zipwith (a_add RA) (map IZR c) v) with (vplus (map IZR c) v).
  rewrite (cart_ok n vs per L HL) by auto. split; auto. apply lincomb_length.
  apply (on_widths n vs per L HL).
Qed.

(** Cartesian motifs, what the code computes: the origin of a cell is
    matrix @ coefficients. *)
Definition rows_place (vs : list vec) (c : list Z) (v : vec) : vec := vplus (map (fun r => vdot r (map IZR c)) vs) v.

Lemma build_rows n vs per L k m : lattice_on n vs per L -> length k = n ->
  Forall (fun a => 0 < a) k -> motif_ok n m ->
  let t := tiling k (motif_dict m) (rows_place vs) in
  (no_collision n (scaled k vs) per t ->
     exists s, build_from RA L k m false = Ok s /\ holds_sites n (scaled k vs) per s t /\
       Z.of_nat (length (sites s None)) = fold_right Z.mul 1 k * Z.of_nat (motif_size (motif_dict m))) /\
  (~ no_collision n (scaled k vs) per t -> build_from RA L k m false = Err AssertionError).
Proof.
  intros HL Lk Pk MO. apply build_general; auto. intros c v Hc Hv.
  assert (Lc : length c = n) by (apply cells_length in Hc; lia).
  apply motif_vec_in in Hv as (cl & l & Hl & Hv). pose proof (MO _ _ _ Hl Hv) as Lv.
  pose proof (on_length n vs per L HL) as Lvs.
  unfold motif_loc, rows_place. change (map (a_ofZ RA) c) with (map IZR c). unfold matvec.
  rewrite (on_matrix n vs per L HL).
  assert (WV : width vs = length (map IZR c)).
  { rewrite map_length, Lc. pose proof (on_widths n vs per L HL) as W. pose proof (on_pos n vs per L HL) as P.
    destruct vs as [|r t]; [simpl in Lvs; lia|]. simpl. apply widths_cons in W. apply W. }
  rewrite WV, Nat.eqb_refl. cbn [bind].
  rewrite (map_ext _ (fun r => vdot r (map IZR c)) (fun r => dot_RA r (map IZR c))).
  rewrite bcast_eq by (rewrite map_length; congruence). cbn [bind]. split; auto.
  rewrite vplus_length; rewrite map_length; congruence.
Qed.

Lemma tiling_ext k motif f g : (forall c v, In c (cells k) -> f c v = g c v) -> tiling k motif f = tiling k motif g.
Proof.
  intros H. unfold tiling.
  assert (G : forall l, (forall c, In c l -> In c (cells k)) ->
    flat_map (fun c => flat_map (fun cv : string * list vec => map (fun v => (fst cv, f c v)) (snd cv)) motif) l =
    flat_map (fun c => flat_map (fun cv : string * list vec => map (fun v => (fst cv, g c v)) (snd cv)) motif) l).
  { induction l as [|c l IH]; intros Hl; simpl; auto. f_equal; [|apply IH; intros; apply Hl; simpl; auto].
    assert (Hc : In c (cells k)) by (apply Hl; simpl; auto). clear -H Hc.
    induction motif as [|cv t IH]; simpl; auto. rewrite IH. f_equal. apply map_ext. intros v. now rewrite H. }
  apply G; auto.
Qed.

Lemma C33_cartesian_lemma : forall n vs per L k m, lattice_on n vs per L -> symmetric n vs -> length k = n ->
  Forall (fun a => 0 < a) k -> motif_ok n m ->
  let t := tiling k (motif_dict m) (cart_place n vs) in
  (no_collision n (scaled k vs) per t ->
     exists s, build_from RA L k m false = Ok s /\ holds_sites n (scaled k vs) per s t /\
       Z.of_nat (length (sites s None)) = fold_right Z.mul 1 k * Z.of_nat (motif_size (motif_dict m))) /\
  (~ no_collision n (scaled k vs) per t -> build_from RA L k m false = Err AssertionError).
Proof.
  intros n vs per L k m HL SY Lk Pk MO.
  assert (E : tiling k (motif_dict m) (cart_place n vs) = tiling k (motif_dict m) (rows_place vs)).
  { apply tiling_ext. intros c v Hc. unfold cart_place, rows_place. rewrite SY; auto.
    rewrite map_length. apply cells_length in Hc. lia. }
  cbv zeta. rewrite E. now apply (build_rows n vs per L).
Qed.

(** A lattice whose matrix is not symmetric. *)
Definition skew : list vec := [[2; 0]; [1; 2]]%R.
Definition skew_lattice : lattice R := mkLattice skew [true; true] skew 2.
Definition one_site : motif_arg R := MDict [("A"%string, [[0; 0]%R])].
Lemma skew_on : lattice_on 2 skew [true; true] skew_lattice.
Proof. apply lattice_on_intro; auto. apply basis_2. lra. Qed.

Lemma periodised_2 a b c d (f g x y : R) (i j : Z) x' y' :
  (0 <= f < 1)%R -> (0 <= g < 1)%R ->
  x' = (f * a + g * c)%R -> y' = (f * b + g * d)%R ->
  x' = (x + (IZR i * a + IZR j * c))%R -> y' = (y + (IZR i * b + IZR j * d))%R ->
  periodised 2 [[a; b]; [c; d]] [true; true] [x; y] [x'; y'].
Proof.
  intros Hf Hg E1 E2 E3 E4. split.
  - exists [i; j]. split; [repeat constructor; discriminate|]. unfold lincomb, vplus, vscale, vzero; simpl. f_equal; [|f_equal]; lra.
  - exists [f; g]. split; [split; auto; unfold lincomb, vplus, vscale, vzero; simpl; f_equal; [|f_equal]; lra|].
    constructor; [intros; lra|]. constructor; [intros; lra|constructor].
Qed.

Lemma no_collision_2 n vs per L c d p q p' q' : lattice_on n vs per L -> length p = n -> length q = n ->
  periodised n vs per p p' -> periodised n vs per q q' -> place p' <> place q' ->
  no_collision n vs per [(c, p); (d, q)].
Proof.
  intros HL Lp Lq P Q N i j c' d' p1 q1 D Hi Hj S.
  assert (S0 : forall u v, same_place n vs per u v -> same_place n vs per v u).
  { intros u v (u' & v' & U & V & E). exists v', u'. auto. }
  assert (X : same_place n vs per p q).
  { destruct i as [|[|i]], j as [|[|j]]; simpl in Hi, Hj; try lia;
      try (destruct i; discriminate); try (destruct j; discriminate);
      injection Hi as <- <-; injection Hj as <- <-; auto. }
  apply N. apply (same_place_iff n vs per L HL p q p' q'); auto.
Qed.

Lemma C33_refuted_lemma : exists n vs per L k m s, lattice_on n vs per L /\ length k = n /\
  Forall (fun a => 0 < a) k /\ motif_ok n m /\
  no_collision n (scaled k vs) per (tiling k (motif_dict m) (cart_place n vs)) /\
  build_from RA L k m false = Ok s /\
  ~ holds_sites n (scaled k vs) per s (tiling k (motif_dict m) (cart_place n vs)).
Proof.
  set (k := [1; 2]). set (vs' := [[2; 0]; [2; 4]]%R).
  assert (EV : scaled k skew = vs').
  { unfold scaled, k, vs', skew, vscale; simpl. repeat (f_equal; try lra). }
  assert (HL' : lattice_on 2 vs' [true; true] (mkLattice vs' [true; true] vs' 2)).
  { apply lattice_on_intro; auto. apply basis_2. lra. }
  assert (MO : motif_ok 2 one_site).
  { intros c l v [E|[]] Hv. injection E as <- <-. destruct Hv as [<-|[]]. reflexivity. }
  assert (T1 : tiling k (motif_dict one_site) (cart_place 2 skew) = [("A"%string, [0; 0]%R); ("A"%string, [1; 2]%R)]).
  { unfold tiling, k, motif_dict, one_site, cart_place, lincomb, vplus, vscale, vzero, skew; simpl. repeat (f_equal; try lra). }
  assert (T2 : tiling k (motif_dict one_site) (rows_place skew) = [("A"%string, [0; 0]%R); ("A"%string, [0; 2]%R)]).
  { unfold tiling, k, motif_dict, one_site, rows_place, vdot, vplus, skew; simpl. repeat (f_equal; try lra). }
  assert (P0 : periodised 2 vs' [true; true] [0; 0]%R [0; 0]%R).
  { apply (periodised_2 2 0 2 4 0 0 0 0 0 0); simpl; lra. }
  assert (P1 : periodised 2 vs' [true; true] [1; 2]%R [1; 2]%R).
  { apply (periodised_2 2 0 2 4 0 (1/2) 1 2 0 0); simpl; lra. }
  assert (P2 : periodised 2 vs' [true; true] [0; 2]%R [2; 2]%R).
  { apply (periodised_2 2 0 2 4 (1/2) (1/2) 0 2 1 0); simpl; lra. }
  assert (K0 : place [0; 0]%R = [1/1000; 1/1000]%R).
  { unfold place; cbn [map]. rewrite (milli 1); [auto|apply Rabs_def1; lra]. }
  assert (K1 : place [1; 2]%R = [1001/1000; 2001/1000]%R).
  { unfold place; cbn [map]. rewrite (milli 1001), (milli 2001); [auto|apply Rabs_def1; lra..]. }
  assert (K2 : place [2; 2]%R = [2001/1000; 2001/1000]%R).
  { unfold place; cbn [map]. rewrite (milli 2001); [auto|apply Rabs_def1; lra]. }
  destruct (build_rows 2 skew [true; true] skew_lattice k one_site skew_on) as [B _]; auto.
  { repeat constructor. }
  rewrite T2, EV in B. destruct B as (s & E & HS & _).
  { apply (no_collision_2 2 vs' [true; true] _ _ _ _ _ [0;0]%R [2;2]%R HL'); auto. rewrite K0, K2. intros X; injection X; lra. }
  exists 2%nat, skew, [true; true], skew_lattice, k, one_site, s.
  split; [apply skew_on|]. split; auto. split; [repeat constructor|]. split; auto. rewrite T1, EV. split; [|split; auto].
  - apply (no_collision_2 2 vs' [true; true] _ _ _ _ _ [0;0]%R [1;2]%R HL'); auto. rewrite K0, K1. intros X; injection X; lra.
  - intros HX. unfold holds_sites, enumerate in HS, HX. cbn [enumerate_from] in HS, HX.
    clear E. revert HS HX. generalize (sites s None). intros ss HS HX.
    inversion HS as [|? ? ? ? _ HS1]; subst. inversion HS1 as [|? ? ? ? (q & Q & ->) _]; subst.
    inversion HX as [|? ? ? ? _ HX1]; subst. inversion HX1 as [|? ? ? ? (q' & Q' & EE) _]; subst.
    cbn [fst snd] in Q, Q', EE.
    assert (q = [2; 2]%R) by (eapply (periodised_unique 2 vs' [true; true] _ HL'); [|exact Q|exact P2]; auto).
    assert (q' = [1; 2]%R) by (eapply (periodised_unique 2 vs' [true; true] _ HL'); [|exact Q'|exact P1]; auto).
    subst. injection EE as EE. revert EE. rewrite (round3_IZR 2), (round3_IZR 1). lra.
Qed.
