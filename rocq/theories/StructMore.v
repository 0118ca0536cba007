(** The structure properties C28, C29, C31, C32, C34-C36, as lemmas. *)
From Coq Require Import Reals Lra Permutation.
From Verif Require Import Prelude Dict Arith RVec RealArith LatticeModel JsonModel JsonFacts StructModel SpecGeom
  LatticeFacts LatticeMore StructFacts.
Local Open Scope Z_scope.

(* ---------------------------------------------------------------- C28 *)
Lemma C28_lemma : forall n vs per L calls s outs, lattice_on n vs per L ->
  adds RA (struct_init L) calls = (s, outs) ->
  let acc := accepted calls outs in
  let m := Z.of_nat (length acc) in
  returned outs = zrange 0 m /\ p_ids s = zrange 0 m /\
  (forall i c p, nth_error acc i = Some (c, p) ->
     exists q, periodised n vs per p q /\
       get_site s (Z.of_nat i) = Some (mkSite c (map round3 q) (Z.of_nat i)) /\
       site_class s (Z.of_nat i) = Ok c /\ site_location s (Z.of_nat i) = Ok (map round3 q)) /\
  (forall i, (i < 0 \/ m <= i) -> get_site s i = None).
Proof.
  intros n vs per L calls s outs HL E acc m. destruct (hist_start n vs per L HL calls) as (h & I & ND & H & RT).
  rewrite E in *. cbn [fst snd] in *. fold acc in H. pose proof (real_hist_length _ _ _ _ _ H) as Ln.
  assert (Em : m = Z.of_nat (length h)) by (unfold m; lia).
  split; [now rewrite Em|]. split; [rewrite Em; apply I|]. split.
  - intros i c p Hi. destruct (real_hist_nth n vs per acc h i c p H Hi) as (Lp & q & P & Eh). exists q. split; auto.
    pose proof (get_site_nth RA L h s i I) as G. rewrite Eh in G. cbn [option_map fst snd] in G.
    change (get_rounded_coords RA q) with (map round3 q) in G.
    split; auto. unfold site_class, site_location. rewrite G. auto.
  - intros i Hi. eapply (get_site_None RA); eauto. lia.
Qed.

(** Ids are dense and stored data never change for any arithmetic whatever,
    floating point included. *)
Lemma C28_any_lemma : forall F (A : arith F) L calls s outs, adds A (struct_init L) calls = (s, outs) ->
  let acc := accepted calls outs in
  let m := Z.of_nat (length acc) in
  returned outs = zrange 0 m /\ p_ids s = zrange 0 m /\
  (forall i c p, nth_error acc i = Some (c, p) ->
     exists x, get_site s (Z.of_nat i) = Some x /\ s_class x = c /\ s_id x = Z.of_nat i /\
       forall more, get_site (fst (adds A s more)) (Z.of_nat i) = Some x).
Proof.
  intros F A L calls s outs E acc m. destruct (adds_inv A L calls [] (struct_init L) (Inv_init A L)) as (h & I & H & _ & RT).
  rewrite E in *. cbn [fst snd app] in *. fold acc in H.
  assert (Ln : length acc = length h) by (clear -H; induction H; simpl; auto).
  assert (Em : m = Z.of_nat (length h)) by (unfold m; lia).
  split; [rewrite Em; exact RT|]. split; [rewrite Em; apply I|].
  intros i c p Hi. assert (exists e, nth_error h i = Some e /\ entry_of A L (c, p) e) as (e & Eh & En).
  { clear -H Hi. revert i Hi; induction H; destruct i; simpl; intros Hi; try discriminate; eauto. injection Hi as ->. eauto. }
  pose proof (get_site_nth A L h s i I) as G. rewrite Eh in G. cbn [option_map] in G.
  eexists. split; [exact G|]. cbn [s_class s_id]. split; [symmetry; apply En|]. split; auto.
  intros more. destruct (adds_inv A L more h s I) as (h' & I' & _).
  rewrite (get_site_nth A L _ _ i I'), nth_error_app1, Eh; auto. apply nth_error_Some. congruence.
Qed.

(* ---------------------------------------------------------------- C29 *)
Lemma C29_lemma : forall n vs per L calls s outs, lattice_on n vs per L ->
  adds RA (struct_init L) calls = (s, outs) ->
  let acc := accepted calls outs in
  (forall i c p q, nth_error acc i = Some (c, p) -> image n vs per p q ->
     exists x, get_site s (Z.of_nat i) = Some x /\ s_class x = c /\ s_id x = Z.of_nat i /\
       site_at RA s q = Ok (Some x) /\ id_at RA s q = Ok (Some (Z.of_nat i)) /\ class_at RA s q = Ok (Some c)) /\
  (forall q, length q = n ->
     (exists i c p x, nth_error acc i = Some (c, p) /\ same_place n vs per p q /\
        get_site s (Z.of_nat i) = Some x /\ s_class x = c /\ s_id x = Z.of_nat i /\
        site_at RA s q = Ok (Some x) /\ id_at RA s q = Ok (Some (Z.of_nat i)) /\ class_at RA s q = Ok (Some c)) \/
     ((forall c p, In (c, p) acc -> ~ same_place n vs per p q) /\
        site_at RA s q = Ok None /\ id_at RA s q = Ok None /\ class_at RA s q = Ok None)).
Proof.
  intros n vs per L calls s outs HL E acc. destruct (hist_start n vs per L HL calls) as (h & I & ND & H & RT).
  rewrite E in *. cbn [fst snd] in *. fold acc in H.
  assert (HIT : forall i c p q p', nth_error acc i = Some (c, p) -> length q = n ->
            periodised n vs per p p' -> forall q', periodised n vs per q q' -> place p' = place q' ->
     exists x, get_site s (Z.of_nat i) = Some x /\ s_class x = c /\ s_id x = Z.of_nat i /\
       site_at RA s q = Ok (Some x) /\ id_at RA s q = Ok (Some (Z.of_nat i)) /\ class_at RA s q = Ok (Some c)).
  { intros i c p q p' Hi Lq P q' Q Ep. destruct (real_hist_nth n vs per acc h i c p H Hi) as (Lp & p1 & P1 & Eh).
    assert (p1 = p') by (eapply periodised_unique; eauto). subst p1.
    pose proof (site_at_hit n vs per L HL h s q q' i _ I ND Lq Q Eh Ep) as S. cbn [fst snd] in S.
    pose proof (get_site_nth RA L h s i I) as G. rewrite Eh in G. cbn [option_map fst snd] in G.
    eexists. split; [exact G|]. split; auto. split; auto. split; [exact S|].
    unfold id_at, class_at. rewrite S. auto. }
  split.
  - intros i c p q Hi Im. destruct (real_hist_nth n vs per acc h i c p H Hi) as (Lp & p1 & P1 & Eh).
    assert (Lq : length q = n) by (eapply image_len; eauto).
    apply (HIT i c p q p1) with (q' := p1); auto. split; [|apply P1].
    apply (image_trans n vs per L HL) with (q := p); [exact Lq|apply (image_sym n vs per L HL); auto|apply P1].
  - intros q Lq. destruct (per_spec n vs per L HL q Lq) as (q' & _ & Q).
    destruct (in_dec (list_eq_dec Req_EM_T) (place q') (keys h)) as [K|K].
    + left. apply In_nth_error in K as [i Hi]. unfold keys in Hi. rewrite nth_error_map in Hi.
      destruct (nth_error h i) as [e|] eqn:Eh; [|discriminate]. injection Hi as Ek.
      destruct (real_hist_nth' n vs per acc h i e H Eh) as (c & p & p' & Ha & Lp & P & ->). cbn [snd] in Ek.
      destruct (HIT i c p q p' Ha Lq P q' Q Ek) as (x & Hx). exists i, c, p, x. split; auto. split; auto.
      exists p', q'. auto.
    + right. assert (S : site_at RA s q = Ok None) by (eapply (site_at_miss n vs per L HL); eauto). split; [|split; [|split]].
      * intros c p Hin SP. apply In_nth_error in Hin as [i Hi].
        destruct (real_hist_nth n vs per acc h i c p H Hi) as (Lp & p' & P & Eh). apply K.
        apply (same_place_iff n vs per L HL p q p' q' Lp Lq P Q) in SP. rewrite <- SP.
        apply nth_error_In in Eh. apply in_map_iff. exists (c, p', place p'). auto.
      * exact S. * unfold id_at. now rewrite S. * unfold class_at. now rewrite S.
Qed.

(* ---------------------------------------------------------------- C31 *)
Lemma C31_lemma : forall n vs per L calls s outs c p, lattice_on n vs per L ->
  adds RA (struct_init L) calls = (s, outs) ->
  let acc := accepted calls outs in
  (forall i j c1 p1 c2 p2, i <> j -> nth_error acc i = Some (c1, p1) -> nth_error acc j = Some (c2, p2) ->
     ~ same_place n vs per p1 p2) /\
  (length p = n -> (exists c' p', In (c', p') acc /\ same_place n vs per p' p) ->
     add_site RA s c p = (s, Err AssertionError)) /\
  (length p = n -> (forall c' p', In (c', p') acc -> ~ same_place n vs per p' p) ->
     exists s', add_site RA s c p = (s', Ok (Z.of_nat (length acc)))) /\
  (length p <> n -> add_site RA s c p = (s, Err ValueError)).
Proof.
  intros n vs per L calls s outs c p HL E acc. destruct (hist_start n vs per L HL calls) as (h & I & ND & H & RT).
  rewrite E in *. cbn [fst snd] in *. fold acc in H. pose proof (real_hist_length _ _ _ _ _ H) as Ln. split.
  - intros i j c1 p1 c2 p2 N Hi Hj SP.
    destruct (real_hist_nth n vs per acc h i c1 p1 H Hi) as (L1 & q1 & P1 & E1).
    destruct (real_hist_nth n vs per acc h j c2 p2 H Hj) as (L2 & q2 & P2 & E2).
    apply (same_place_iff n vs per L HL p1 p2 q1 q2 L1 L2 P1 P2) in SP. apply N.
    eapply (proj1 (NoDup_nth_error (keys h)) ND).
    + unfold keys. rewrite map_length. apply nth_error_Some. congruence.
    + unfold keys. rewrite !nth_error_map, E1, E2. simpl. congruence.
  - destruct (add_site_real n vs per L HL h s c p I ND) as [[Lp EA]|(q & Lp & P & [[K EA]|(K & s' & EA & _)])].
    + repeat split; intros; try contradiction; auto.
    + split; [auto|]. split; [|tauto]. intros _ NS. exfalso. apply In_nth_error in K as [i Hi]. unfold keys in Hi.
      rewrite nth_error_map in Hi. destruct (nth_error h i) as [e|] eqn:Eh; [|discriminate]. injection Hi as Ek.
      destruct (real_hist_nth' n vs per acc h i e H Eh) as (c' & p' & q' & Ha & Lp' & P' & ->). cbn [snd] in Ek.
      apply (NS c' p'); [eapply nth_error_In; eauto|]. exists q', q. auto.
    + split; [|split; [|tauto]].
      * intros _ (c' & p' & Hin & SP). exfalso. apply K. apply In_nth_error in Hin as [i Hi].
        destruct (real_hist_nth n vs per acc h i c' p' H Hi) as (Lp' & q' & P' & Eh).
        apply (same_place_iff n vs per L HL p' p q' q Lp' Lp P' P) in SP. rewrite <- SP.
        apply nth_error_In in Eh. apply in_map_iff. exists (c', q', place q'). auto.
      * intros _ _. exists s'. now rewrite Ln.
Qed.

(** A refused call changes nothing, whatever the reason and the arithmetic. *)
Lemma C31_any_lemma : forall F (A : arith F) s c p s' e, add_site A s c p = (s', Err e) -> s' = s.
Proof.
  intros F A s c p s' e. unfold add_site. destruct (get_periodized_cartesian_coords A (p_lattice s) p); [|congruence].
  destruct (transformed_coords A s p); [|congruence]. destruct (dget _ _); congruence.
Qed.

(* ---------------------------------------------------------------- C32 *)
Section Settled.
  Local Open Scope R_scope.
  Lemma round3_offset x : Rabs (x * 1000 - IZR (zrint (x * 1000))) < 1/2 -> round3 (x + 1/1000) = round3 x + 1/1000.
  Proof.
    intros H. unfold round3. replace ((x + 1/1000) * 1000) with (x * 1000 + IZR 1) by field.
    rewrite zrint_shift_noties by lra. rewrite plus_IZR. field.
  Qed.
  Lemma round3_offset_round x : round3 (round3 x + 1/1000) = round3 x + 1/1000.
  Proof.
    rewrite round3_offset.
    - now rewrite round3_idem.
    - unfold round3. replace (IZR (zrint (x * 1000)) / 1000 * 1000) with (IZR (zrint (x * 1000))) by field.
      rewrite zrint_IZR, Rminus_diag_eq, Rabs_R0; auto. lra.
  Qed.
  Lemma place_round q : Forall (fun x => Rabs (x * 1000 - IZR (zrint (x * 1000))) < 1/2) q ->
    place (map round3 q) = place q.
  Proof.
    intros H. unfold place. rewrite map_map. induction H; simpl; f_equal; auto.
    now rewrite round3_offset_round, round3_offset.
  Qed.
  Lemma round_round q : map round3 (map round3 q) = map round3 q.
  Proof. rewrite map_map. apply map_ext. intros; apply round3_idem. Qed.
End Settled.

Lemma settled_round n vs per L p q : lattice_on n vs per L -> length p = n -> settled n vs per p ->
  periodised n vs per p q ->
  periodised n vs per (map round3 q) (map round3 q) /\ place (map round3 q) = place q /\ length (map round3 q) = n.
Proof.
  intros HL Lp (q' & P' & C & T) P. assert (q' = q) by (eapply periodised_unique; eauto). subst q'.
  assert (Lq : length (map round3 q) = n) by (rewrite map_length; eapply periodised_len; eauto).
  split; [|split; auto]. - split; auto. eapply image_refl; eauto. - now apply place_round.
Qed.

Lemma C32_lemma : forall n vs per L calls s outs i c p, lattice_on n vs per L ->
  adds RA (struct_init L) calls = (s, outs) ->
  nth_error (accepted calls outs) i = Some (c, p) -> settled n vs per p ->
  exists loc x, site_location s (Z.of_nat i) = Ok loc /\ get_site s (Z.of_nat i) = Some x /\ site_at RA s loc = Ok (Some x).
Proof.
  intros n vs per L calls s outs i c p HL E Hi ST. destruct (hist_start n vs per L HL calls) as (h & I & ND & H & RT).
  rewrite E in *. cbn [fst snd] in *.
  destruct (real_hist_nth n vs per _ h i c p H Hi) as (Lp & q & P & Eh).
  destruct (settled_round n vs per L p q HL Lp ST P) as (P2 & K & L2).
  pose proof (get_site_nth RA L h s i I) as G. rewrite Eh in G. cbn [option_map fst snd] in G.
  exists (map round3 q). eexists. split; [unfold site_location; rewrite G; reflexivity|]. split; [exact G|].
  rewrite (site_at_hit n vs per L HL h s _ _ i _ I ND L2 P2 Eh); auto.
Qed.

(** A one-dimensional cell of length 1. *)
Definition line : list vec := [[1%R]].
Definition line_lattice : lattice R := mkLattice line [true] line 1.
Lemma line_on : lattice_on 1 line [true] line_lattice.
Proof.
  apply lattice_on_intro; auto. split; auto. split; [repeat constructor|]. intros c Lc E.
  destruct c as [|x [|]]; try discriminate. unfold lincomb, vplus, vscale, vzero in E. simpl in E. injection E as E.
  unfold vzero; simpl. f_equal. lra.
Qed.
Lemma line_periodised x : periodised 1 line [true] [x] [(x - IZR (zfloor x))%R].
Proof.
  assert (C : coords 1 line [x] [x]).
  { split; auto. unfold lincomb, vplus, vscale, line, vzero; simpl. f_equal. ring. }
  pose proof (per_periodised 1 line [true] line_lattice line_on [x] [x] C) as P.
  unfold into_cell, lincomb, vplus, vscale, line, vzero in P; simpl in P.
  replace ((x - IZR (zfloor x)) * 1 + 0)%R with (x - IZR (zfloor x))%R in P by ring. exact P.
Qed.

Lemma milli z x : (Rabs (x * 1000 - IZR z) < 1/2)%R -> round3 x = (IZR z / 1000)%R.
Proof. intros H. unfold round3. now rewrite (zrint_near _ z). Qed.

(** One site near the upper edge of the cell. *)
Definition edge : list (string * vec) := [("A"%string, [(9996/10000)%R])].
Lemma edge_adds : exists s, adds RA (struct_init line_lattice) edge = (s, [Ok 0]) /\
  Inv RA line_lattice [("A"%string, [(9996/10000)%R], [(1001/1000)%R])] s.
Proof.
  pose proof (add_site_real 1 line [true] line_lattice line_on [] (struct_init line_lattice) "A" [(9996/10000)%R] (Inv_init _ _)) as H.
  destruct H as [[H _]|(q & _ & P & [[[] _]|(_ & s' & E & I)])]; [constructor|exfalso; apply H; reflexivity|].
  assert (q = [(9996/10000)%R]).
  { eapply (periodised_unique 1 line [true] line_lattice line_on); [|exact P|]; auto.
    pose proof (line_periodised (9996/10000)) as Q. rewrite zfloor_unit in Q by lra. replace (9996/10000)%R with (9996/10000 - 0)%R at 2 by ring. exact Q. }
  subst q. exists s'. split.
  - unfold edge; cbn [adds fst snd]. rewrite E. reflexivity.
  - assert (place [(9996/10000)%R] = [(1001/1000)%R]) as K by (unfold place; simpl; f_equal; apply (milli 1001); apply Rabs_def1; lra).
    rewrite K in I. exact I.
Qed.
Lemma edge_site s : Inv RA line_lattice [("A"%string, [(9996/10000)%R], [(1001/1000)%R])] s ->
  get_site s 0 = Some (mkSite "A" [1%R] 0).
Proof.
  intros I. pose proof (get_site_nth RA line_lattice _ s 0 I) as G. simpl in G. rewrite G. do 3 f_equal.
  fold (round3 (9996/10000)%R).
  rewrite (milli 1000); [lra|]. apply Rabs_def1; lra.
Qed.
Lemma edge_at_1 s : Inv RA line_lattice [("A"%string, [(9996/10000)%R], [(1001/1000)%R])] s ->
  site_at RA s [1%R] = Ok None.
Proof.
  intros I. pose proof (line_periodised 1) as P. rewrite zfloor_IZR in P. replace (1 - 1)%R with 0%R in P by ring.
  eapply (site_at_miss 1 line [true] line_lattice line_on); eauto. unfold keys; simpl. intros [K|[]].
  unfold place in K; simpl in K. injection K as K. revert K. rewrite (milli 1); [lra|]. apply Rabs_def1; lra.
Qed.

Lemma C32_refuted_lemma : exists n vs per L calls s outs i loc, lattice_on n vs per L /\
  adds RA (struct_init L) calls = (s, outs) /\ outs = [Ok i] /\ site_location s i = Ok loc /\ site_at RA s loc = Ok None.
Proof.
  destruct edge_adds as (s & E & I).
  exists 1%nat, line, [true], line_lattice, edge, s, [Ok 0], 0, [1%R].
  split; [apply line_on|]. split; auto. split; auto. split; [unfold site_location; rewrite (edge_site s I); auto|].
  now apply edge_at_1.
Qed.

(* ---------------------------------------------------------------- C34 *)
Lemma C34_lemma : forall F (A : arith F) (b : builder F),
  (forall l, length l <> l_dim (b_lattice b) -> build A b (SzTuple l) = Err ValueError) /\
  (forall k, build A b (SzInt k) = build A b (SzTuple (repeat k (l_dim (b_lattice b))))).
Proof.
  intros F A b. split.
  - intros l H. simpl. apply Nat.eqb_neq in H. now rewrite H.
  - intros k. simpl. now rewrite repeat_length, Nat.eqb_refl.
Qed.

(* ---------------------------------------------------------------- C35 *)
Lemma map_fst_strs {B} (l : list (Z * B)) : NoDup (map fst l) ->
  NoDup (map fst (map (fun kv => (str_of_Z (fst kv), snd kv)) l)).
Proof.
  intros N. rewrite map_map. simpl. rewrite <- (map_map fst str_of_Z).
  apply (NoDup_nth_error (map str_of_Z (map fst l))). intros i j Hi E. rewrite map_length in Hi.
  apply (proj1 (NoDup_nth_error (map fst l)) N); auto.
  rewrite !nth_error_map in E. rewrite !nth_error_map.
  destruct (nth_error l i) as [x|] eqn:Ei, (nth_error l j) as [y|] eqn:Ej; simpl in *; try discriminate; auto.
  injection E as E. apply str_of_Z_inj in E. congruence.
Qed.

Lemma mapM_unstr {B} (l : list (Z * B)) :
  mapM (fun kv => do k <- int_of_str (fst kv); Ok (k, snd kv)) (map (fun kv => (str_of_Z (fst kv), snd kv)) l) = Ok l.
Proof. induction l as [|[k v] l IH]; simpl; auto. rewrite int_of_str_of_Z. simpl. rewrite IH. reflexivity. Qed.

Lemma json_items F (s : structure F) (L : lattice F) h A : Inv A L h s ->
  (do items <- mapM (fun kv => do k <- int_of_str (fst kv); Ok (k, snd kv)) (snd (struct_json s)); Ok (dict_of items))
  = Ok (p_sites s).
Proof.
  intros (_ & _ & E & _). unfold struct_json. cbn [snd].
  assert (N : NoDup (map fst (p_sites s))).
  { rewrite E, map_map. rewrite (map_ext _ fst) by reflexivity. rewrite enumerate_keys. apply zrange_NoDup. }
  rewrite dict_of_id by (apply map_fst_strs; exact N). rewrite mapM_unstr. simpl. now rewrite dict_of_id.
Qed.

(** Re-adding settled sites rebuilds the same history. *)
Lemma readd n vs per L : lattice_on n vs per L -> forall acc h h0 s, real_hist n vs per acc h ->
  Forall (fun x => settled n vs per (snd x)) acc ->
  Inv RA L h0 s -> NoDup (keys (h0 ++ h)) ->
  exists s' h', foldM (fun s kv => add_site_or_raise RA s (s_class (snd kv), s_loc (snd kv)))
      (map (mk RA) (enumerate_from (Z.of_nat (length h0)) h)) s = Ok s' /\
    Inv RA L (h0 ++ h') s' /\
    Forall2 (fun e e' => e' = (fst (fst e), map round3 (snd (fst e)), snd e)) h h'.
Proof.
  intros HL. induction acc as [|[c p] acc IH]; intros h h0 s H ST I ND.
  - inversion H; subst. simpl. exists s, []. rewrite app_nil_r. auto.
  - inversion H as [|x0 e acc0 h1 (Lp & q & P & Ee) H1 Ex Eh]. subst x0 acc0 e h.
    inversion ST as [|x0 acc0 H3 H4 E0]. subst x0 acc0. cbn [fst snd] in *.
    destruct (settled_round n vs per L p q HL Lp H3 P) as (P2 & K & L2).
    assert (K1 : ~ In (place (map round3 q)) (keys h0)).
    { rewrite K. unfold keys in *. rewrite map_app in ND. simpl in ND. apply NoDup_remove_2 in ND. intros X; apply ND.
      apply in_or_app; auto. }
    assert (ND0 : NoDup (keys h0)).
    { unfold keys in *. rewrite map_app in ND. clear -ND. induction (map snd h0); [constructor|].
      inversion ND; subst. constructor; auto. intros X; apply H1. apply in_or_app; auto. }
    destruct (add_site_real n vs per L HL h0 s c (map round3 q) I ND0) as [[X _]|(q' & _ & P' & [[K2 _]|(_ & s1 & E & I1)])]; [contradiction| |].
    { exfalso. assert (q' = map round3 q) by (eapply periodised_unique; eauto). subst. contradiction. }
    assert (q' = map round3 q) by (eapply periodised_unique; eauto). subst q'. rewrite K in I1.
    destruct (IH h1 (h0 ++ [(c, map round3 q, place q)]) s1 H1 H4 I1) as (s' & h' & E' & I' & F').
    { unfold keys in *. rewrite map_app in *. rewrite map_app. simpl in *. rewrite <- app_assoc. exact ND. }
    exists s', ((c, map round3 q, place q) :: h'). split.
    + cbn [enumerate_from map foldM]. unfold mk at 1. cbn [fst snd s_class s_loc].
      unfold add_site_or_raise at 1. cbn [fst snd]. change (s_loc (snd (mk RA (Z.of_nat (length h0), (c, q, place q))))) with (map round3 q). rewrite E. cbn [bind].
      rewrite app_length in E'. cbn [length] in E'.
      replace (Z.of_nat (length h0) + 1) with (Z.of_nat (length h0 + 1)) by lia. exact E'.
    + rewrite <- app_assoc in I'. split; auto.
Qed.

Lemma C35_lemma : forall n vs per L calls s outs, lattice_on n vs per L ->
  adds RA (struct_init L) calls = (s, outs) ->
  Forall (fun x => settled n vs per (snd x)) (accepted calls outs) ->
  struct_from_dict RA (struct_json s) = Ok s.
Proof.
  intros n vs per L calls s outs HL E ST. destruct (hist_start n vs per L HL calls) as (h & I & ND & H & RT).
  rewrite E in *. cbn [fst snd] in *. pose proof (lattice_on_fields _ _ _ _ HL) as [EL Pn].
  unfold struct_from_dict, lattice_from_dict.
  replace (fst (struct_json s)) with (vs, per).
  2: { unfold struct_json, lattice_as_dict. destruct I as (E1 & _). rewrite E1, EL. reflexivity. }
  cbn [fst snd]. rewrite (lattice_init_flags n); [|auto|apply HL]. cbn [bind flags].
  rewrite <- EL. pose proof (json_items R s L h RA I) as J.
  destruct (mapM _ (snd (struct_json s))) as [items|] eqn:EM; [|discriminate]. cbn [bind] in *. injection J as J. rewrite J.
  destruct (readd n vs per L HL _ h [] (struct_init L) H ST (Inv_init RA L) ND) as (s' & h' & E' & I' & F').
  pose proof I as (E1 & E2 & E3 & E4 & E5). rewrite E3. cbn [app length] in *. change (Z.of_nat 0) with 0 in E'. unfold enumerate. rewrite E'. f_equal.
  destruct I' as (E1' & E2' & E3' & E4' & E5').
  assert (Lh : length h' = length h) by (clear -F'; induction F'; simpl; auto).
  destruct s as [a b c d e], s' as [a' b' c' d' e']. clear J EM items. cbn [p_lattice p_dim p_sites p_ids p_lookup] in *. subst a b c d e a' b' c' d' e'. f_equal.
  - clear -F'. unfold enumerate. generalize 0 as i. induction F'; intros i; simpl; auto. f_equal; auto. subst.
    unfold mk; simpl. do 2 f_equal. apply round_round.
  - now rewrite Lh.
  - clear -F'. unfold enumerate. generalize 0 as i. induction F'; intros i; simpl; auto. f_equal; auto. subst. reflexivity.
Qed.

Lemma C35_refuted_lemma : exists n vs per L calls s outs s', lattice_on n vs per L /\
  adds RA (struct_init L) calls = (s, outs) /\ struct_from_dict RA (struct_json s) = Ok s' /\
  site_location s' 0 <> site_location s 0 /\
  exists p x, site_at RA s p = Ok (Some x) /\ site_at RA s' p = Ok None.
Proof.
  destruct edge_adds as (s & E & I).
  assert (Z0 : place [0%R] = [(1/1000)%R]) by (unfold place; simpl; f_equal; apply (milli 1); apply Rabs_def1; lra).
  pose proof (line_periodised 1) as P1. rewrite zfloor_IZR in P1. replace (1 - 1)%R with 0%R in P1 by ring.
  assert (exists s', struct_from_dict RA (struct_json s) = Ok s' /\
            Inv RA line_lattice [("A"%string, [0%R], [(1/1000)%R])] s') as (s' & E' & I').
  { unfold struct_from_dict, lattice_from_dict.
    replace (fst (struct_json s)) with (line, [true]) by (unfold struct_json, lattice_as_dict; destruct I as (-> & _); reflexivity).
    cbn [fst snd]. rewrite (lattice_init_flags 1); [|lia|apply line_on]. cbn [bind flags].
    pose proof (json_items R s _ _ RA I) as J.
    destruct (mapM _ (snd (struct_json s))) as [items|] eqn:EM; [|discriminate]. cbn [bind] in *. injection J as J. rewrite J.
    pose proof I as (_ & _ & E3 & _).
    assert (p_sites s = [(0, mkSite "A" [1%R] 0)]) as ->.
    { rewrite E3. unfold mk, enumerate; simpl. do 4 f_equal.
      fold (round3 (9996/10000)%R). rewrite (milli 1000); [lra|apply Rabs_def1; lra]. }
    cbn [foldM snd s_class s_loc]. unfold add_site_or_raise. cbn [fst snd].
    destruct (add_site_real 1 line [true] line_lattice line_on [] (struct_init line_lattice) "A" [1%R] (Inv_init _ _))
      as [[H _]|(q & _ & P & [[[] _]|(_ & s1 & EA & I1)])]; [constructor|exfalso; apply H; reflexivity|].
    fold line_lattice. rewrite EA. cbn [bind]. exists s1. split; auto.
    assert (q = [0%R]) by (apply (periodised_unique 1 line [true] line_lattice line_on [1%R]); auto). subst q.
    rewrite Z0 in I1. exact I1. }
  exists 1%nat, line, [true], line_lattice, edge, s, [Ok 0], s'. split; [apply line_on|]. split; auto. split; auto. split.
  - unfold site_location. rewrite (edge_site s I). pose proof (get_site_nth RA line_lattice _ s' 0 I') as G. simpl in G.
    rewrite G. cbn [s_loc]. fold (round3 (IZR 0)). rewrite round3_IZR. intros X. injection X as X. lra.
  - exists [(9996/10000)%R], (mkSite "A" [1%R] 0).
    pose proof (line_periodised (9996/10000)) as Q. rewrite zfloor_unit in Q by lra. rewrite Rminus_0_r in Q.
    assert (K : place [(9996/10000)%R] = [(1001/1000)%R]) by (unfold place; simpl; f_equal; apply (milli 1001); apply Rabs_def1; lra).
    split.
    + rewrite (site_at_hit 1 line [true] line_lattice line_on _ s _ [(9996/10000)%R] 0%nat ("A"%string, [(9996/10000)%R], [(1001/1000)%R]) I); auto.
      * cbn [fst snd]. simpl. do 4 f_equal. rewrite (milli 1000); [lra|apply Rabs_def1; lra].
      * repeat constructor; auto.
    + apply (site_at_miss 1 line [true] line_lattice line_on _ s' _ [(9996/10000)%R] I'); auto. rewrite K. unfold keys; simpl.
      intros [X|[]]. injection X as X. lra.
Qed.

(* ---------------------------------------------------------------- C36 *)
Lemma filter_partition {B C} `{EqbOk C} (f : B -> C) (l : list B) (cs : list C) :
  NoDup cs -> (forall x, In x l -> In (f x) cs) ->
  Permutation (flat_map (fun c => filter (fun x => eqb (f x) c) l) cs) l.
Proof.
  revert cs; induction l as [|x l IH]; intros cs N H1.
  - replace (flat_map _ cs) with (@nil B); auto. clear. induction cs; simpl; auto.
  - destruct (in_split (f x) cs) as (c1 & c2 & ->); [apply H1; simpl; auto|].
    assert (Q : forall cs', ~ In (f x) cs' ->
      flat_map (fun c => filter (fun y => eqb (f y) c) (x :: l)) cs' = flat_map (fun c => filter (fun y => eqb (f y) c) l) cs').
    { induction cs' as [|c cs' IH']; intros NI; [reflexivity|]. cbn [flat_map]. rewrite IH' by (simpl in NI; tauto). cbn [filter].
      destruct (eqb_spec (f x) c) as [E|E]; [exfalso; apply NI; simpl; auto|auto]. }
    pose proof (NoDup_remove_2 _ _ _ N) as NI. rewrite in_app_iff in NI.
    transitivity (x :: flat_map (fun c => filter (fun y => eqb (f y) c) l) (c1 ++ f x :: c2));
      [|constructor; apply IH; auto; intros; apply H1; simpl; auto].
    rewrite !flat_map_app. cbn [flat_map]. rewrite !Q by tauto. cbn [filter].
    rewrite eqb_refl. cbn [app]. symmetry. apply Permutation_middle.
Qed.

Lemma C36_lemma : forall F (A : arith F) L calls s outs ord, adds A (struct_init L) calls = (s, outs) ->
  (forall l, Permutation (ord l) l) ->
  map s_id (sites s None) = zrange 0 (Z.of_nat (length (accepted calls outs))) /\
  map s_class (sites s None) = map fst (accepted calls outs) /\
  (forall c, sites s (Some c) = filter (fun x => String.eqb (s_class x) c) (sites s None)) /\
  NoDup (all_site_classes ord s) /\
  (forall c, In c (all_site_classes ord s) <-> exists x, In x (sites s None) /\ s_class x = c) /\
  Permutation (flat_map (fun c => sites s (Some c)) (all_site_classes ord s)) (sites s None).
Proof.
  intros F A L calls s outs ord E HO.
  destruct (adds_inv A L calls [] (struct_init L) (Inv_init A L)) as (h & I & H & _ & RT).
  rewrite E in *. cbn [fst snd app] in *.
  assert (Ln : length (accepted calls outs) = length h) by (clear -H; induction H; simpl; auto).
  assert (IN : forall c, In c (all_site_classes ord s) <-> exists x, In x (sites s None) /\ s_class x = c).
  { intros c. unfold all_site_classes. split.
    - intros Hc. apply (Permutation_in _ (HO _)) in Hc. rewrite dedup_In in Hc. apply in_map_iff in Hc as (x & <- & Hx). eauto.
    - intros (x & Hx & <-). apply (Permutation_in _ (Permutation_sym (HO _))). rewrite dedup_In. now apply in_map. }
  assert (ND : NoDup (all_site_classes ord s)).
  { eapply Permutation_NoDup; [apply Permutation_sym, HO|]. apply dedup_NoDup. }
  split; [|split; [|split; [|split; [|split]]]]; auto.
  - rewrite (sites_list A L h s I), map_map. rewrite (map_ext _ fst) by reflexivity. rewrite enumerate_keys, Ln. reflexivity.
  - rewrite (sites_list A L h s I), map_map. cbn. rewrite <- (map_map snd (fun e => fst (fst e))).
    unfold enumerate. rewrite enumerate_from_snd. clear -H. induction H; simpl; auto. f_equal; auto. symmetry. apply H.
  - unfold sites at 1. apply (filter_partition s_class (sites s None)); auto. intros x Hx. apply IN. eauto.
Qed.
