(** Neighbourhood properties C37-C40, C42 (first half), C43, C45, as lemmas. *)
From Coq Require Import Reals Lra Permutation.
From Verif Require Import Prelude Dict Arith RVec RealArith LatticeModel JsonModel JsonFacts StructModel NbModel
  SpecGeom SpecNb LatticeFacts LatticeMore StructFacts StructMore StructBuild NbFacts.
Local Open Scope Z_scope.

Definition wrap {F} (y : Z * option F) : option Z * option F := (Some (fst y), snd y).

Lemma pick_fold {F} (D : site F -> res F) (p : site F -> bool) (t : F -> bool) l : forall acc,
  (forall x, In x l -> p x = true -> exists d, D x = Ok d) ->
  exists ys,
    foldM (fun nbs other => if p other then
                              do dist <- D other; Ok (if t dist then nbs ++ [(Some (s_id other), Some dist)] else nbs)
                            else Ok nbs) l acc = Ok (acc ++ map wrap ys) /\
    forall j w, In (j, w) ys <-> exists x d, In x l /\ p x = true /\ D x = Ok d /\ t d = true /\ j = s_id x /\ w = Some d.
Proof.
  induction l as [|x l IH]; intros acc T.
  - exists []. split; [simpl; now rewrite app_nil_r|]. intros j w. split; [intros []|intros (? & ? & [] & _)].
  - cbn [foldM]. assert (T' : forall y, In y l -> p y = true -> exists d, D y = Ok d) by (intros; apply T; simpl; auto).
    destruct (p x) eqn:Px.
    + destruct (T x) as [d Ed]; [simpl; auto|auto|]. rewrite Ed. cbn [bind]. destruct (t d) eqn:Td.
      * destruct (IH (acc ++ [(Some (s_id x), Some d)]) T') as (ys & E & H). exists ((s_id x, Some d) :: ys).
        split; [rewrite E, <- app_assoc; reflexivity|]. intros j w. simpl. rewrite H. split.
        -- intros [X|(y & e & Hy & R)]; [injection X as <- <-; exists x, d; auto 10|exists y, e; auto].
        -- intros (y & e & [<-|Hy] & P1 & E1 & T1 & -> & ->); [left; congruence|right; exists y, e; auto 10].
      * destruct (IH acc T') as (ys & E & H). exists ys. split; auto. intros j w. rewrite H. split.
        -- intros (y & e & Hy & R). exists y, e. simpl; auto.
        -- intros (y & e & [<-|Hy] & P1 & E1 & T1 & R); [congruence|exists y, e; auto].
    + cbn [bind]. destruct (IH acc T') as (ys & E & H). exists ys. split; auto. intros j w. rewrite H. split.
      * intros (y & e & Hy & R). exists y, e. simpl; auto.
      * intros (y & e & [<-|Hy] & P1 & R); [congruence|exists y, e; auto].
Qed.

Section Real.
  Variables (n : nat) (vs : list vec) (per : list bool) (L : lattice R).
  Hypothesis HL : lattice_on n vs per L.
  Variable s : structure R.
  Hypothesis HB : built RA L s.

  Lemma real_built : exists acc h, Inv RA L h s /\ NoDup (keys h) /\ real_hist n vs per acc h.
  Proof.
    destruct HB as (calls & ->). destruct (hist_start n vs per L HL calls) as (h & H1 & H2 & H3 & _). eauto.
  Qed.
  Lemma built_get i x : get_site s i = Some x <-> In x (sites s None) /\ s_id x = i.
  Proof. destruct (built_inv RA L s HB) as [h I]. eapply inv_get_site; eauto. Qed.
  Lemma built_lattice : p_lattice s = L.
  Proof. destruct (built_inv RA L s HB) as (h & E & _). auto. Qed.
  Lemma built_loc x : In x (sites s None) -> length (s_loc x) = n.
  Proof.
    destruct real_built as (acc & h & I & _ & H). rewrite (sites_list RA L h s I). intros Hx.
    apply in_map_iff in Hx as ([i e] & <- & He). cbn [s_loc snd mk fst]. unfold get_rounded_coords. rewrite map_length.
    assert (Ie : In e h) by (apply (in_map snd) in He; unfold enumerate in He; rewrite enumerate_from_snd in He; auto).
    apply In_nth_error in Ie as [k Ek]. destruct (real_hist_nth' n vs per acc h k e H Ek) as (c & p & q & _ & Lp & P & ->).
    simpl. eapply (periodised_len n vs per L HL); eauto.
  Qed.

  Lemma in_sites cls i x : get_site s i = Some x -> in_class cls (s_class x) -> In x (sites s cls).
  Proof.
    intros G C. apply built_get in G as [G _]. destruct cls as [c|]; auto. apply sites_class. auto.
  Qed.
  Lemma sites_in cls x : In x (sites s cls) -> get_site s (s_id x) = Some x /\ in_class cls (s_class x).
  Proof.
    intros H. split; [apply built_get; split; [eapply sites_sub; eauto|auto]|].
    destruct cls as [c|]; simpl; auto. apply sites_class in H. apply H.
  Qed.

  Lemma dist_total x y : In x (sites s None) -> In y (sites s None) ->
    exists d, cartesian_periodic_distance RA L (s_loc x) (s_loc y) = Ok d.
  Proof.
    intros Hx Hy. destruct (dist_image n vs per L HL (s_loc x) (s_loc y)) as (q & _ & E); try now apply built_loc. eauto.
  Qed.

  (** Neighbourhoods given by a test on the distance. *)
  Lemma by_distance b (t : R -> bool) cls :
    (forall cur, get_neighbors RA b s cur =
       foldM (fun nbs other => if negb (s_id cur =? s_id other) then
                do dist <- cartesian_periodic_distance RA L (s_loc other) (s_loc cur);
                Ok (if t dist then nbs ++ [(Some (s_id other), Some dist)] else nbs)
              else Ok nbs) (sites s None) []) ->
    exists g, get_graph RA b s cls = Ok g /\
      forall i x, get_site s i = Some x -> in_class cls (s_class x) ->
        neighbours (NGraph g) i (fun j => j <> i /\ exists y d, get_site s j = Some y /\
          cartesian_periodic_distance RA L (s_loc x) (s_loc y) = Ok d /\ t d = true) /\
        weights (NGraph g) i (fun j w => exists y d, get_site s j = Some y /\
          cartesian_periodic_distance RA L (s_loc x) (s_loc y) = Ok d /\ w = Some d).
  Proof.
    intros HN. pose proof (built_dense RA L s HB) as DS.
    assert (P : forall cur, In cur (sites s None) -> exists ys, get_neighbors RA b s cur = Ok (map wrap ys) /\
       forall j w, In (j, w) ys <-> exists y d, In y (sites s None) /\ negb (s_id cur =? s_id y) = true /\
         cartesian_periodic_distance RA L (s_loc y) (s_loc cur) = Ok d /\ t d = true /\ j = s_id y /\ w = Some d).
    { intros cur Hc. rewrite HN.
      destruct (pick_fold (fun y => cartesian_periodic_distance RA L (s_loc y) (s_loc cur))
                  (fun y => negb (s_id cur =? s_id y)) t (sites s None) []) as (ys & E & H).
      { intros y Hy _. now apply dist_total. }
      exists ys. split; auto. }
    destruct (graph_of RA b s cls DS) as (g & Eg & OUT & _).
    { intros cur Hc. apply sites_sub in Hc. destruct (P cur Hc) as (ys & E & H). exists (map wrap ys). split; auto.
      apply Forall_forall. intros z Hz. apply in_map_iff in Hz as ([j w] & <- & Hy). exists j. split; auto.
      apply H in Hy as (y & d & Hy & _ & _ & _ & -> & _). now apply dense_id. }
    exists g. split; auto. intros i x Gx Cx. pose proof (in_sites cls i x Gx Cx) as Hx.
    assert (Ei : s_id x = i) by (apply built_get in Gx; apply Gx).
    assert (Hx0 : In x (sites s None)) by (eapply sites_sub; eauto).
    destruct (OUT x Hx) as (ys & E1 & E2). destruct (P x Hx0) as (ys' & E1' & H). rewrite E1 in E1'.
    assert (ys = ys').
    { assert (X : map wrap ys = map wrap ys') by (unfold wrap at 1; congruence). clear -X. revert ys' X.
      induction ys as [|[a b] ys IH]; destruct ys' as [|[c d] ys']; simpl; intros X; try discriminate; auto.
      unfold wrap in X. simpl in X. injection X as -> -> X. f_equal. auto. }
    subst ys'. rewrite Ei in E2.
    assert (SYM : forall y, In y (sites s None) ->
       cartesian_periodic_distance RA L (s_loc y) (s_loc x) = cartesian_periodic_distance RA L (s_loc x) (s_loc y)).
    { intros y Hy. apply (dist_sym n vs per L HL); now apply built_loc. }
    split.
    - apply graph_neighbours. intros j. rewrite E2, map_rev, <- in_rev, in_map_iff. split.
      + intros (N & y & d & Gy & Ed & Td). apply built_get in Gy as [Hy Ej]. exists (j, Some d). split; auto.
        apply H. exists y, d. rewrite SYM by auto. subst. repeat split; auto. lia.
      + intros ([j' w] & Ej & Hy). simpl in Ej. subst j'. apply H in Hy as (y & d & Hy & N & Ed & Td & -> & ->).
        rewrite SYM in Ed by auto. split; [lia|]. exists y, d. split; auto. apply built_get. auto.
    - apply graph_weights. intros j w. rewrite E2, <- in_rev. intros Hy. apply H in Hy as (y & d & Hy & N & Ed & Td & -> & ->).
      rewrite SYM in Ed by auto. exists y, d. split; auto. apply built_get. auto.
  Qed.
End Real.

Lemma Rltb_true x y : a_ltb RA x y = true <-> (x < y)%R.
Proof. simpl. destruct (Rlt_dec x y); split; auto; try discriminate; contradiction. Qed.

(* ---------------------------------------------------------------- C37 *)
Lemma C37_lemma : forall n vs per L s cutoff cls, lattice_on n vs per L -> built RA L s ->
  exists N, nb_get RA (BDistance cutoff) s cls = Ok N /\
    forall i x, get_site s i = Some x -> in_class cls (s_class x) ->
      neighbours N i (fun j => j <> i /\ exists y d, get_site s j = Some y /\
        cartesian_periodic_distance RA L (s_loc x) (s_loc y) = Ok d /\ (d < cutoff)%R) /\
      weights N i (fun j w => exists y d, get_site s j = Some y /\
        cartesian_periodic_distance RA L (s_loc x) (s_loc y) = Ok d /\ w = Some d).
Proof.
  intros n vs per L s cutoff cls HL HB.
  destruct (by_distance n vs per L HL s HB (BDistance cutoff) (fun d => a_ltb RA d cutoff) cls) as (g & E & H).
  { intros cur. simpl. unfold distance_neighbors. now rewrite (built_lattice L s HB). }
  exists (NGraph g). cbn [nb_get]. rewrite E. split; auto. intros i x Gx Cx. destruct (H i x Gx Cx) as [H1 H2].
  split; auto. intros o Lo. destruct (H1 o Lo) as (l & E1 & ND & IN). exists l. split; auto. split; auto.
  intros j. rewrite IN. split; intros (Nj & y & d & R1 & R2 & R3); (split; [auto|]); exists y, d; (split; [auto|]); (split; [auto|]); now apply Rltb_true.
Qed.

Lemma C37_symmetric_lemma : forall n vs per L s cutoff cutoff' N N' o i j l l' m, lattice_on n vs per L -> built RA L s ->
  nb_get RA (BDistance cutoff) s None = Ok N -> nb_get RA (BDistance cutoff') s None = Ok N' -> legal o ->
  get_site s i <> None -> get_site s j <> None ->
  neighbors_of o N i = Ok l -> neighbors_of o N j = Ok l' -> neighbors_of o N' i = Ok m -> 
  (In j l <-> In i l') /\ ((cutoff <= cutoff')%R -> forall k, In k l -> In k m).
Proof.
  intros n vs per L s c c' N N' o i j l l' m HL HB EN EN' LO Gi Gj El El' Em.
  destruct (C37_lemma n vs per L s c None HL HB) as (M & E & H). rewrite EN in E. injection E as <-.
  destruct (C37_lemma n vs per L s c' None HL HB) as (M' & E & H'). rewrite EN' in E. injection E as <-.
  destruct (get_site s i) as [x|] eqn:Gx; [|congruence]. destruct (get_site s j) as [y|] eqn:Gy; [|congruence].
  destruct (H i x Gx I) as [Hx _]. destruct (Hx o LO) as (l1 & E1 & _ & I1). rewrite El in E1. injection E1 as <-.
  destruct (H j y Gy I) as [Hy _]. destruct (Hy o LO) as (l2 & E2 & _ & I2). rewrite El' in E2. injection E2 as <-.
  destruct (H' i x Gx I) as [Hz _]. destruct (Hz o LO) as (l3 & E3 & _ & I3). rewrite Em in E3. injection E3 as <-.
  assert (Lx : length (s_loc x) = n) by (apply (built_loc n vs per L HL s HB); now apply (built_get L s HB) in Gx).
  assert (Ly : length (s_loc y) = n) by (apply (built_loc n vs per L HL s HB); now apply (built_get L s HB) in Gy).
  pose proof (dist_sym n vs per L HL (s_loc x) (s_loc y) Lx Ly) as SYM. split.
  - rewrite I1, I2. split; intros (D & z & d & Gz & Ed & Ld); (split; [auto|]).
    + exists x, d. rewrite Gy in Gz. injection Gz as <-. rewrite <- SYM. auto.
    + exists y, d. rewrite Gx in Gz. injection Gz as <-. rewrite SYM. auto.
  - intros LE k. rewrite I1, I3. intros (D & z & d & Gz & Ed & Ld). split; auto. exists z, d. split; auto. split; auto. lra.
Qed.

(* ---------------------------------------------------------------- C38 *)
Lemma C38_lemma : forall n vs per L s inner outer cls, lattice_on n vs per L -> built RA L s ->
  exists N, nb_get RA (BAnnular inner outer) s cls = Ok N /\
    forall i x, get_site s i = Some x -> in_class cls (s_class x) ->
      neighbours N i (fun j => j <> i /\ exists y d, get_site s j = Some y /\
        cartesian_periodic_distance RA L (s_loc x) (s_loc y) = Ok d /\ (inner < d < outer)%R) /\
      weights N i (fun j w => exists y d, get_site s j = Some y /\
        cartesian_periodic_distance RA L (s_loc x) (s_loc y) = Ok d /\ w = Some d).
Proof.
  intros n vs per L s inner outer cls HL HB.
  destruct (by_distance n vs per L HL s HB (BAnnular inner outer) (fun d => a_ltb RA inner d && a_ltb RA d outer) cls) as (g & E & H).
  { intros cur. simpl. unfold annular_neighbors. now rewrite (built_lattice L s HB). }
  exists (NGraph g). cbn [nb_get]. rewrite E. split; auto. intros i x Gx Cx. destruct (H i x Gx Cx) as [H1 H2].
  split; auto. intros o Lo. destruct (H1 o Lo) as (l & E1 & ND & IN). exists l. split; auto. split; auto.
  intros j. rewrite IN. split; intros (Nj & y & d & R1 & R2 & R3); (split; [auto|]); exists y, d; (split; [auto|]); (split; [auto|]).
  - apply andb_prop in R3 as [A1 A2]. split; now apply Rltb_true.
  - apply andb_true_intro. split; apply Rltb_true; tauto.
Qed.

Lemma C38_difference_lemma : forall n vs per L s inner outer N N' o i j x y d l l' m, lattice_on n vs per L -> built RA L s ->
  nb_get RA (BAnnular inner outer) s None = Ok N -> nb_get RA (BDistance outer) s None = Ok N' -> legal o ->
  get_site s i = Some x -> get_site s j = Some y -> cartesian_periodic_distance RA L (s_loc x) (s_loc y) = Ok d ->
  neighbors_of o N i = Ok l -> neighbors_of o N j = Ok l' -> neighbors_of o N' i = Ok m ->
  (In j l <-> In i l') /\ (In j l <-> In j m /\ ~ (d <= inner)%R).
Proof.
  intros n vs per L s c c' N N' o i j x y d l l' m HL HB EN EN' LO Gx Gy Ed El El' Em.
  destruct (C38_lemma n vs per L s c c' None HL HB) as (M & E & H). rewrite EN in E. injection E as <-.
  destruct (C37_lemma n vs per L s c' None HL HB) as (M' & E & H'). rewrite EN' in E. injection E as <-.
  destruct (H i x Gx I) as [Hx _]. destruct (Hx o LO) as (l1 & E1 & _ & I1). rewrite El in E1. injection E1 as <-.
  destruct (H j y Gy I) as [Hy _]. destruct (Hy o LO) as (l2 & E2 & _ & I2). rewrite El' in E2. injection E2 as <-.
  destruct (H' i x Gx I) as [Hz _]. destruct (Hz o LO) as (l3 & E3 & _ & I3). rewrite Em in E3. injection E3 as <-.
  assert (Lx : length (s_loc x) = n) by (apply (built_loc n vs per L HL s HB); now apply (built_get L s HB) in Gx).
  assert (Ly : length (s_loc y) = n) by (apply (built_loc n vs per L HL s HB); now apply (built_get L s HB) in Gy).
  pose proof (dist_sym n vs per L HL (s_loc x) (s_loc y) Lx Ly) as SYM. split.
  - rewrite I1, I2. split; intros (D & z & e & Gz & Ee & Le); (split; [auto|]).
    + exists x, e. rewrite Gy in Gz. injection Gz as <-. rewrite <- SYM. auto.
    + exists y, e. rewrite Gx in Gz. injection Gz as <-. rewrite SYM. auto.
  - rewrite I1, I3. split.
    + intros (D & z & e & Gz & Ee & Le). rewrite Gy in Gz. injection Gz as <-. rewrite Ed in Ee. injection Ee as <-.
      split; [|lra]. split; auto. exists y, d. split; auto. split; auto. lra.
    + intros ((D & z & e & Gz & Ee & Le) & NI). rewrite Gy in Gz. injection Gz as <-. rewrite Ed in Ee. injection Ee as <-.
      split; auto. exists y, d. split; auto. split; auto. lra.
Qed.

(* ---------------------------------------------------------------- C45 *)
Definition round2 (x : R) : R := (IZR (zrint (x * 100)) / 100)%R.

Lemma find_dist_spec (dist : list R -> list R -> res R) (f : vec -> R) locs : forall d,
  (forall v, In v locs -> dist (zeros RA (length v)) v = Ok (f v)) ->
  exists d', foldM (fun d loc => do x <- dist (zeros RA (length loc)) loc; Ok (@dset (list R) R (Eqb_vec_nb RA) loc x d)) locs d = Ok d' /\
    forall v, @dget (list R) R (Eqb_vec_nb RA) v d' =
      if existsb (fun u => vec_eqb RA v u) locs then Some (f v) else @dget (list R) R (Eqb_vec_nb RA) v d.
Proof.
  induction locs as [|u locs IH]; intros d H; [exists d; auto|]. cbn [foldM]. rewrite H by (simpl; auto). cbn [bind].
  destruct (IH (@dset (list R) R (Eqb_vec_nb RA) u (f u) d)) as (d' & E & G); [intros; apply H; simpl; auto|].
  exists d'. split; auto. intros v. rewrite G. simpl. destruct (existsb _ locs) eqn:X; [now rewrite orb_true_r|].
  rewrite orb_false_r. change (vec_eqb RA v u) with (@eqb (list R) (Eqb_vec_nb RA) v u).
  destruct (@eqb_spec (list R) (Eqb_vec_nb RA) EqbOk_vecR v u) as [->|N].
  - apply (@dget_dset_same (list R) R (Eqb_vec_nb RA) EqbOk_vecR).
  - now apply (@dget_dset_other (list R) R (Eqb_vec_nb RA) EqbOk_vecR).
Qed.
Lemma existsb_vec v locs : existsb (fun u => vec_eqb RA v u) locs = true <-> In v locs.
Proof.
  rewrite existsb_exists. split.
  - intros (u & H & E). change (vec_eqb RA v u) with (@eqb (list R) (Eqb_vec_nb RA) v u) in E.
    destruct (@eqb_spec (list R) (Eqb_vec_nb RA) EqbOk_vecR v u); [congruence|discriminate].
  - intros H. exists v. split; auto. change (vec_eqb RA v v) with (@eqb (list R) (Eqb_vec_nb RA) v v).
    destruct (@eqb_spec (list R) (Eqb_vec_nb RA) EqbOk_vecR v v); congruence.
Qed.
Lemma zeros_minus v : zipwith (a_sub RA) (zeros RA (length v)) v = map Ropp v.
Proof. unfold zeros. induction v; simpl; auto. f_equal; [ring|auto]. Qed.
Lemma dot_opp v : vdot (map Ropp v) (map Ropp v) = vdot v v.
Proof. induction v; simpl; auto. unfold vdot in *. simpl. rewrite IHv. ring. Qed.
Lemma euclid_ok v : euclidean_distance RA (zeros RA (length v)) v = Ok (round2 (vlength v)).
Proof.
  unfold euclidean_distance, distance. rewrite bcast_eq by (unfold zeros; now rewrite repeat_length). cbn [bind].
  rewrite zeros_minus, dot_RA, dot_opp. reflexivity.
Qed.
Lemma manhattan_ok v : manhattan_distance RA (zeros RA (length v)) v = Ok (fold_right Rplus 0 (map Rabs v))%R.
Proof.
  unfold manhattan_distance. rewrite bcast_eq by (unfold zeros; now rewrite repeat_length). cbn [bind].
  rewrite zeros_minus. f_equal. induction v; simpl; auto. rewrite Rabs_Ropp. f_equal; auto.
Qed.

Lemma C45_lemma : forall locs,
  (exists d, find_distances RA (euclidean_distance RA) locs = Ok d /\
     (forall v, In v locs -> get_dist RA d v = Some (round2 (vlength v))) /\
     (forall v, ~ In v locs -> get_dist RA d v = None)) /\
  (exists d, find_distances RA (manhattan_distance RA) locs = Ok d /\
     (forall v, In v locs -> get_dist RA d v = Some (fold_right Rplus 0 (map Rabs v))%R) /\
     (forall v, ~ In v locs -> get_dist RA d v = None)).
Proof.
  intros locs. split.
  - destruct (find_dist_spec (euclidean_distance RA) (fun v => round2 (vlength v)) locs []) as (d & E & G).
    { intros. apply euclid_ok. }
    exists d. split; auto. split; intros v Hv; unfold get_dist; rewrite G.
    + apply existsb_vec in Hv. now rewrite Hv.
    + destruct (existsb _ locs) eqn:X; auto. apply existsb_vec in X. contradiction.
  - destruct (find_dist_spec (manhattan_distance RA) (fun v => fold_right Rplus 0 (map Rabs v))%R locs []) as (d & E & G).
    { intros. apply manhattan_ok. }
    exists d. split; auto. split; intros v Hv; unfold get_dist; rewrite G.
    + apply existsb_vec in Hv. now rewrite Hv.
    + destruct (existsb _ locs) eqn:X; auto. apply existsb_vec in X. contradiction.
Qed.

(* ---------------------------------------------------------------- C39 *)
Lemma motif_fold (ids : vec -> res (option Z)) (w : vec -> option R) i motif : forall acc,
  (forall v, In v motif -> exists o, ids v = Ok o) ->
  exists ys, foldM (fun nbs vec => do nb_id <- ids vec; Ok (if is_other nb_id i then nbs ++ [(nb_id, w vec)] else nbs)) motif acc
    = Ok (acc ++ ys) /\
    forall o x, In (o, x) ys <-> exists v, In v motif /\ ids v = Ok o /\ is_other o i = true /\ x = w v.
Proof.
  induction motif as [|v motif IH]; intros acc T.
  - exists []. split; [simpl; now rewrite app_nil_r|]. intros o x. split; [intros []|intros (? & [] & _)].
  - cbn [foldM]. destruct (T v) as [o Eo]; [simpl; auto|]. rewrite Eo. cbn [bind].
    assert (T' : forall u, In u motif -> exists o, ids u = Ok o) by (intros; apply T; simpl; auto).
    destruct (is_other o i) eqn:IO.
    + destruct (IH (acc ++ [(o, w v)]) T') as (ys & E & H). exists ((o, w v) :: ys). split; [rewrite E, <- app_assoc; auto|].
      intros o' x. simpl. rewrite H. split.
      * intros [X|(u & Hu & R)]; [injection X as <- <-; exists v; auto|exists u; auto].
      * intros (u & [<-|Hu] & E1 & I1 & ->); [left; congruence|right; exists u; auto].
    + destruct (IH acc T') as (ys & E & H). exists ys. split; auto. intros o' x. rewrite H. split.
      * intros (u & Hu & R). exists u. simpl; auto.
      * intros (u & [<-|Hu] & E1 & I1 & R); [congruence|exists u; auto].
Qed.

Section Motif.
  Variables (n : nat) (vs : list vec) (per : list bool) (L : lattice R).
  Hypothesis HL : lattice_on n vs per L.
  Variable s : structure R.
  Hypothesis HB : built RA L s.

  Lemma id_total p : length p = n -> exists o, id_at RA s p = Ok o /\
    forall j, o = Some j -> 0 <= j < Z.of_nat (length (sites s None)).
  Proof.
    intros Lp. pose proof (built_dense RA L s HB) as DS. destruct HB as (calls & ES). rewrite ES.
    destruct (adds RA (struct_init L) calls) as [s' outs] eqn:EA. cbn [fst] in *. subst s'.
    destruct (C29_lemma n vs per L calls s outs HL EA) as [_ H]. destruct (H p Lp) as [(i & c & p' & x & _ & _ & G & _ & Ex & _ & E & _)|(_ & _ & E & _)].
    - exists (Some (Z.of_nat i)). split; auto. intros j Ej. injection Ej as <-.
      apply (built_get L s) in G as [G Ei]; [|exists calls; now rewrite EA]. rewrite <- Ei. apply dense_id; auto.
    - exists None. split; auto. discriminate.
  Qed.

  Lemma motif_nbs motif d cur : Forall (fun v => length v = n) motif -> In cur (sites s None) ->
    exists ys, get_neighbors RA (BMotif motif d) s cur = Ok ys /\
      Forall (fun x => forall j, fst x = Some j -> 0 <= j < Z.of_nat (length (sites s None))) ys /\
      forall o x, In (o, x) ys <-> exists v, In v motif /\ id_at RA s (vplus (s_loc cur) v) = Ok o /\
        is_other o (s_id cur) = true /\ x = get_dist RA d v.
  Proof.
    intros FM Hc. pose proof (built_loc n vs per L HL s HB cur Hc) as Lc.
    assert (T : forall v, In v motif -> exists o, id_at RA s (vplus (s_loc cur) v) = Ok o /\
       forall j, o = Some j -> 0 <= j < Z.of_nat (length (sites s None))).
    { intros v Hv. apply id_total. rewrite Forall_forall in FM. rewrite vplus_length; [exact Lc|]. rewrite Lc. symmetry. auto. }
    destruct (motif_fold (fun v => id_at RA s (vplus (s_loc cur) v)) (get_dist RA d) (s_id cur) motif []) as (ys & E & H).
    { intros v Hv. destruct (T v Hv) as (o & Eo & _). eauto. }
    exists ys. split; [exact E|]. split; auto. apply Forall_forall. intros [o x] Hx j Ej. apply H in Hx as (v & Hv & Eo & _).
    destruct (T v Hv) as (o' & Eo' & R). rewrite Eo in Eo'. injection Eo' as <-. auto.
  Qed.
End Motif.

Lemma C39_lemma : forall n vs per L s motif cls, lattice_on n vs per L -> built RA L s ->
  Forall (fun v => length v = n) motif ->
  (forall i x v, get_site s i = Some x -> in_class cls (s_class x) -> In v motif ->
     id_at RA s (vplus (s_loc x) v) <> Ok None) ->
  exists b N, motif_builder RA motif = Ok b /\ nb_get RA b s cls = Ok N /\
    forall i x, get_site s i = Some x -> in_class cls (s_class x) ->
      neighbours N i (fun j => j <> i /\ exists v, In v motif /\ id_at RA s (vplus (s_loc x) v) = Ok (Some j)) /\
      weights N i (fun j w => exists v, In v motif /\ id_at RA s (vplus (s_loc x) v) = Ok (Some j) /\
        w = Some (round2 (vlength v))).
Proof.
  intros n vs per L s motif cls HL HB FM AL. pose proof (built_dense RA L s HB) as DS.
  destruct (C45_lemma motif) as [(d & Ed & G1 & _) _]. exists (BMotif motif d).
  assert (P : forall cur, In cur (sites s cls) -> exists ys, get_neighbors RA (BMotif motif d) s cur = Ok (map wrap ys) /\
       (forall j w, In (j, w) ys <-> exists v, In v motif /\ id_at RA s (vplus (s_loc cur) v) = Ok (Some j) /\
         j <> s_id cur /\ w = Some (round2 (vlength v))) /\
       Forall (fun x => 0 <= fst x < Z.of_nat (length (sites s None))) ys).
  { intros cur Hc. destruct (motif_nbs n vs per L HL s HB motif d cur FM) as (ys & E & R & H); [eapply sites_sub; eauto|].
    apply (sites_in L s HB) in Hc as [Gc Cc].
    assert (W : exists ys', ys = map wrap ys').
    { assert (Q : forall y, In y ys -> fst y <> None).
      { intros [o x] Hy. apply H in Hy as (v & Hv & Eo & _). intros X. simpl in X. subst. exact (AL _ _ v Gc Cc Hv Eo). }
      clear -Q. induction ys as [|[[j|] w] ys IH].
      - exists []. auto.
      - destruct IH as [ys' ->]; [intros; apply Q; simpl; auto|]. exists ((j, w) :: ys'). auto.
      - exfalso. apply (Q (None, w)); simpl; auto. }
    destruct W as [ys' ->]. exists ys'. split; auto. split.
    - intros j w. assert (X : In (j, w) ys' <-> In (Some j, w) (map wrap ys')).
      { rewrite in_map_iff. split; [intros Y; exists (j, w); auto|]. intros ([a b] & Y & Z). injection Y as <- <-. auto. }
      rewrite X, H. split; intros (v & Hv & Eo & A1 & A2); exists v; (split; [auto|]); (split; [auto|]).
      + rewrite A2, G1 by auto. simpl in A1. split; auto. lia.
      + rewrite G1 by auto. split; auto. simpl. lia.
    - rewrite Forall_map in R. eapply Forall_impl; [|exact R]. intros [j w] Hj. apply Hj. reflexivity. }
  destruct (graph_of RA (BMotif motif d) s cls DS) as (g & Eg & OUT & _).
  { intros cur Hc. destruct (P cur Hc) as (ys & E & _ & R). exists (map wrap ys). split; auto. rewrite Forall_map.
    eapply Forall_impl; [|exact R]. intros [j w] Hj. exists j. auto. }
  exists (NGraph g). split; [unfold motif_builder; rewrite Ed; reflexivity|]. cbn [nb_get]. rewrite Eg. split; auto.
  intros i x Gx Cx. pose proof (in_sites L s HB cls i x Gx Cx) as Hx.
  assert (Ei : s_id x = i) by (apply (built_get L s HB) in Gx; apply Gx).
  destruct (OUT x Hx) as (ys & E1 & E2). destruct (P x Hx) as (ys' & E1' & H & _). rewrite E1 in E1'.
  assert (ys = ys').
  { assert (X : map wrap ys = map wrap ys') by (unfold wrap at 1; congruence). clear -X. revert ys' X.
    induction ys as [|[a b] ys IH]; destruct ys' as [|[c d] ys']; simpl; intros X; try discriminate; auto.
    unfold wrap in X. simpl in X. injection X as -> -> X. f_equal. auto. }
  subst ys'. rewrite Ei in E2. split.
  - apply graph_neighbours. intros j. rewrite E2, map_rev, <- in_rev, in_map_iff. split.
    + intros (N & v & Hv & Eo). exists (j, Some (round2 (vlength v))). split; auto. apply H. exists v. subst. auto.
    + intros ([j' w] & Ej & Hy). simpl in Ej. subst j'. apply H in Hy as (v & Hv & Eo & N & _). split; [congruence|eauto].
  - apply graph_weights. intros j w. rewrite E2, <- in_rev. intros Hy. apply H in Hy as (v & Hv & Eo & N & ->). eauto.
Qed.

(* ---------------------------------------------------------------- C40 *)
Lemma C40_lemma : forall n vs per L s motif cls i x v, lattice_on n vs per L -> built RA L s ->
  Forall (fun v => length v = n) motif ->
  get_site s i = Some x -> in_class cls (s_class x) -> In v motif -> id_at RA s (vplus (s_loc x) v) = Ok None ->
  exists b, motif_builder RA motif = Ok b /\ nb_get RA b s cls = Err TypeError.
Proof.
  intros n vs per L s motif cls i x v HL HB FM Gx Cx Hv Eo. pose proof (built_dense RA L s HB) as DS.
  destruct (C45_lemma motif) as [(d & Ed & _) _]. exists (BMotif motif d).
  split; [unfold motif_builder; rewrite Ed; reflexivity|]. cbn [nb_get]. rewrite (graph_None RA); auto.
  - intros cur Hc. destruct (motif_nbs n vs per L HL s HB motif d cur FM) as (ys & E & R & _); [eapply sites_sub; eauto|]. eauto.
  - pose proof (in_sites L s HB cls i x Gx Cx) as Hx.
    destruct (motif_nbs n vs per L HL s HB motif d x FM) as (ys & E & _ & H); [eapply sites_sub; eauto|].
    exists x, ys. split; auto. split; auto. apply Exists_exists. exists (None, get_dist RA d v). split; auto. apply H. eauto.
Qed.

(* ---------------------------------------------------------------- C42, first half *)
Lemma C42_lemma : forall F (A : arith F) s bs N o i, nb_get A (BStochastic bs) s None = Ok N -> legal o ->
  (bs = [] -> neighbors_of o N i = Err IndexError) /\
  (bs <> [] -> exists k b M, nth_error bs k = Some b /\ nb_get A b s None = Ok M /\
     neighbors_of o N i = neighbors_of o M i /\ weighted_neighbors_of o N i = weighted_neighbors_of o M i).
Proof.
  intros F A s bs N o i E [_ CH]. cbn [nb_get] in E. apply bind_Ok in E as (l & E & EN). injection EN as <-.
  assert (G : length l = length bs /\ forall k M, nth_error l k = Some M -> exists b, nth_error bs k = Some b /\ nb_get A b s None = Ok M).
  { clear CH. revert l E. induction bs as [|b bs IH]; intros l E.
    - injection E as <-. split; auto. intros [|k] M; discriminate.
    - apply bind_Ok in E as (x & Ex & E). apply bind_Ok in E as (xs & Exs & E). injection E as <-.
      destruct (IH xs Exs) as [L1 H]. split; [simpl; auto|]. intros [|k] M Hk; simpl in *; [injection Hk as <-; eauto|auto]. }
  destruct G as [Ll G]. split.
  - intros ->. destruct l; [|discriminate]. reflexivity.
  - intros Nb. assert (Nl : l <> []) by (destruct l, bs; simpl in *; congruence). specialize (CH l Nl).
    destruct (nth_error l (o_choice o l)) as [M|] eqn:EM; [|apply nth_error_None in EM; lia].
    destruct (G _ _ EM) as (b & Hb & Eb). exists (o_choice o l), b, M. split; auto. split; auto.
    cbn [neighbors_of weighted_neighbors_of]. revert EM. generalize (o_choice o l) as k. clear.
    induction l as [|x l IH]; intros [|k] E; try discriminate; simpl in E; [injection E as <-; auto|]. apply (IH k E).
Qed.

(* ---------------------------------------------------------------- C43 *)
Lemma graph_out_class {F} (A : arith F) L s b c g g' x : built A L s -> get_graph A b s (Some c) = Ok g -> get_graph A b s None = Ok g' ->
  In x (sites s None) -> s_class x = c -> out g (s_id x) = out g' (s_id x).
Proof.
  intros HB E E' Hx Cx. pose proof (built_dense A L s HB) as DS.
  assert (GEN : forall cls g, get_graph A b s cls = Ok g -> In x (sites s cls) ->
     exists ys, get_neighbors A b s x = Ok (map wrap ys) /\ out g (s_id x) = rev ys).
  { clear g g' E E'. intros cls g E Hc. unfold get_graph in E. cbv zeta in E.
    destruct (add_nodes (sites s None) (@g_empty F) eq_refl) as [N0 E0]. set (g0 := fold_left _ _ _) in *.
    assert (O0 : out g0 (s_id x) = []) by (unfold out; now rewrite E0). clearbody g0. clear N0 E0.
    pose proof (dense_NoDup s cls DS) as ND. revert g0 O0 E Hc ND. generalize (sites s cls) as l.
    assert (EDGE : forall nbs cur g g', foldM (fun g nw => g_add_edge g cur (fst nw) (snd nw)) nbs g = Ok g' ->
       exists ys, nbs = map (@wrap F) ys /\ out g' cur = rev ys ++ out g cur /\ forall i, i <> cur -> out g' i = out g i).
    { induction nbs as [|[[j|] w] nbs IH]; intros cur g1 g2 E1.
      - injection E1 as <-. exists []. auto.
      - cbn [foldM fst snd] in E1. apply bind_Ok in E1 as (g3 & E3 & E1). unfold g_add_edge in E3.
        destruct (_ && _); [|discriminate]. injection E3 as <-. destruct (IH _ _ _ E1) as (ys & -> & O1 & O2).
        exists ((j, w) :: ys). split; auto. split.
        + rewrite O1. unfold out at 1. cbn [g_edges filter fst]. rewrite Z.eqb_refl. simpl. rewrite <- app_assoc. reflexivity.
        + intros i Hi. rewrite O2 by auto. unfold out. cbn [g_edges filter fst]. replace (cur =? i) with false by lia. auto.
      - discriminate. }
    assert (REST : forall l g0 g, foldM (fun g cur => do nbs <- get_neighbors A b s cur;
         foldM (fun g nw => g_add_edge g (s_id cur) (fst nw) (snd nw)) nbs g) l g0 = Ok g ->
         ~ In (s_id x) (map s_id l) -> out g (s_id x) = out g0 (s_id x)).
    { induction l as [|y l IH]; intros g0 g1 E1 NI; [injection E1 as <-; auto|]. cbn [foldM] in E1.
      apply bind_Ok in E1 as (g2 & E2 & E1). apply bind_Ok in E2 as (nbs & _ & E2). destruct (EDGE _ _ _ _ E2) as (_ & _ & _ & O2).
      simpl in NI. rewrite (IH _ _ E1) by tauto. apply O2. intros X. apply NI. auto. }
    induction l as [|y l IH]; intros g0 O0 E Hc ND; [contradiction|]. cbn [foldM] in E. apply bind_Ok in E as (g1 & E1 & E).
    apply bind_Ok in E1 as (nbs & En & E1). destruct (EDGE _ _ _ _ E1) as (ys & -> & O1 & O2). simpl in ND. inversion ND; subst.
    destruct Hc as [->|Hc].
    - exists ys. split; auto. rewrite (REST _ _ _ E) by auto. rewrite O1, O0. apply app_nil_r.
    - apply (IH g1); auto. rewrite O2; auto. intros X. apply H1. rewrite <- X. now apply in_map. }
  destruct (GEN _ _ E) as (ys & E1 & O1); [now apply sites_class|]. destruct (GEN _ _ E' Hx) as (ys' & E1' & O1').
  rewrite E1 in E1'. rewrite O1, O1'. f_equal. assert (X : map wrap ys = map wrap ys') by congruence. clear -X. revert ys' X.
  induction ys as [|[a b] ys IH]; destruct ys' as [|[c d] ys']; simpl; intros X; try discriminate; auto.
  unfold wrap in X. simpl in X. injection X as -> -> X. f_equal. auto.
Qed.

Lemma C43_lemma : forall F (A : arith F) L s bs N o i x, built A L s -> nb_get A (BSiteClass bs) s None = Ok N ->
  get_site s i = Some x ->
  (dget (s_class x) bs = None -> neighbors_of o N i = Ok [] /\ weighted_neighbors_of o N i = Ok []) /\
  (forall b M, dget (s_class x) bs = Some b -> nb_get A b s None = Ok M ->
     neighbors_of o N i = neighbors_of o M i /\ weighted_neighbors_of o N i = weighted_neighbors_of o M i).
Proof.
  intros F A L s bs N o i x HB E G. cbn [nb_get] in E. apply bind_Ok in E as (l & E & EN). injection EN as <-.
  assert (SC : site_class s i = Ok (s_class x)) by (unfold site_class; now rewrite G).
  destruct (built_inv A L s HB) as [h I]. apply (inv_get_site A L h s i x I) in G as [Hx Ei].
  cbn [neighbors_of weighted_neighbors_of]. rewrite SC. cbn [bind]. clear SC.
  revert l E. induction bs as [|[c b] bs IH]; intros l E.
  - injection E as <-. split; [auto|discriminate].
  - apply bind_Ok in E as (y & Ey & E). apply bind_Ok in E as (ys & Eys & E). injection E as <-. cbn [dget].
    destruct (eqb_spec (s_class x) c) as [Ec|D]; [|apply IH; auto].
    split; [discriminate|]. intros b' M Eb EM. injection Eb as <-.
    destruct b; cbn [nb_get] in Ey, EM; try discriminate;
      apply bind_Ok in Ey as (g & Eg & Ey); injection Ey as <-; apply bind_Ok in EM as (g' & Eg' & EM); injection EM as <-;
      pose proof (graph_out_class A L s _ c g g' x HB Eg Eg' Hx Ec) as O; rewrite Ei in O;
      cbn [neighbors_of weighted_neighbors_of]; unfold g_neighbors; rewrite !successors_out, O; (split; [auto|]);
      (assert (ED : forall l, mapM (fun j => do w <- g_edge_data g i j; Ok (j, w)) l = mapM (fun j => do w <- g_edge_data g' i j; Ok (j, w)) l);
       [induction l as [|j l IHl]; simpl; [auto|]; rewrite !edge_data_out, O, IHl; reflexivity|apply ED]).
Qed.
