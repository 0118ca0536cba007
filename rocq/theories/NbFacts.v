(** Facts about the neighbourhood model. *)
From Coq Require Import Reals Lra Permutation.
From Verif Require Import Prelude Dict Arith RVec RealArith LatticeModel JsonModel JsonFacts StructModel NbModel
  SpecGeom SpecNb LatticeFacts LatticeMore StructFacts StructMore StructBuild.
Local Open Scope Z_scope.

(** * Lists without repetition *)
Lemma dedup_In {B} `{EqbOk B} (x : B) l : In x (dedup l) <-> In x l.
Proof.
  induction l as [|y l IH]; simpl; [tauto|]. rewrite filter_In, IH. split.
  - intros [->|[? _]]; auto.
  - intros [->|?]; auto. destruct (eqb_spec y x) as [->|N]; auto.
Qed.
Lemma NoDup_filter' {B} (f : B -> bool) l : NoDup l -> NoDup (filter f l).
Proof. apply NoDup_filter. Qed.
Lemma dedup_NoDup {B} `{EqbOk B} (l : list B) : NoDup (dedup l).
Proof.
  induction l as [|y l IH]; simpl; constructor; [|now apply NoDup_filter].
  rewrite filter_In. intros [_ E]. destruct (eqb_spec y y); [discriminate|congruence].
Qed.

(** * Graphs *)
Section Graph.
  Context {F : Type} (A : arith F).

  (** Successors with weights, newest first. *)
  Definition out (g : graph F) (i : Z) : list (Z * option F) :=
    map (fun e => (snd (fst e), snd e)) (filter (fun e => fst (fst e) =? i) (g_edges g)).

  Lemma successors_out g i : g_successors g i = map fst (out g i).
  Proof. unfold g_successors, out. rewrite map_map. reflexivity. Qed.

  Lemma edge_data_out g i j : g_edge_data g i j =
    match find (fun x => fst x =? j) (out g i) with Some x => Ok (snd x) | None => Err NoEdgeBetweenNodes end.
  Proof.
    unfold g_edge_data, out. induction (g_edges g) as [|[[a b] w] t IH]; simpl; auto.
    destruct (a =? i) eqn:E; simpl; auto. destruct (b =? j); simpl; auto.
  Qed.

  Lemma graph_neighbours g i (P : Z -> Prop) : (forall j, P j <-> In j (map fst (out g i))) -> neighbours (NGraph g) i P.
  Proof.
    intros H o [OP _]. simpl. eexists. split; [reflexivity|]. unfold g_neighbors. rewrite successors_out.
    pose proof (OP (dedup (map fst (out g i)))) as PM. split.
    - eapply Permutation_NoDup; [exact PM|apply dedup_NoDup].
    - intros j. rewrite H, <- (dedup_In j (map fst (out g i))). split; intros X; [|eapply Permutation_in; eauto].
      eapply Permutation_in; [apply Permutation_sym; eauto|auto].
  Qed.

  Lemma mapM_total {B C} (f : B -> res C) l : (forall x, In x l -> exists y, f x = Ok y) -> exists ys, mapM f l = Ok ys /\
    Forall2 (fun x y => f x = Ok y) l ys.
  Proof.
    induction l as [|x l IH]; intros H; [exists []; split; auto; constructor|].
    destruct (H x) as [y E]; [simpl; auto|]. destruct IH as (ys & E' & HF); [intros; apply H; simpl; auto|].
    exists (y :: ys). simpl. rewrite E; simpl. rewrite E'; simpl. split; auto.
  Qed.

  Lemma graph_weights g i (W : Z -> option F -> Prop) : (forall j w, In (j, w) (out g i) -> W j w) -> weights (NGraph g) i W.
  Proof.
    intros H o [OP _]. cbn [weighted_neighbors_of neighbors_of]. set (l := g_neighbors (o_order o) g i).
    assert (IN : forall j, In j l -> In j (map fst (out g i))).
    { intros j Hj. unfold l, g_neighbors in Hj. rewrite successors_out in Hj. apply (dedup_In j).
      eapply Permutation_in; [apply Permutation_sym, OP|auto]. }
    assert (G : forall j, In j l -> exists w, g_edge_data g i j = Ok w /\ In (j, w) (out g i)).
    { intros j Hj. rewrite edge_data_out. apply IN in Hj. destruct (find _ _) as [[j' w]|] eqn:E.
      - apply find_some in E as [E1 E2]. simpl in E2. apply Z.eqb_eq in E2 as ->. simpl. eauto.
      - apply in_map_iff in Hj as ([j' w] & <- & Hj). apply (find_none _ _ E) in Hj. simpl in Hj. lia. }
    destruct (mapM_total (fun j => do w <- g_edge_data g i j; Ok (j, w)) l) as (wl & E & HF).
    { intros j Hj. destruct (G j Hj) as (w & -> & _). simpl. eauto. }
    exists wl. split; auto.
    assert (X : map fst wl = l /\ forall j w, In (j, w) wl -> In (j, w) (out g i)).
    { clear E. clearbody l. clear IN. induction HF as [|j y l wl Ey HF IH]; simpl; [split; [auto|tauto]|].
      destruct (G j) as (w & Ew & Iw); [simpl; auto|]. rewrite Ew in Ey. cbn [bind] in Ey. injection Ey as <-. simpl.
      destruct IH as [-> IH]; [intros; apply G; simpl; auto|]. split; auto. intros j' w' [E|X]; [injection E as <- <-; auto|auto]. }
    destruct X as [-> X]. split; auto.
  Qed.

  Lemma add_edge_ok m (g : graph F) a b w : Z.of_nat (length (g_nodes g)) = m -> 0 <= a < m -> 0 <= b < m ->
    g_add_edge g a (Some b) w = Ok (mkGraph (g_nodes g) ((a, b, w) :: g_edges g)).
  Proof.
    intros Hm Ha Hb. unfold g_add_edge. rewrite Hm.
    replace ((0 <=? a) && (a <? m) && (0 <=? b) && (b <? m)) with true by lia. reflexivity.
  Qed.

  (** Adding the edges of one site. *)
  Lemma add_edges m cur nbs : forall g, Z.of_nat (length (g_nodes g)) = m -> 0 <= cur < m ->
    Forall (fun x : option Z * option F => exists j, fst x = Some j /\ 0 <= j < m) nbs ->
    exists g', foldM (fun g nw => g_add_edge g cur (fst nw) (snd nw)) nbs g = Ok g' /\ g_nodes g' = g_nodes g /\
      (exists ys, nbs = map (fun y => (Some (fst y), snd y)) ys /\ out g' cur = rev ys ++ out g cur) /\
      (forall i, i <> cur -> out g' i = out g i).
  Proof.
    induction nbs as [|[o w] nbs IH]; intros g Hm Hc FA.
    - exists g. split; [reflexivity|]. split; auto. split; [exists []; auto|auto].
    - pose proof (Forall_inv FA) as (j & Ej & Hj). cbn [fst] in Ej. subst o. apply Forall_inv_tail in FA.
      cbn [foldM fst snd]. rewrite (add_edge_ok m) by auto. cbn [bind].
      destruct (IH (mkGraph (g_nodes g) ((cur, j, w) :: g_edges g))) as (g' & E & En & (ys & Ey & Eo) & Ei); auto.
      exists g'. split; auto. split; auto. split.
      + exists ((j, w) :: ys). split; [simpl; congruence|]. rewrite Eo. unfold out at 1. cbn [g_edges filter fst].
        rewrite Z.eqb_refl. simpl. rewrite <- app_assoc. reflexivity.
      + intros i Hi. rewrite Ei by auto. unfold out. cbn [g_edges filter fst]. replace (cur =? i) with false by lia. auto.
  Qed.

  Lemma add_edges_None m cur nbs : forall g, Z.of_nat (length (g_nodes g)) = m -> 0 <= cur < m ->
    Forall (fun x : option Z * option F => forall j, fst x = Some j -> 0 <= j < m) nbs ->
    Exists (fun x => fst x = None) nbs ->
    foldM (fun g nw => g_add_edge g cur (fst nw) (snd nw)) nbs g = Err TypeError.
  Proof.
    induction nbs as [|[[j|] w] nbs IH]; intros g Hm Hc FA EX; [inversion EX| |reflexivity].
    pose proof (Forall_inv FA) as Hj. specialize (Hj j eq_refl). apply Forall_inv_tail in FA.
    cbn [foldM fst snd]. rewrite (add_edge_ok m) by auto. cbn [bind].
    apply IH; auto. inversion EX as [? ? X|? ? X]; subst; [discriminate|auto].
  Qed.

  Lemma add_nodes (l : list (site F)) : forall g : graph F, g_edges g = [] ->
    g_nodes (fold_left (fun g x => g_add_node g (s_id x)) l g) = g_nodes g ++ map s_id l /\
    g_edges (fold_left (fun g x => g_add_node g (s_id x)) l g) = [].
  Proof.
    induction l as [|x l IH]; intros g E; simpl; [rewrite app_nil_r; auto|].
    destruct (IH (g_add_node g (s_id x))) as [H1 H2]; auto. split; auto. rewrite H1. simpl. now rewrite <- app_assoc.
  Qed.

  (** Structures with dense ids. *)
  Definition dense (s : structure F) : Prop := map s_id (sites s None) = zrange 0 (Z.of_nat (length (sites s None))).

  Lemma sites_sub (s : structure F) cls x : In x (sites s cls) -> In x (sites s None).
  Proof. destruct cls; simpl; auto. rewrite filter_In. tauto. Qed.
  Lemma sites_class (s : structure F) c x : In x (sites s (Some c)) <-> In x (sites s None) /\ s_class x = c.
  Proof.
    simpl. rewrite filter_In. split; intros [H1 H2]; split; auto.
    - destruct (eqb_spec (s_class x) c); congruence.
    - destruct (eqb_spec (s_class x) c); congruence.
  Qed.
  Lemma dense_NoDup s cls : dense s -> NoDup (map s_id (sites s cls)).
  Proof.
    intros D. assert (N : NoDup (map s_id (sites s None))).
    { rewrite D. unfold zrange. apply FinFun.Injective_map_NoDup; [intros a b; lia|apply seq_NoDup]. }
    destruct cls as [c|]; auto. simpl in *. revert N. generalize (dvals (p_sites s)). clear.
    induction l as [|x l IH]; simpl; auto. intros N. inversion N; subst.
    destruct (eqb (s_class x) c); simpl; auto. constructor; auto. rewrite in_map_iff in *. intros (y & E & Hy).
    apply filter_In in Hy as [Hy _]. eauto.
  Qed.
  Lemma dense_id s x : dense s -> In x (sites s None) -> 0 <= s_id x < Z.of_nat (length (sites s None)).
  Proof. intros D H. apply (in_map s_id) in H. rewrite D in H. now apply zrange_In in H. Qed.

  Lemma graph_of b s cls : dense s ->
    (forall cur, In cur (sites s cls) -> exists nbs, get_neighbors A b s cur = Ok nbs /\
       Forall (fun x => exists j, fst x = Some j /\ 0 <= j < Z.of_nat (length (sites s None))) nbs) ->
    exists g, get_graph A b s cls = Ok g /\
      (forall cur, In cur (sites s cls) -> exists ys, get_neighbors A b s cur = Ok (map (fun y => (Some (fst y), snd y)) ys) /\
         out g (s_id cur) = rev ys) /\
      (forall i, ~ In i (map s_id (sites s cls)) -> out g i = []).
  Proof.
    intros D H. unfold get_graph. cbv zeta.
    destruct (add_nodes (sites s None) g_empty eq_refl) as [N0 E0]. set (g0 := fold_left _ _ _) in *.
    set (m := Z.of_nat (length (sites s None))) in *.
    assert (M0 : Z.of_nat (length (g_nodes g0)) = m) by (rewrite N0; simpl; now rewrite map_length).
    assert (O0 : forall i, out g0 i = []) by (intros; unfold out; now rewrite E0). clearbody g0. clear N0 E0.
    pose proof (dense_NoDup s cls D) as ND. pose proof (sites_sub s cls) as SB.
    assert (GEN : forall l g, NoDup (map s_id l) -> (forall x, In x l -> In x (sites s cls)) ->
      Z.of_nat (length (g_nodes g)) = m -> (forall x, In x l -> out g (s_id x) = []) ->
      exists g', foldM (fun g cur => do nbs <- get_neighbors A b s cur;
                         foldM (fun g nw => g_add_edge g (s_id cur) (fst nw) (snd nw)) nbs g) l g = Ok g' /\
        (forall cur, In cur l -> exists ys, get_neighbors A b s cur = Ok (map (fun y => (Some (fst y), snd y)) ys) /\
           out g' (s_id cur) = rev ys) /\
        (forall i, ~ In i (map s_id l) -> out g' i = out g i)).
    { clear M0 O0 g0. induction l as [|x l IH]; intros g N S M O.
      - exists g. split; [reflexivity|]. split; [simpl; tauto|auto].
      - simpl in N. inversion N as [|? ? Nx Nl]; subst. cbn [foldM].
        destruct (H x) as (nbs & En & Fn); [apply S; simpl; auto|]. rewrite En. cbn [bind].
        destruct (add_edges m (s_id x) nbs g) as (g1 & E1 & M1 & (ys & Ey & O1) & R1); auto.
        { apply dense_id; auto. apply SB, S. simpl; auto. }
        rewrite E1. cbn [bind].
        assert (XL : forall y, In y l -> s_id y <> s_id x) by (intros y Hy E; apply Nx; rewrite <- E; now apply in_map).
        destruct (IH g1) as (g' & E' & H' & R'); auto.
        { intros; apply S; simpl; auto. } { now rewrite M1. }
        { intros y Hy. rewrite R1 by auto. apply O. simpl; auto. }
        exists g'. split; auto. split.
        + intros cur [<-|Hc]; [|auto]. exists ys. split; [congruence|]. rewrite R' by auto. rewrite O1, O by (simpl; auto).
          apply app_nil_r.
        + intros i Hi. simpl in Hi. rewrite R' by tauto. apply R1. intros ->. tauto. }
    destruct (GEN (sites s cls) g0) as (g & E & H1 & H2); auto.
    exists g. split; auto. split; auto. intros i Hi. now rewrite H2.
  Qed.

  Lemma graph_None b s cls : dense s ->
    (forall cur, In cur (sites s cls) -> exists nbs, get_neighbors A b s cur = Ok nbs /\
       Forall (fun x => forall j, fst x = Some j -> 0 <= j < Z.of_nat (length (sites s None))) nbs) ->
    (exists cur nbs, In cur (sites s cls) /\ get_neighbors A b s cur = Ok nbs /\ Exists (fun x => fst x = None) nbs) ->
    get_graph A b s cls = Err TypeError.
  Proof.
    intros D H EX. unfold get_graph. cbv zeta.
    destruct (add_nodes (sites s None) g_empty eq_refl) as [N0 E0]. set (g0 := fold_left _ _ _) in *.
    set (m := Z.of_nat (length (sites s None))) in *.
    assert (M0 : Z.of_nat (length (g_nodes g0)) = m) by (rewrite N0; simpl; now rewrite map_length). clearbody g0. clear N0 E0.
    pose proof (sites_sub s cls) as SB. revert g0 M0 H EX SB. generalize (sites s cls) as l.
    induction l as [|x l IH]; intros g M H EX SB; [destruct EX as (? & ? & [] & _)|]. cbn [foldM].
    destruct (H x) as (nbs & En & Fn); [simpl; auto|]. rewrite En. cbn [bind].
    assert (Hx : 0 <= s_id x < m) by (apply dense_id; auto; apply SB; simpl; auto).
    destruct (Exists_dec (fun x : option Z * option F => fst x = None) nbs) as [X|NX].
    { intros [[?|] ?]; simpl; [right; discriminate|left; auto]. }
    - rewrite (add_edges_None m); auto.
    - destruct (add_edges m (s_id x) nbs g M Hx) as (g1 & E1 & M1 & _).
      { rewrite <- Forall_Exists_neg in NX. clear -NX Fn. induction Fn as [|[[j|] w] l Hx _ IH]; constructor.
        - exists j. split; auto.
        - apply IH. now inversion NX.
        - inversion NX; subst. simpl in *. congruence.
        - apply IH. now inversion NX. }
      rewrite E1. cbn [bind]. apply IH; [now rewrite M1|intros; apply H; simpl; auto| |intros; apply SB; simpl; auto].
      destruct EX as (cur & nbs' & [<-|Hc] & E' & X'); [exfalso; apply NX; congruence|eauto].
  Qed.

  Lemma built_inv L s : built A L s -> exists h, Inv A L h s.
  Proof.
    intros (calls & ->). destruct (adds_inv A L calls [] (struct_init L) (Inv_init A L)) as (h & I & _). eauto.
  Qed.
  Lemma inv_dense L h s : Inv A L h s -> dense s.
  Proof.
    intros I. unfold dense. rewrite (sites_list A L h s I), map_map.
    rewrite (map_ext _ fst) by reflexivity. rewrite enumerate_keys, map_length. unfold enumerate. now rewrite enumerate_from_length.
  Qed.
  Lemma built_dense L s : built A L s -> dense s.
  Proof. intros B. destruct (built_inv L s B) as [h I]. eapply inv_dense; eauto. Qed.
  Lemma inv_get_site L h s i x : Inv A L h s -> (get_site s i = Some x <-> In x (sites s None) /\ s_id x = i).
  Proof.
    intros I. pose proof (inv_dense L h s I) as D. destruct I as (_ & _ & E & _). unfold get_site, sites, dvals.
    assert (K : forall k v, In (k, v) (p_sites s) -> s_id v = k).
    { rewrite E. intros k v H. apply in_map_iff in H as (y & Ey & _). injection Ey as <- <-. reflexivity. }
    assert (N : NoDup (dkeys (p_sites s))).
    { rewrite E. unfold dkeys. rewrite map_map, (map_ext _ fst) by reflexivity. rewrite enumerate_keys.
      unfold zrange. apply FinFun.Injective_map_NoDup; [intros a b; lia|apply seq_NoDup]. }
    split.
    - intros G. apply dget_In in G. split; [|now apply K in G]. apply in_map_iff. exists (i, x). auto.
    - intros [H1 H2]. apply in_map_iff in H1 as ([k v] & Ev & H1). simpl in Ev. subst v. pose proof (K _ _ H1) as <-.
      subst i. now apply In_dget.
  Qed.
End Graph.
