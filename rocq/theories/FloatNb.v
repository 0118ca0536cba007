(** Motif neighbourhoods on binary64 grids (C75). *)
From Coq Require Import Reals Lra Psatz Permutation Classical.
From Flocq Require Import Core BinarySingleNaN.
From Verif Require Import Prelude Dict Arith RealArith FloatArith LatticeModel JsonModel StructModel NbModel GridModel
  SpecGeom SpecNb SpecGrid SpecFloat64 StructFacts StructBuild NbFacts NbMore GridFacts GridMore GridNb HoneyFacts FloatFacts FloatCoord FloatGrid FloatMore.
Local Open Scope Z_scope.

Lemma find_total D : forall d, exists d', foldM (fun d loc => do x <- euclidean_distance FA (zeros FA (length loc)) loc; Ok (@dset _ _ (Eqb_vec_nb FA) loc x d)) D d = Ok d'.
Proof.
  induction D as [|v D IH]; intros d; [eexists; reflexivity|]. cbn [foldM]. unfold euclidean_distance, distance, bcast at 1.
  unfold zeros. rewrite repeat_length, Nat.eqb_refl. cbn [bind]. apply IH.
Qed.
Lemma motif_total D : exists d, motif_builder FA D = Ok (BMotif D d).
Proof. unfold motif_builder, find_distances. destruct (find_total D []) as [d ->]. cbn [bind]. eauto. Qed.

Lemma motif_fold_fl (ids : list b64 -> res (option Z)) (w : list b64 -> option b64) i motif : forall acc,
  (forall v, In v motif -> exists o, ids v = Ok o) ->
  exists ys, foldM (fun nbs vec => do nb_id <- ids vec; Ok (if is_other nb_id i then nbs ++ [(nb_id, w vec)] else nbs)) motif acc
    = Ok (acc ++ ys) /\
    forall o x, In (o, x) ys <-> exists v, In v motif /\ ids v = Ok o /\ is_other o i = true /\ x = w v.
Proof.
  induction motif as [|v motif IH]; intros acc T.
  - exists []. split; [simpl; now rewrite app_nil_r|]. intros o x. split; [intros []|intros (? & [] & _)].
  - cbn [foldM]. destruct (T v) as [o Eo]; [simpl; auto|]. rewrite Eo. cbn [bind].
    assert (T' : forall u, In u motif -> exists o, ids u = Ok o) by (intros; apply T; simpl; auto).
    destruct (is_other o i) eqn:IO.
    + destruct (IH (acc ++ [(o, w v)]) T') as (ys & E & H). exists ((o, w v) :: ys). split; [rewrite E, <- app_assoc; auto|].
      intros o' x. simpl. rewrite H. split.
      * intros [X|(u & Hu & R)]; [injection X as <- <-; exists v; auto|exists u; auto].
      * intros (u & [<-|Hu] & E1 & I1 & ->); [left; congruence|right; exists u; auto].
    + destruct (IH acc T') as (ys & E & H). exists ys. split; auto. intros o' x. rewrite H. split.
      * intros (u & Hu & R). exists u. simpl; auto.
      * intros (u & [<-|Hu] & E1 & I1 & R); [congruence|exists u; auto].
Qed.

Section Nb.
  Variables n m : Z.
  Hypothesis Hn : 1 <= n <= M20.
  Hypothesis Hm : 1 <= m <= M20.
  Variable s : structure b64.
  Hypothesis HF : fl_facts n m s.
  Variable D : list (list Z).
  Hypothesis HD : forall d, In d D -> exists dx dy, d = [dx; dy] /\ Z.abs dx <= M20 /\ Z.abs dy <= M20.

  Local Notation target i j dx dy := (((i + dy) mod n) * m + (j + dx) mod m).

  (** What the lookup of one neighbour gives. *)
  Lemma nb_lookup i j cur dx dy : 0 <= i < n -> 0 <= j < m -> get_site s (i * m + j) = Some cur -> In [dx; dy] D ->
    (~ falls_short m (j + dx) -> ~ falls_short n (i + dy) -> id_at FA s (zipwith (a_add FA) (s_loc cur) (nums FA [dx; dy])) = Ok (Some (target i j dx dy))) /\
    (falls_short m (j + dx) \/ falls_short n (i + dy) -> id_at FA s (zipwith (a_add FA) (s_loc cur) (nums FA [dx; dy])) = Ok None).
  Proof.
    intros Hi Hj G Hd. destruct HF as (_ & _ & GS & _ & LK). destruct (GS i j Hi Hj) as (u & v & G' & Du & Dv).
    assert (cur = mkSite "_A" [u; v] (i * m + j)) by congruence. subst cur. cbn [s_loc nums map zipwith a_add FA a_ofZ].
    destruct (HD _ Hd) as (dx' & dy' & [= <- <-] & Bx & By).
    assert (AD : forall a b w, 0 <= a <= M20 -> Z.abs b <= M20 -> denotes w (IZR a) -> denotes (f_add w (f_ofZ b)) (IZR (a + b))).
    { intros a b w Ha Hb Dw. assert (Db : denotes (f_ofZ b) (IZR b)) by (apply denotes_ofZ; unfold M20 in *; lia).
      rewrite <- (rnd_IZR (a + b)) by (unfold M20 in *; lia). rewrite plus_IZR. apply denotes_add; auto. rewrite <- plus_IZR.
      apply IZR_big. unfold M20 in *; lia. }
    apply LK; try (unfold M20, M30 in *; lia); apply AD; auto; lia.
  Qed.
  Lemma nb_lookup_total i j cur dx dy : 0 <= i < n -> 0 <= j < m -> get_site s (i * m + j) = Some cur -> In [dx; dy] D ->
    exists o, id_at FA s (zipwith (a_add FA) (s_loc cur) (nums FA [dx; dy])) = Ok o /\
      (forall k, o = Some k -> 0 <= k < n * m /\ k = target i j dx dy) /\
      (o = None <-> falls_short m (j + dx) \/ falls_short n (i + dy)).
  Proof.
    intros Hi Hj G Hd. destruct (nb_lookup i j cur dx dy Hi Hj G Hd) as [H1 H2].
    destruct (classic (falls_short m (j + dx) \/ falls_short n (i + dy))) as [S|S].
    - exists None. split; [auto|]. split; [discriminate|]. tauto.
    - exists (Some (target i j dx dy)). split; [apply H1; tauto|]. split.
      + intros k [= <-]. split; auto. pose proof (Z.mod_pos_bound (i + dy) n ltac:(lia)). pose proof (Z.mod_pos_bound (j + dx) m ltac:(lia)). nia.
      + split; [discriminate|tauto].
  Qed.

  Lemma site_ij x : In x (sites s None) -> exists i j, 0 <= i < n /\ 0 <= j < m /\ get_site s (i * m + j) = Some x /\ s_id x = i * m + j.
  Proof.
    intros Hx. destruct HF as (_ & _ & GS & IN & _). destruct (IN x Hx) as (i & j & Hi & Hj & G). exists i, j. repeat split; try lia; auto.
    destruct (GS i j Hi Hj) as (u & v & G' & _). rewrite G in G'. injection G' as ->. reflexivity.
  Qed.

  Lemma nb_list d cur i j : 0 <= i < n -> 0 <= j < m -> get_site s (i * m + j) = Some cur -> s_id cur = i * m + j ->
    exists ys, get_neighbors FA (BMotif (map (nums FA) D) d) s cur = Ok ys /\
      (forall o w, In (o, w) ys -> exists dx dy, In [dx; dy] D /\ id_at FA s (zipwith (a_add FA) (s_loc cur) (nums FA [dx; dy])) = Ok o /\ is_other o (i * m + j) = true) /\
      (forall dx dy o, In [dx; dy] D -> id_at FA s (zipwith (a_add FA) (s_loc cur) (nums FA [dx; dy])) = Ok o -> is_other o (i * m + j) = true -> exists w, In (o, w) ys).
  Proof.
    intros Hi Hj G Eid. cbn [get_neighbors]. unfold motif_neighbors.
    destruct (motif_fold_fl (fun v => id_at FA s (zipwith (a_add FA) (s_loc cur) v)) (get_dist FA d) (s_id cur) (map (nums FA) D) []) as (ys & E & H).
    { intros v Hv. apply in_map_iff in Hv as (p & <- & Hp). destruct (HD _ Hp) as (dx & dy & -> & _).
      destruct (nb_lookup_total i j cur dx dy Hi Hj G Hp) as (o & Eo & _). eauto. }
    exists ys. split; [exact E|]. rewrite Eid in H. split.
    - intros o w Hw. apply H in Hw as (v & Hv & Eo & IO & _). apply in_map_iff in Hv as (p & <- & Hp). destruct (HD _ Hp) as (dx & dy & -> & _). eauto.
    - intros dx dy o Hp Eo IO. eexists. apply H. exists (nums FA [dx; dy]). split; [now apply in_map|]. auto.
  Qed.

  Lemma nb_found d : (forall i j dx dy, 0 <= i < n -> 0 <= j < m -> In [dx; dy] D -> ~ falls_short m (j + dx) /\ ~ falls_short n (i + dy)) ->
    exists N, nb_get FA (BMotif (map (nums FA) D) d) s None = Ok N /\
      forall i j, 0 <= i < n -> 0 <= j < m ->
        neighbours N (i * m + j) (fun k => k <> i * m + j /\ exists dx dy, In [dx; dy] D /\ k = target i j dx dy).
  Proof.
    intros NS. pose proof HF as (DS & CNT & GS & IN & LK).
    destruct (graph_of FA (BMotif (map (nums FA) D) d) s None DS) as (g & Eg & H1 & _).
    { intros cur Hc. destruct (site_ij cur Hc) as (i & j & Hi & Hj & G & Eid). destruct (nb_list d cur i j Hi Hj G Eid) as (ys & E & IY & _).
      exists ys. split; auto. apply Forall_forall. intros [o w] Hw. destruct (IY o w Hw) as (dx & dy & Hd & Eo & _).
      destruct (NS i j dx dy Hi Hj Hd) as [S1 S2]. destruct (nb_lookup_total i j cur dx dy Hi Hj G Hd) as (o' & Eo' & R & SN).
      assert (o = o') by congruence. subst o'. rewrite CNT. destruct o as [k|]; [|exfalso; tauto]. exists k. split; auto. apply (R k eq_refl). }
    exists (NGraph g). split; [cbn [nb_get]; now rewrite Eg|]. intros i j Hi Hj. apply graph_neighbours. intros k.
    destruct (GS i j Hi Hj) as (u & v & G & _). set (cur := mkSite "_A" [u; v] (i * m + j)) in *.
    assert (Hc : In cur (sites s None)). { unfold sites, dvals. unfold get_site in G. apply dget_In in G. apply (in_map snd) in G. exact G. }
    destruct (H1 cur Hc) as (ys & E & O). change (s_id cur) with (i * m + j) in O. rewrite O.
    destruct (nb_list d cur i j Hi Hj G eq_refl) as (ys' & E' & IY & YI). rewrite E in E'. injection E' as <-.
    assert (M : In k (map fst (rev ys)) <-> exists w, In (Some k, w) (map (fun y : Z * option b64 => (Some (fst y), snd y)) ys)).
    { rewrite map_rev, <- in_rev. split.
      - intros Hk. apply in_map_iff in Hk as ([k' w] & <- & Hk). exists w. apply in_map_iff. exists (k', w). auto.
      - intros (w & Hw). apply in_map_iff in Hw as ([k' w'] & [= <- <-] & Hk). apply in_map_iff. exists (k', w'). auto. }
    rewrite M. split.
    - intros (Nk & dx & dy & Hd & ->). destruct (NS i j dx dy Hi Hj Hd) as [S1 S2]. destruct (nb_lookup i j cur dx dy Hi Hj G Hd) as [L1 _].
      apply (YI dx dy _ Hd (L1 S1 S2)). cbn [is_other]. apply Bool.negb_true_iff. lia.
    - intros (w & Hw). destruct (IY _ _ Hw) as (dx & dy & Hd & Eo & IO). cbn [is_other] in IO. apply Bool.negb_true_iff in IO. split; [lia|].
      exists dx, dy. split; auto. destruct (nb_lookup_total i j cur dx dy Hi Hj G Hd) as (o' & Eo' & R & _). assert (o' = Some k) by congruence. apply (R k H).
  Qed.

  Lemma nb_lost d : (exists i j dx dy, 0 <= i < n /\ 0 <= j < m /\ In [dx; dy] D /\ (falls_short m (j + dx) \/ falls_short n (i + dy))) ->
    nb_get FA (BMotif (map (nums FA) D) d) s None = Err TypeError.
  Proof.
    intros (i & j & dx & dy & Hi & Hj & Hd & S). pose proof HF as (DS & CNT & GS & IN & LK). cbn [nb_get].
    rewrite (graph_None FA (BMotif (map (nums FA) D) d) s None DS); auto.
    - intros cur Hc. destruct (site_ij cur Hc) as (i' & j' & Hi' & Hj' & G & Eid). destruct (nb_list d cur i' j' Hi' Hj' G Eid) as (ys & E & IY & _).
      exists ys. split; auto. apply Forall_forall. intros [o w] Hw k Ek. destruct (IY o w Hw) as (dx' & dy' & Hd' & Eo & _).
      destruct (nb_lookup_total i' j' cur dx' dy' Hi' Hj' G Hd') as (o' & Eo' & R & _). assert (o' = Some k) by (simpl in Ek; congruence).
      rewrite CNT. apply (R k H).
    - destruct (GS i j Hi Hj) as (u & v & G & _). set (cur := mkSite "_A" [u; v] (i * m + j)) in *.
      assert (Hc : In cur (sites s None)). { unfold sites, dvals. unfold get_site in G. apply dget_In in G. apply (in_map snd) in G. exact G. }
      destruct (nb_list d cur i j Hi Hj G eq_refl) as (ys & E & _ & YI). exists cur, ys. split; auto. split; auto.
      destruct (nb_lookup i j cur dx dy Hi Hj G Hd) as [_ L2]. destruct (YI dx dy None Hd (L2 S) eq_refl) as (w & Hw).
      apply Exists_exists. exists (None, w). auto.
  Qed.
End Nb.

Lemma C75_motif_lemma : forall n m s D, 1 <= n <= 2 ^ 20 -> 1 <= m <= 2 ^ 20 -> fl_grid [n; m] s ->
  Forall (fun d => exists dx dy, d = [dx; dy] /\ Z.abs dx <= 2 ^ 20 /\ Z.abs dy <= 2 ^ 20) D ->
  exists b, motif_builder FA (map (nums FA) D) = Ok b /\
    ((forall i j dx dy, 0 <= i < n -> 0 <= j < m -> In [dx; dy] D -> ~ falls_short m (j + dx) /\ ~ falls_short n (i + dy)) ->
     exists N, nb_get FA b s None = Ok N /\ forall i j, 0 <= i < n -> 0 <= j < m ->
       neighbours N (i * m + j) (fun k => k <> i * m + j /\ exists dx dy, In [dx; dy] D /\ k = ((i + dy) mod n) * m + (j + dx) mod m)) /\
    ((exists i j dx dy, 0 <= i < n /\ 0 <= j < m /\ In [dx; dy] D /\ (falls_short m (j + dx) \/ falls_short n (i + dy))) ->
     nb_get FA b s None = Err TypeError).
Proof.
  intros n m s D Hn Hm FG FD. change (2 ^ 20) with M20 in *. pose proof (fl_any n m s Hn Hm FG) as HF. rewrite Forall_forall in FD.
  destruct (motif_total (map (nums FA) D)) as (d & Ed). exists (BMotif (map (nums FA) D) d). split; auto. split.
  - apply nb_found; auto.
  - apply nb_lost; auto.
Qed.

Lemma C75_moore_lemma : forall n m r s, 1 <= n <= 2 ^ 20 -> 1 <= m <= 2 ^ 20 -> 0 <= r <= 2 ^ 20 -> fl_grid [n; m] s ->
  exists b, MooreNbHoodBuilder FA r 2 = Ok b /\
    (~ lost n r -> ~ lost m r -> exists N, nb_get FA b s None = Ok N /\ forall i j, 0 <= i < n -> 0 <= j < m ->
       neighbours N (i * m + j) (fun k => k <> i * m + j /\ exists dx dy, Z.abs dx <= r /\ Z.abs dy <= r /\
         k = ((i + dy) mod n) * m + (j + dx) mod m)) /\
    (lost n r \/ lost m r -> nb_get FA b s None = Err TypeError).
Proof.
  intros n m r s Hn Hm Hr FG. set (D := get_points_in_cube (- r) (r + 1) 2).
  assert (HD : forall dx dy, In [dx; dy] D <-> Z.abs dx <= r /\ Z.abs dy <= r).
  { intros dx dy. unfold D. rewrite moore_points. unfold within_moore. split.
    - intros [_ H]. inversion H as [|? ? H1 H2]; subst. inversion H2; subst. auto.
    - intros [H1 H2]. split; auto. }
  destruct (C75_motif_lemma n m s D Hn Hm FG) as (b & Eb & OKC & BAD).
  { apply Forall_forall. intros d Hd. assert (Ld : length d = 2%nat) by (unfold D in Hd; apply moore_points in Hd; tauto).
    destruct d as [|dx [|dy [|]]]; try discriminate. apply HD in Hd. exists dx, dy. split; auto. lia. }
  exists b. split; [exact Eb|]. split.
  - intros Ln Lm. destruct OKC as (N & EN & H).
    { intros i j dx dy Hi Hj Hd. apply HD in Hd. split; intros S; [apply Lm|apply Ln]; eexists; (split; [|exact S]); lia. }
    exists N. split; auto. intros i j Hi Hj o Lo. destruct (H i j Hi Hj o Lo) as (l & El & ND & IN). exists l. split; auto. split; auto.
    intros k. rewrite IN. split; intros (Nk & dx & dy & R); (split; [auto|]); exists dx, dy.
    + destruct R as [Hd ->]. apply HD in Hd. tauto.
    + destruct R as (H1 & H2 & ->). split; auto. now apply HD.
  - intros LO. apply BAD.
    assert (W : forall a x, 1 <= a -> - r <= x < a + r -> exists i d, 0 <= i < a /\ Z.abs d <= r /\ x = i + d).
    { intros a x Ha Hx. destruct (Z_lt_le_dec x 0); [exists 0, x; lia|]. destruct (Z_lt_le_dec x a); [exists x, 0; lia|]. exists (a - 1), (x - (a - 1)). lia. }
    destruct LO as [(x & Hx & S)|(x & Hx & S)].
    + destruct (W n x ltac:(lia) Hx) as (i & d & Hi & Hd & ->). exists i, 0, 0, d. split; [lia|]. split; [lia|]. split; [apply HD; lia|auto].
    + destruct (W m x ltac:(lia) Hx) as (j & d & Hj & Hd & ->). exists 0, j, d, 0. split; [lia|]. split; [lia|]. split; [apply HD; lia|auto].
Qed.

(** The usual radius: what matters is whether [n * (1 / n)] rounds to 1. *)
Lemma lost_1 n : 1 <= n <= M20 -> (lost n 1 <-> falls_short n n).
Proof.
  intros Hn. split.
  - intros (x & Hx & S). destruct (Z.eq_dec x n) as [->|Nx]; auto. exfalso. destruct (Z.eq_dec x (-1)) as [->|N1].
    + destruct S as [[z Ez] S]. assert (z < 0) by nia. assert (n = 1) by (unfold M20 in *; nia). subst n. apply (C30_pow2_lemma 0 (-1)); try lia. split; auto. exists (-1). reflexivity.
    + apply (not_short_inside n x); auto. lia.
  - intros S. exists n. split; auto. lia.
Qed.

Lemma C75_classic_lemma : forall n m s, 1 <= n <= 48 -> 1 <= m <= 48 -> fl_grid [n; m] s ->
  exists b N, MooreNbHoodBuilder FA 1 2 = Ok b /\ nb_get FA b s None = Ok N /\ forall i j, 0 <= i < n -> 0 <= j < m ->
    neighbours N (i * m + j) (fun k => k <> i * m + j /\ exists dx dy, Z.abs dx <= 1 /\ Z.abs dy <= 1 /\
      k = ((i + dy) mod n) * m + (j + dx) mod m).
Proof.
  intros n m s Hn Hm FG. destruct (C75_moore_lemma n m 1 s ltac:(lia) ltac:(lia) ltac:(lia) FG) as (b & Eb & H & _).
  destruct H as (N & EN & HN).
  - rewrite lost_1 by (unfold M20; lia). apply C30_adjacent_lemma; lia.
  - rewrite lost_1 by (unfold M20; lia). apply C30_adjacent_lemma; lia.
  - exists b, N. auto.
Qed.

Lemma C75_refuted_lemma : exists n s b, 1 <= n <= 100 /\ fl_grid [n; n] s /\ MooreNbHoodBuilder FA 1 2 = Ok b /\
  nb_get FA b s None = Err TypeError.
Proof.
  destruct (fl_core 49 49 ltac:(unfold M20; lia) ltac:(unfold M20; lia)) as (s & FG & _).
  destruct (C75_moore_lemma 49 49 1 s ltac:(lia) ltac:(lia) ltac:(lia) FG) as (b & Eb & _ & H).
  exists 49, s, b. split; [lia|]. split; auto. split; auto. apply H. left. apply lost_1; [unfold M20; lia|].
  apply short_at_border; [unfold M20; lia|vm_compute; reflexivity].
Qed.
