(** Distance neighbourhoods on square lattices in binary64. *)
From Coq Require Import Reals Lra Psatz.
From Flocq Require Import Core BinarySingleNaN.
From Verif Require Import Prelude Dict Arith RealArith FloatArith LatticeModel StructModel NbModel SpecGeom SpecNb SpecGrid SpecFloat64 StructFacts StructBuild
  NbFacts NbMore GridFacts GridOpen FloatFacts FloatCoord FloatGrid FloatVec FloatAxis FloatBox FloatNorm.
Local Open Scope Z_scope.

Local Notation fz := (f_ofZ 0).

Lemma finite_choice {A} (d : A) n (P : nat -> A -> Prop) : (forall a, (a < n)%nat -> exists x, P a x) -> exists l, length l = n /\ forall a, (a < n)%nat -> P a (nth a l d).
Proof.
  induction n as [|n IH]; intros H; [exists []; split; auto; intros; lia|].
  destruct IH as (l & L & Hl); [intros; apply H; lia|]. destruct (H n) as (x & Hx); [lia|]. exists (l ++ [x]).
  split; [rewrite app_length; simpl; lia|]. intros a Ha. destruct (Nat.eq_dec a n) as [->|].
  - rewrite app_nth2 by lia. rewrite L, Nat.sub_diag. exact Hx.
  - rewrite app_nth1 by lia. apply Hl. lia.
Qed.
Lemma Forall2_nth {A B} (R : A -> B -> Prop) da db l m : length l = length m -> (forall a, (a < length l)%nat -> R (nth a l da) (nth a m db)) -> Forall2 R l m.
Proof.
  revert m; induction l as [|x l IH]; intros [|y m] E H; try discriminate; constructor.
  - apply (H 0%nat). simpl; lia.
  - apply IH; [simpl in E; lia|]. intros a Ha. apply (H (S a)). simpl; lia.
Qed.
Lemma nth_Forall2 {A B} (R : A -> B -> Prop) da db l m : Forall2 R l m -> length l = length m /\ forall a, (a < length l)%nat -> R (nth a l da) (nth a m db).
Proof.
  induction 1 as [|x y l m H _ [IHL IH]]; [split; auto; simpl; intros; lia|]. split; [simpl; lia|].
  intros [|a] Ha; simpl; auto. apply IH. simpl in Ha; lia.
Qed.
Lemma reaches_nth n per k c d c' : length per = n -> length k = n -> length c = n -> length d = n -> length c' = n ->
  (reaches per k c d c' <-> forall a, (a < n)%nat -> if nth a per false then (nth a k 0 | nth a c 0 + nth a d 0 - nth a c' 0) else nth a c 0 + nth a d 0 = nth a c' 0).
Proof.
  intros L1 L2 L3 L4 L5. split.
  - intros (_ & _ & _ & H) a Ha. apply (H a); apply nth_error_nth'; lia.
  - intros H. split; [congruence|]. split; [congruence|]. split; [congruence|]. intros a b m x y z E1 E2 E3 E4 E5.
    assert (Ha : (a < n)%nat) by (rewrite <- L1; apply nth_error_Some; congruence). specialize (H a Ha).
    apply (nth_error_nth _ _ false) in E1. apply (nth_error_nth _ _ 0) in E2, E3, E4, E5. rewrite E1, E2, E3, E4, E5 in H. exact H.
Qed.
Lemma sq_le d : forall d', length d = length d' -> (forall a, (a < length d)%nat -> Z.abs (nth a d 0) <= Z.abs (nth a d' 0)) -> sq d <= sq d'.
Proof.
  induction d as [|x d IH]; intros [|y d'] E H; try discriminate. unfold sq in *. cbn [fold_right].
  specialize (IH d' ltac:(simpl in E; lia)). pose proof (H 0%nat ltac:(simpl; lia)) as H0. cbn [nth] in H0.
  assert (fold_right (fun a t => a * a + t) 0 d <= fold_right (fun a t => a * a + t) 0 d') by (apply IH; intros a Ha; apply (H (S a)); simpl; lia). nia.
Qed.
Lemma placeR_inj' x x' z : Z.abs x <= M20 -> 0 <= z <= 1000 -> placeR x' z = placeR x z -> x' = x.
Proof.
  intros Hx Hz E. assert (MON : forall u v, u <= v -> (placeR u z <= placeR v z)%R).
  { intros u v H. apply rnd_le. apply Rmult_le_compat_r; [lra|]. apply IZR_le. lia. }
  unfold M20 in Hx. destruct (Z_le_gt_dec x' M30) as [U|U]; [destruct (Z_le_gt_dec (- M30) x') as [V|V]|].
  - apply (placeR_inj x' x z); auto; unfold M30 in *; lia.
  - assert (E1 : placeR (- M30) z = placeR x z).
    { pose proof (MON x' (- M30) ltac:(lia)). pose proof (MON (- M30) x ltac:(unfold M30; lia)). apply Rle_antisym; lra. }
    apply placeR_inj in E1; auto; unfold M30 in *; lia.
  - assert (E1 : placeR M30 z = placeR x z).
    { pose proof (MON M30 x' ltac:(lia)). pose proof (MON x M30 ltac:(unfold M30; lia)). apply Rle_antisym; lra. }
    apply placeR_inj in E1; auto; unfold M30 in *; lia.
Qed.

(** The list [l], by coordinates instead of by lattice vectors. *)
Definition perm {A} (d : A) (n : nat) (s : nat -> nat) (l : list A) : list A := map (fun a => nth (s a) l d) (seq 0 n).
Lemma perm_length {A} (d : A) n s l : length (perm d n s l) = n.
Proof. unfold perm. now rewrite map_length, seq_length. Qed.
Lemma perm_nth {A} (d : A) n s l a : (a < n)%nat -> nth a (perm d n s l) d = nth (s a) l d.
Proof. intros H. unfold perm. now rewrite (nth_seq_map (fun a => nth (s a) l d)). Qed.

Section Cut.
  Variable n : nat.
  Variable s : nat -> nat.
  Hypothesis Hs : forall a, (a < n)%nat -> (s a < n)%nat /\ s (s a) = a.
  Variable k : list Z.
  Hypothesis Lk : length k = n.
  Hypothesis Hk : Forall (fun m => 1 <= m <= M20) k.
  Variable per : list bool.
  Variable L : lattice b64.
  Hypothesis HL : axis_lattice n s (fun a => nth (s a) k 0) per L.
  Variable z : list Z.
  Hypothesis Lz : length z = n.
  Hypothesis Hz : Forall (fun a => 0 <= a < 1000) z.
  Variable cls : string.
  Variable S : structure b64.
  Hypothesis HB : fl_box n s (fun a => nth (s a) k 0) per L (fun a => nth a z 0) k cls S.

  Local Notation k' := (perm 0 n s k).
  Local Notation per' := (perm false n s per).

  Lemma HN a : (a < n)%nat -> 1 <= nth (s a) k 0 <= M20.
  Proof. intros Ha. rewrite Forall_forall in Hk. apply Hk, nth_In. rewrite Lk. now apply Hs. Qed.
  Lemma Hz' a : (a < n)%nat -> 0 <= nth a z 0 < 1000.
  Proof. intros Ha. rewrite Forall_forall in Hz. apply Hz, nth_In. lia. Qed.
  Lemma cell_bounds e a : In e (cells k) -> (a < n)%nat -> 0 <= nth (s a) e 0 < nth (s a) k 0 /\ Z.abs (nth (s a) e 0) <= M20.
  Proof.
    intros He Ha. apply (cells_incell n k Lk) in He as [_ H]. specialize (H (s a) ltac:(now apply Hs)). pose proof (HN a Ha). lia.
  Qed.

  (** Sites and cells. *)
  Lemma site_of e : In e (cells k) -> fl_site S z (perm 0 n s e) (rank k e).
  Proof.
    intros He. split; [now rewrite perm_length|]. destruct (fb_site _ _ _ _ _ _ _ _ _ HB e He) as (loc & G & [Ll D]).
    eexists. split; [exact G|]. cbn [s_loc]. apply (Forall2_nth _ 0 fz).
    - rewrite FloatVec.zipwith_length by (rewrite perm_length; auto). rewrite perm_length. auto.
    - intros a Ha. rewrite FloatVec.zipwith_length, perm_length in Ha by (rewrite perm_length; auto).
      rewrite (nth_zipwith _ 0 0) by (rewrite perm_length; auto). rewrite perm_nth by auto. apply D. auto.
  Qed.
  Lemma of_site c i : fl_site S z c i -> exists e, In e (cells k) /\ i = rank k e /\ c = perm 0 n s e.
  Proof.
    intros (Lc & x & G & T). destruct (fb_all _ _ _ _ _ _ _ _ _ HB i x G) as (e & He & ->). exists e. split; auto. split; auto.
    destruct (fb_site _ _ _ _ _ _ _ _ _ HB e He) as (loc & G' & [Ll D]). rewrite G in G'. injection G' as ->. cbn [s_loc] in T.
    apply (nth_Forall2 _ 0 fz) in T as [LT T]. rewrite FloatVec.zipwith_length in T by congruence.
    apply nth_ext with 0 0; [rewrite perm_length; congruence|]. intros a Ha. rewrite Lc, Lz in Ha. rewrite perm_nth by auto.
    specialize (T a ltac:(congruence)). rewrite (nth_zipwith _ 0 0) in T by congruence.
    pose proof (denotes_unique _ _ _ T (D a Ha)) as E. destruct (cell_bounds e a He Ha) as [_ B]. pose proof (Hz' a Ha).
    apply (placeR_inj' _ _ (nth a z 0)); auto. lia.
  Qed.
  Lemma perm_inj e e' : length e = n -> length e' = n -> perm 0 n s e = perm 0 n s e' -> e = e'.
  Proof.
    intros L1 L2 E. apply nth_ext with 0 0; [congruence|]. intros i Hi. rewrite L1 in Hi. destruct (Hs i Hi) as [H1 H2].
    rewrite <- H2, <- !(perm_nth 0 n s) by auto. now rewrite E.
  Qed.
  Lemma cells_perm c : Forall2 (fun a m => 0 <= a < m) c k' <-> exists e, In e (cells k) /\ c = perm 0 n s e.
  Proof.
    split.
    - intros H. apply (nth_Forall2 _ 0 0) in H as [LC H]. rewrite perm_length in LC. exists (perm 0 n s c). split.
      + apply (cells_incell n k Lk). split; [apply perm_length|]. intros i Hi. rewrite perm_nth by auto. destruct (Hs i Hi) as [H1 H2].
        specialize (H (s i) ltac:(lia)). rewrite perm_nth, H2 in H by auto. exact H.
      + apply nth_ext with 0 0; [rewrite perm_length; auto|]. intros a Ha. rewrite LC in Ha. destruct (Hs a Ha) as [H1 H2].
        rewrite !perm_nth by auto. now rewrite H2.
    - intros (e & He & ->). apply (Forall2_nth _ 0 0); [now rewrite !perm_length|]. intros a Ha. rewrite perm_length in Ha.
      rewrite !perm_nth by auto. now apply cell_bounds.
  Qed.
  Lemma cell_len e : In e (cells k) -> length e = n.
  Proof. intros H. apply (cells_incell n k Lk) in H. apply H. Qed.

  (** Distances. *)
  Hypothesis Hn : (n <= 3)%nat.
  Lemma distance_between e e' : In e (cells k) -> In e' (cells k) -> forall x y, get_site S (rank k e) = Some x -> get_site S (rank k e') = Some y ->
    exists v t d, cartesian_periodic_distance FA (p_lattice S) (s_loc y) (s_loc x) = Ok v /\ denotes v t /\
      reaches per' k' (perm 0 n s e) d (perm 0 n s e') /\ (forall d', reaches per' k' (perm 0 n s e) d' (perm 0 n s e') -> sq d <= sq d') /\
      (Rabs (t - sqrt (IZR (sq d))) <= 59 / 100000)%R /\
      forall r, 0 <= r -> (sq d <= r * r -> (t <= IZR r)%R) /\ (r * r <= sq d -> (IZR r <= t)%R).
  Proof.
    intros He He' x y Gx Gy. destruct (fb_site _ _ _ _ _ _ _ _ _ HB e He) as (lx & G & Dx). rewrite Gx in G. injection G as ->.
    destruct (fb_site _ _ _ _ _ _ _ _ _ HB e' He') as (ly & G & Dy). rewrite Gy in G. injection G as ->. cbn [s_loc].
    rewrite (fb_lat _ _ _ _ _ _ _ _ _ HB).
    assert (NEAR : forall e a, In e (cells k) -> (a < n)%nat -> (Rabs (placeR (nth (s a) e 0%Z) (nth a z 0%Z) - (IZR (nth (s a) e 0%Z) + IZR (nth a z 0%Z) / 1000)) <= / 1048576)%R).
    { intros e0 a He0 Ha. destruct (cell_bounds e0 a He0 Ha) as [_ B]. pose proof (Hz' a Ha) as Bz.
      eapply Rle_trans; [apply placeR_near; [unfold M20, M30 in *; lia|lia]|lra]. }
    assert (BND : forall e a, In e (cells k) -> (a < n)%nat -> (Rabs (placeR (nth (s a) e 0%Z) (nth a z 0%Z)) <= 16777216)%R).
    { intros e0 a He0 Ha. destruct (cell_bounds e0 a He0 Ha) as [_ B]. pose proof (milli_bound _ (Hz' a Ha)) as Bz. pose proof (NEAR e0 a He0 Ha) as NR.
      apply IZR_abs_le, Rabs_bnd in B. change (IZR M20) with 1048576%R in B. apply Rabs_bnd in NR. apply Rabs_le. lra. }
    destruct (diff_axis n s _ per L Hs HN HL ly lx _ _ Dy Dx) as (c & Ec & [Lc Dc]); [intros a Ha; split; auto|].
    destruct (finite_choice 0 n (fun a d => (if nth (s a) per false then (nth (s a) k 0 | nth (s a) e' 0 - nth (s a) e 0 - d) /\ 2 * Z.abs d <= nth (s a) k 0 else d = nth (s a) e' 0 - nth (s a) e 0) /\
      (Rabs (diffR (nth (s a) k 0%Z) (nth (s a) per false) (placeR (nth (s a) e' 0%Z) (nth a z 0%Z)) (placeR (nth (s a) e 0%Z) (nth a z 0%Z)) - IZR d) <= / 65536)%R)) as (d & Ld & Hd).
    { intros a Ha. apply (diffR_err _ _ _ _ (nth a z 0)); auto using HN, Hz'; try (apply cell_bounds; auto). }
    set (xs := map (fun a => diffR (nth (s a) k 0) (nth (s a) per false) (placeR (nth (s a) e' 0) (nth a z 0)) (placeR (nth (s a) e 0) (nth a z 0))) (seq 0 n)).
    assert (Lxs : length xs = n) by (unfold xs; now rewrite map_length, seq_length).
    assert (DB : forall a, (a < n)%nat -> Z.abs (nth a d 0) <= 2097152).
    { intros a Ha. destruct (Hd a Ha) as [H _]. destruct (cell_bounds e a He Ha) as [_ B1]. destruct (cell_bounds e' a He' Ha) as [_ B2]. pose proof (HN a Ha). unfold M20 in *.
      destruct (nth (s a) per false); [destruct H|]; lia. }
    destruct (dist_near c xs d) as (t & Dt & Et & Rt).
    { apply (Forall2_nth _ fz 0%R); [congruence|]. intros a Ha. rewrite Lc in Ha. unfold xs. rewrite (nth_seq_map (fun a => diffR _ _ _ _)) by auto. apply Dc. auto. }
    { apply (Forall2_nth _ 0%R 0); [congruence|]. intros a Ha. rewrite Lxs in Ha. unfold xs. rewrite (nth_seq_map (fun a => diffR _ _ _ _)) by auto. split; [now apply Hd|auto]. }
    { lia. }
    assert (Lper : length per = n) by apply (al_len _ _ _ _ _ HL).
    exists (roundk FA 1000 (norm FA c)), t, d. split; [|split; [exact Dt|split; [|split; [|auto]]]].
    - unfold cartesian_periodic_distance, pbc_diff_cart. destruct (get_fractional_coords FA L ly) as [f1|]; [|discriminate Ec]. cbn [bind] in *.
      destruct (get_fractional_coords FA L lx) as [f2|]; [|discriminate Ec]. cbn [bind] in *.
      destruct (pbc_diff_frac_vec FA f1 f2 (l_periodic L)) as [fd|]; [|discriminate Ec]. cbn [bind] in *. rewrite Ec. reflexivity.
    - apply (reaches_nth n); auto using perm_length. intros a Ha. rewrite !perm_nth by auto. destruct (Hd a Ha) as [H _].
      destruct (nth (s a) per false); [|lia]. destruct H as [[q Hq] _]. exists (- q). lia.
    - intros d' R. assert (Ld' : length d' = n) by (destruct R as (_ & E & _); rewrite perm_length in E; auto).
      pose proof (proj1 (reaches_nth n per' k' _ d' _ (perm_length _ _ _ _) (perm_length _ _ _ _) (perm_length _ _ _ _) Ld' (perm_length _ _ _ _)) R) as R'. clear R. rename R' into R. apply sq_le; [congruence|]. intros a Ha. rewrite Ld in Ha. specialize (R a Ha). rewrite !perm_nth in R by auto.
      destruct (Hd a Ha) as [H _]. destruct (nth (s a) per false); [|lia]. destruct H as [[q Hq] M]. destruct R as [q' Hq']. pose proof (HN a Ha) as P.
      assert (E : nth a d' 0 = nth a d 0 + (q + q') * nth (s a) k 0) by lia.
      destruct (Z.eq_dec (q + q') 0) as [Z0|NZ]; [rewrite Z0 in E; lia|]. set (m := nth (s a) k 0) in *. nia.
  Qed.

  (** Cutoffs. *)
  Section Values.
    Variables (t : R) (d : list Z).
    Hypothesis Et : (Rabs (t - sqrt (IZR (sq d))) <= 59 / 100000)%R.
    Hypothesis Rt : forall r, 0 <= r -> (sq d <= r * r -> (t <= IZR r)%R) /\ (r * r <= sq d -> (IZR r <= t)%R).
    Lemma val_le K c : admits K c -> sq d <= K -> (t < c)%R.
    Proof.
      apply Rabs_bnd in Et. intros [A|(r & Pr & -> & A)] H.
      - assert (sqrt (IZR (sq d)) <= sqrt (IZR K))%R by (apply sqrt_le_1_alt; now apply IZR_le). lra.
      - destruct (Rt r Pr) as [R1 _]. specialize (R1 H). lra.
    Qed.
    Lemma val_ge K c : keeps_out K c -> K <= sq d -> (c <= t)%R.
    Proof.
      apply Rabs_bnd in Et. intros [A|(r & Pr & -> & A)] H.
      - assert (sqrt (IZR K) <= sqrt (IZR (sq d)))%R by (apply sqrt_le_1_alt; now apply IZR_le). lra.
      - destruct (Rt r Pr) as [_ R1]. specialize (R1 H). lra.
    Qed.
    Lemma val_le' K c : skips K c -> sq d <= K -> (t <= c)%R.
    Proof.
      apply Rabs_bnd in Et. intros [A|(r & Pr & -> & A)] H.
      - assert (sqrt (IZR (sq d)) <= sqrt (IZR K))%R by (apply sqrt_le_1_alt; now apply IZR_le). lra.
      - destruct (Rt r Pr) as [R1 _]. specialize (R1 H). lra.
    Qed.
    Lemma val_gt K c : passes K c -> K <= sq d -> (c < t)%R.
    Proof.
      apply Rabs_bnd in Et. intros [A|(r & Pr & -> & A)] H.
      - assert (sqrt (IZR K) <= sqrt (IZR (sq d)))%R by (apply sqrt_le_1_alt; now apply IZR_le). lra.
      - destruct (Rt r Pr) as [_ R1]. specialize (R1 H). lra.
    Qed.
  End Values.

  Lemma reach_len c d c' : reaches per' k' c d c' -> length d = n.
  Proof. intros (_ & E & _). now rewrite perm_length in E. Qed.

  (** The graph of a builder that tests the distance. *)
  Lemma by_distance_fl b (test : b64 -> bool) (P : Z -> Prop) :
    nb_get FA b S None = (do g <- get_graph FA b S None; Ok (NGraph g)) ->
    (forall cur, get_neighbors FA b S cur =
       foldM (fun nbs other => if negb (s_id cur =? s_id other) then
                do dist <- cartesian_periodic_distance FA (p_lattice S) (s_loc other) (s_loc cur);
                Ok (if test dist then nbs ++ [(Some (s_id other), Some dist)] else nbs)
              else Ok nbs) (sites S None) []) ->
    (forall v t d, length d = n -> denotes v t -> (Rabs (t - sqrt (IZR (sq d))) <= 59 / 100000)%R ->
       (forall r, 0 <= r -> (sq d <= r * r -> (t <= IZR r)%R) /\ (r * r <= sq d -> (IZR r <= t)%R)) -> (test v = true <-> P (sq d))) ->
    exists N, nb_get FA b S None = Ok N /\ forall c i, fl_site S z c i ->
      neighbours N i (fun j => j <> i /\ exists c' d, fl_site S z c' j /\ shortest per' k' c d c' /\ P (sq d)) /\
      lengths per' k' z S N c i.
  Proof.
    intros NG EB TP. pose proof (fb_dense _ _ _ _ _ _ _ _ _ HB) as DS. pose proof (fb_in _ _ _ _ _ _ _ _ _ HB) as IN.
    assert (CELL : forall x, In x (sites S None) -> exists e, In e (cells k) /\ s_id x = rank k e /\ get_site S (rank k e) = Some x).
    { intros x Hx. apply IN in Hx. destruct (fb_all _ _ _ _ _ _ _ _ _ HB _ _ Hx) as (e & He & E). exists e. rewrite <- E. auto. }
    assert (LST : forall cur, In cur (sites S None) -> exists ys, get_neighbors FA b S cur = Ok (map wrap ys) /\
       forall j w, In (j, w) ys <-> exists y v, In y (sites S None) /\ negb (s_id cur =? s_id y) = true /\
         cartesian_periodic_distance FA (p_lattice S) (s_loc y) (s_loc cur) = Ok v /\ test v = true /\ j = s_id y /\ w = Some v).
    { intros cur Hc. rewrite EB.
      destruct (pick_fold (fun y => cartesian_periodic_distance FA (p_lattice S) (s_loc y) (s_loc cur))
                  (fun y => negb (s_id cur =? s_id y)) test (sites S None) []) as (ys & E & H).
      { intros y Hy _. destruct (CELL cur Hc) as (e & He & _ & G). destruct (CELL y Hy) as (e' & He' & _ & G').
        destruct (distance_between e e' He He' cur y G G') as (v & t & d & E & _). eauto. }
      exists ys. split; auto. }
    destruct (graph_of FA b S None DS) as (g & Eg & OUT & _).
    { intros cur Hc. destruct (LST cur Hc) as (ys & E & H). exists (map wrap ys). split; auto.
      apply Forall_forall. intros y0 Hy0. apply in_map_iff in Hy0 as ([j w] & <- & Hy). exists j. split; auto.
      apply H in Hy as (y & v & Hy & _ & _ & _ & -> & _). now apply dense_id. }
    exists (NGraph g). split; [rewrite NG, Eg; reflexivity|].
    intros c i Si. destruct (of_site c i Si) as (e & He & -> & ->). destruct (fb_site _ _ _ _ _ _ _ _ _ HB e He) as (loc & G & _).
    set (x := mkSite cls loc (rank k e)) in *. assert (Hx : In x (sites S None)) by (apply IN; exact G).
    destruct (OUT x Hx) as (ys & E1 & E2). destruct (LST x Hx) as (ys' & E1' & H). rewrite E1 in E1'.
    assert (ys = ys').
    { assert (X : map wrap ys = map wrap ys') by (unfold wrap at 1; congruence). clear -X. revert ys' X.
      induction ys as [|[a b] ys IH]; destruct ys' as [|[c d] ys']; simpl; intros X; try discriminate; auto.
      unfold wrap in X. simpl in X. injection X as -> -> X. f_equal. auto. }
    subst ys'. change (s_id x) with (rank k e) in *. split.
    - apply graph_neighbours. intros j. rewrite E2, map_rev, <- in_rev, in_map_iff. split.
      + intros (Nj & c' & d & Sj & [R MIN] & Pd). destruct (of_site c' j Sj) as (e' & He' & -> & ->).
        destruct (fb_site _ _ _ _ _ _ _ _ _ HB e' He') as (loc' & G' & _). set (y := mkSite cls loc' (rank k e')) in *.
        destruct (distance_between e e' He He' x y G G') as (v & t & d0 & Ev & Dv & R0 & MIN0 & Et & Rt).
        assert (SQ : sq d0 = sq d) by (apply Z.le_antisymm; auto).
        exists (rank k e', Some v). split; auto. apply H. exists y, v. split; [apply IN; exact G'|]. split; [change (s_id y) with (rank k e'); apply Bool.negb_true_iff; lia|].
        split; auto. split; [apply (TP v t d0); auto; [eapply reach_len; eauto|now rewrite SQ]|]. auto.
      + intros ([j' w] & Ej & Hy). simpl in Ej. subst j'. apply H in Hy as (y & v & Hy & Ny & Ev & Tv & -> & ->).
        destruct (CELL y Hy) as (e' & He' & Ey & G'). destruct (distance_between e e' He He' x y G G') as (v0 & t & d0 & Ev0 & Dv & R0 & MIN0 & Et & Rt).
        assert (v0 = v) by congruence. subst v0. split; [apply Bool.negb_true_iff in Ny; lia|]. exists (perm 0 n s e'), d0. rewrite Ey. split; [now apply site_of|]. split; [split; auto|]. apply (TP v t d0); auto. eapply reach_len; eauto.
    - apply graph_weights. intros j w. rewrite E2, <- in_rev. intros Hy. apply H in Hy as (y & v & Hy & Ny & Ev & Tv & -> & ->).
      destruct (CELL y Hy) as (e' & He' & Ey & G'). destruct (distance_between e e' He He' x y G G') as (v0 & t & d0 & Ev0 & Dv & R0 & MIN0 & Et & Rt).
      assert (v0 = v) by congruence. subst v0. exists (perm 0 n s e'), d0, v, t. rewrite Ey. split; [now apply site_of|]. split; [split; auto|]. split; auto. split; auto. lra.
  Qed.

  Lemma cutoff_fl K K' cut c : (forall d, length d = n -> K < sq d -> K' <= sq d) -> denotes cut c -> admits K c -> keeps_out K' c ->
    exists N, nb_get FA (BDistance cut) S None = Ok N /\ forall c i, fl_site S z c i ->
      neighbours N i (fun j => j <> i /\ exists c' d, fl_site S z c' j /\ reaches per' k' c d c' /\ sq d <= K) /\
      lengths per' k' z S N c i.
  Proof.
    intros GAP Dc A B. destruct (by_distance_fl (BDistance cut) (fun v => f_ltb v cut) (fun q => q <= K)) as (N & EN & H).
    - reflexivity.
    - reflexivity.
    - intros v t d Ld Dv Et Rt. rewrite (denotes_ltb _ _ _ _ Dv Dc). split.
      + case Rlt_bool_spec; [|discriminate]. intros LT _. destruct (Z_le_gt_dec (sq d) K) as [|GT]; auto.
        pose proof (val_ge t d Et Rt K' c B (GAP d Ld ltac:(lia))). lra.
      + intros LE. apply Rlt_bool_true. apply (val_le t d Et Rt K); auto.
    - exists N. split; auto. intros c0 i Si. destruct (H c0 i Si) as [H1 H2]. split; auto. revert H1. apply neighbours_iff. intros j.
      split; intros (Nj & c' & d & Sj & R & Q); split; auto.
      + exists c', d. split; auto. split; [apply R|auto].
      + destruct (of_site _ _ Si) as (e & He & -> & ->). destruct (of_site _ _ Sj) as (e' & He' & -> & ->).
        destruct (fb_site _ _ _ _ _ _ _ _ _ HB e He) as (? & G & _). destruct (fb_site _ _ _ _ _ _ _ _ _ HB e' He') as (? & G' & _).
        destruct (distance_between e e' He He' _ _ G G') as (_ & _ & d0 & _ & _ & R0 & MIN0 & _). exists (perm 0 n s e'), d0. split; auto. split; [split; auto|].
        specialize (MIN0 d R). lia.
  Qed.
  Lemma ring_fl K1 K2 cut1 cut2 c1 c2 : denotes cut1 c1 -> denotes cut2 c2 -> skips K1 c1 -> passes (K1 + 1) c1 -> admits K2 c2 -> keeps_out (K2 + 1) c2 ->
    exists N, nb_get FA (BAnnular cut1 cut2) S None = Ok N /\ forall c i, fl_site S z c i ->
      neighbours N i (fun j => j <> i /\ exists c' d, fl_site S z c' j /\ shortest per' k' c d c' /\ K1 < sq d <= K2) /\
      lengths per' k' z S N c i.
  Proof.
    intros D1 D2 A1 B1 A2 B2. apply (by_distance_fl (BAnnular cut1 cut2) (fun v => f_ltb cut1 v && f_ltb v cut2) (fun q => K1 < q <= K2)).
    - reflexivity.
    - reflexivity.
    - intros v t d Ld Dv Et Rt. rewrite Bool.andb_true_iff, (denotes_ltb _ _ _ _ Dv D2), (denotes_ltb _ _ _ _ D1 Dv). split.
      + intros [X Y]. revert X Y. case Rlt_bool_spec; [|discriminate]. intros L1 _. case Rlt_bool_spec; [|discriminate]. intros L2 _.
        split.
        * destruct (Z_le_gt_dec (sq d) K1) as [G|]; [|lia]. pose proof (val_le' t d Et Rt K1 c1 A1 G). lra.
        * destruct (Z_le_gt_dec (sq d) K2) as [|G]; auto. pose proof (val_ge t d Et Rt (K2 + 1) c2 B2 ltac:(lia)). lra.
      + intros [L1 L2]. split; apply Rlt_bool_true.
        * apply (val_gt t d Et Rt (K1 + 1)); auto. lia.
        * apply (val_le t d Et Rt K2); auto.
  Qed.
End Cut.
