(** Facts about the structure model (C28-C36). *)
From Coq Require Import Reals Lra Permutation.
From Verif Require Import Prelude Dict Arith RVec RealArith LatticeModel JsonModel JsonFacts StructModel SpecGeom LatticeFacts.
Local Open Scope Z_scope.

(** * Histories, over any arithmetic *)
Section Any.
  Context {F : Type} (A : arith F).
  Local Instance Eqb_key : Eqb (list F) := vec_eqb A.

  Lemma dset_None {K V} `{Eqb K} (k : K) (v : V) d : dget k d = None -> dset k v d = d ++ [(k, v)].
  Proof. induction d as [|[k' v'] d IH]; simpl; auto. destruct (eqb k k'); [discriminate|]. intros; f_equal; auto. Qed.

  Definition mk (x : Z * (string * list F * list F)) : Z * site F :=
    (fst x, mkSite (fst (fst (snd x))) (get_rounded_coords A (snd (fst (snd x)))) (fst x)).

  (** [h] lists class, image in the cell and lookup key of every site. *)
  Definition Inv (L : lattice F) (h : list (string * list F * list F)) (s : structure F) : Prop :=
    p_lattice s = L /\ p_dim s = l_dim L /\
    p_sites s = map mk (enumerate h) /\
    p_ids s = zrange 0 (Z.of_nat (length h)) /\
    p_lookup s = map (fun x => (snd (snd x), fst x)) (enumerate h).

  Lemma enumerate_from_app {B} i (l m : list B) :
    enumerate_from i (l ++ m) = enumerate_from i l ++ enumerate_from (i + Z.of_nat (length l)) m.
  Proof.
    revert i; induction l; intros; simpl; [f_equal; lia|]. rewrite IHl. do 3 f_equal. lia.
  Qed.
  Lemma enumerate_snoc {B} (l : list B) x : enumerate (l ++ [x]) = enumerate l ++ [(Z.of_nat (length l), x)].
  Proof. unfold enumerate. rewrite enumerate_from_app. reflexivity. Qed.
  Lemma enumerate_from_keys {B} i (l : list B) : map fst (enumerate_from i l) = zrange i (i + Z.of_nat (length l)).
  Proof.
    revert i; induction l; intros; simpl.
    - unfold zrange. replace (Z.to_nat _) with 0%nat by lia. reflexivity.
    - rewrite IHl. unfold zrange. replace (Z.to_nat (i + Z.pos (Pos.of_succ_nat (length l)) - i)) with (S (length l)) by lia.
      replace (Z.to_nat (i + 1 + Z.of_nat (length l) - (i + 1))) with (length l) by lia.
      simpl. f_equal; [lia|]. rewrite <- seq_shift, map_map. apply map_ext. intros; lia.
  Qed.
  Lemma enumerate_keys {B} (l : list B) : map fst (enumerate l) = zrange 0 (Z.of_nat (length l)).
  Proof. unfold enumerate. now rewrite enumerate_from_keys. Qed.
  Lemma zrange_snoc m : 0 <= m -> zrange 0 (m + 1) = zrange 0 m ++ [m].
  Proof.
    intros H. unfold zrange. replace (Z.to_nat (m + 1 - 0)) with (S (Z.to_nat (m - 0))) by lia.
    rewrite seq_S, map_app. simpl. do 2 f_equal. lia.
  Qed.

  Lemma Inv_init L : Inv L [] (struct_init L).
  Proof. repeat split. Qed.

  Lemma sites_length L h s : Inv L h s -> length (p_sites s) = length h.
  Proof. intros (_ & _ & E & _). rewrite E, map_length. unfold enumerate. now rewrite enumerate_from_length. Qed.

  Lemma dget_sites_fresh L h s : Inv L h s -> dget (Z.of_nat (length (p_sites s))) (p_sites s) = None.
  Proof.
    intros I. rewrite (sites_length L h s I). destruct I as (_ & _ & E & _). rewrite E. apply dget_None.
    unfold dkeys. rewrite map_map. rewrite (map_ext _ fst) by reflexivity. rewrite enumerate_keys, zrange_In. lia.
  Qed.

  (** The outcome of one call. *)
  Lemma add_site_cases L h s c p : Inv L h s ->
    (exists e, get_periodized_cartesian_coords A L p = Err e /\ add_site A s c p = (s, Err e)) \/
    (exists q e, get_periodized_cartesian_coords A L p = Ok q /\ transformed_coords A s p = Err e /\
       add_site A s c p = (s, Err e)) \/
    (exists q k i, get_periodized_cartesian_coords A L p = Ok q /\ transformed_coords A s p = Ok k /\
       dget k (p_lookup s) = Some i /\ add_site A s c p = (s, Err AssertionError)) \/
    (exists q k s', get_periodized_cartesian_coords A L p = Ok q /\ transformed_coords A s p = Ok k /\
       dget k (p_lookup s) = None /\
       add_site A s c p = (s', Ok (Z.of_nat (length h))) /\ Inv L (h ++ [(c, q, k)]) s').
  Proof.
    intros I. pose proof (sites_length L h s I) as LS. pose proof (dget_sites_fresh L h s I) as FR.
    unfold add_site. pose proof I as (E1 & E2 & E3 & E4 & E5). rewrite E1.
    destruct (get_periodized_cartesian_coords A L p) as [q|e] eqn:Q.
    2: { left. exists e. auto. }
    right. destruct (transformed_coords A s p) as [k|e] eqn:T.
    2: { left. exists q, e. auto. }
    right. destruct (dget k (p_lookup s)) as [i|] eqn:D.
    1: { left. exists q, k, i. auto. }
    right. exists q, k. eexists. split; [auto|]. split; [auto|]. split; [auto|]. split; [rewrite LS; reflexivity|].
    rewrite LS in *.
    split; [auto|]. split; [auto|]. cbn [p_sites p_ids p_lookup]. split; [|split].
    - rewrite dset_None by auto. rewrite E3, enumerate_snoc, map_app. reflexivity.
    - rewrite E4, app_length. simpl. replace (Z.of_nat (length h + 1)) with (Z.of_nat (length h) + 1) by lia.
      rewrite zrange_snoc by lia. reflexivity.
    - rewrite dset_None by auto. rewrite E5, enumerate_snoc, map_app. reflexivity.
  Qed.

  (** Does the point belong to the entry? *)
  Definition entry_of (L : lattice F) (x : string * list F) (e : string * list F * list F) : Prop :=
    fst x = fst (fst e) /\ get_periodized_cartesian_coords A L (snd x) = Ok (snd (fst e)) /\
    (do y <- bcast (a_add A) (snd (fst e)) (repeat (VEC_OFFSET A) (l_dim L)); Ok (get_rounded_coords A y)) = Ok (snd e).

  Lemma transformed_eq L h s p q : Inv L h s -> get_periodized_cartesian_coords A L p = Ok q ->
    transformed_coords A s p = (do y <- bcast (a_add A) q (repeat (VEC_OFFSET A) (l_dim L)); Ok (get_rounded_coords A y)).
  Proof.
    intros (E1 & E2 & _) Q. unfold transformed_coords. rewrite E1, Q. simpl. unfold coords_with_offset, offset_vector.
    now rewrite E2.
  Qed.

  Lemma adds_inv L calls : forall h s, Inv L h s ->
    exists h', Inv L (h ++ h') (fst (adds A s calls)) /\
      Forall2 (entry_of L) (accepted calls (snd (adds A s calls))) h' /\
      length (snd (adds A s calls)) = length calls /\
      returned (snd (adds A s calls)) = zrange (Z.of_nat (length h)) (Z.of_nat (length h + length h')).
  Proof.
    induction calls as [|[c p] t IH]; intros h s I.
    - exists []. simpl. rewrite app_nil_r. repeat split; try apply I; auto.
      rewrite Nat.add_0_r. unfold zrange. now rewrite Z.sub_diag.
    - simpl. destruct (add_site_cases L h s c p I) as [(e & Q & ->)|[(q & e & Q & T & ->)|[(q & k & i & Q & T & D & ->)|(q & k & s' & Q & T & D & -> & I')]]]; simpl.
      + destruct (IH h s I) as (h' & H1 & H2 & H3 & H4). exists h'. auto.
      + destruct (IH h s I) as (h' & H1 & H2 & H3 & H4). exists h'. auto.
      + destruct (IH h s I) as (h' & H1 & H2 & H3 & H4). exists h'. auto.
      + destruct (IH _ s' I') as (h' & H1 & H2 & H3 & H4). exists ((c, q, k) :: h').
        rewrite <- app_assoc in H1. simpl in H1. split; auto. split.
        { constructor; auto. split; [reflexivity|]. split; [exact Q|]. pose proof (transformed_eq L h s p q I Q) as X. rewrite T in X. symmetry. exact X. }
        split; [simpl; lia|]. rewrite H4, app_length. simpl.
        unfold zrange.
        replace (Z.to_nat (Z.of_nat (length h + S (length h')) - Z.of_nat (length h))) with (S (length h')) by lia.
        replace (Z.to_nat (Z.of_nat (length h + 1 + length h') - Z.of_nat (length h + 1))) with (length h') by lia.
        simpl. f_equal; [lia|]. rewrite <- seq_shift, map_map. apply map_ext. intros; lia.
  Qed.

  Lemma enumerate_nth {B} (l : list B) i : nth_error (enumerate l) i = option_map (fun x => (Z.of_nat i, x)) (nth_error l i).
  Proof. unfold enumerate. rewrite enumerate_from_nth. destruct (nth_error l i); reflexivity. Qed.

  Lemma dget_enum {B C} (g : Z * B -> C) (l : list B) i :
    dget (Z.of_nat i) (map (fun x => (fst x, g x)) (enumerate l)) = option_map (fun x => g (Z.of_nat i, x)) (nth_error l i).
  Proof.
    destruct (nth_error l i) as [x|] eqn:E.
    - simpl. apply In_dget.
      + unfold dkeys. rewrite map_map. simpl. rewrite enumerate_keys. apply zrange_NoDup.
      + apply in_map_iff. exists (Z.of_nat i, x). split; auto. eapply nth_error_In. rewrite enumerate_nth, E. reflexivity.
    - simpl. apply dget_None. unfold dkeys. rewrite map_map. simpl. rewrite enumerate_keys, zrange_In.
      apply nth_error_None in E. lia.
  Qed.

  Lemma get_site_nth L h s i : Inv L h s -> get_site s (Z.of_nat i) =
    option_map (fun e => mkSite (fst (fst e)) (get_rounded_coords A (snd (fst e))) (Z.of_nat i)) (nth_error h i).
  Proof. intros (_ & _ & E & _). unfold get_site. rewrite E. apply (dget_enum (fun x => snd (mk x))). Qed.
  Lemma get_site_None L h s i : Inv L h s -> (i < 0 \/ Z.of_nat (length h) <= i) -> get_site s i = None.
  Proof.
    intros (_ & _ & E & _) H. unfold get_site. rewrite E. apply dget_None. unfold dkeys. rewrite map_map.
    rewrite (map_ext _ fst) by reflexivity. rewrite enumerate_keys, zrange_In. lia.
  Qed.
  Lemma sites_list L h s : Inv L h s -> sites s None = map (fun x => snd (mk x)) (enumerate h).
  Proof. intros (_ & _ & E & _). unfold sites, dvals. rewrite E, map_map. reflexivity. Qed.
End Any.

(** * Over the reals *)
Lemma list_eqb_ok {B} `{EqbOk B} : forall x y : list B, reflect (x = y) (list_eqb x y).
Proof.
  induction x as [|a x IH]; destruct y as [|b y]; simpl; try (constructor; congruence).
  destruct (eqb_spec a b) as [E|N]; simpl; [|constructor; congruence].
  destruct (IH y); constructor; congruence.
Qed.
#[export] Instance EqbOk_vecR : @EqbOk (list R) (vec_eqb RA).
Proof. exact (@list_eqb_ok R Eqb_R EqbOk_R). Qed.

Section Reals.
  Variables (n : nat) (vs : list vec) (per : list bool) (L : lattice R).
  Hypothesis HL : lattice_on n vs per L.

  Lemma VEC_OFFSET_RA : VEC_OFFSET RA = (1/1000)%R. Proof. reflexivity. Qed.

  Lemma key_ok q : length q = n ->
    (do y <- bcast (a_add RA) q (repeat (VEC_OFFSET RA) (l_dim L)); Ok (get_rounded_coords RA y)) = Ok (place q).
  Proof.
    intros Lq. rewrite (on_dim n vs per L HL). rewrite bcast_eq by (rewrite repeat_length; auto). simpl. f_equal.
    unfold get_rounded_coords, place. rewrite <- Lq. clear. induction q; simpl; auto. f_equal; auto.
  Qed.

  Lemma periodised_len p q : length p = n -> periodised n vs per p q -> length q = n.
  Proof. intros Lp [I _]. eapply image_len; eauto. Qed.

  Lemma entry_real c p e : entry_of RA L (c, p) e ->
    length p = n /\ exists q, periodised n vs per p q /\ e = (c, q, place q).
  Proof.
    destruct e as [[c' q] k]. intros (E1 & E2 & E3). simpl in *. subst c'.
    destruct (Nat.eq_dec (length p) n) as [Lp|Lp].
    - split; auto. exists q. apply (per_iff n vs per L HL) in E2; auto. split; auto.
      rewrite key_ok in E3; [congruence|]. eapply periodised_len; eauto.
    - rewrite (per_wrong n vs per L HL) in E2; auto. discriminate.
  Qed.

  Lemma transformed_real h s p q : Inv RA L h s -> length p = n -> periodised n vs per p q ->
    transformed_coords RA s p = Ok (place q).
  Proof.
    intros I Lp P. rewrite (transformed_eq RA L h s p q); auto.
    - apply key_ok. eapply periodised_len; eauto.
    - now apply (per_iff n vs per L HL).
  Qed.

  (** Keys of a history are pairwise distinct. *)
  Definition keys (h : list (string * list R * list R)) : list (list R) := map snd h.
  Lemma lookup_keys (h : list (string * list R * list R)) : dkeys (map (fun x : Z * (string * list R * list R) => (snd (snd x), fst x)) (enumerate h)) = keys h.
  Proof.
    unfold dkeys, keys. rewrite map_map. simpl. rewrite <- (map_map snd snd). unfold enumerate. now rewrite enumerate_from_snd.
  Qed.

  Lemma add_site_real h s c p : Inv RA L h s -> NoDup (keys h) ->
    (length p <> n /\ add_site RA s c p = (s, Err ValueError)) \/
    (exists q, length p = n /\ periodised n vs per p q /\
       ((In (place q) (keys h) /\ add_site RA s c p = (s, Err AssertionError)) \/
        (~ In (place q) (keys h) /\ exists s', add_site RA s c p = (s', Ok (Z.of_nat (length h))) /\
           Inv RA L (h ++ [(c, q, place q)]) s'))).
  Proof.
    intros I ND. destruct (Nat.eq_dec (length p) n) as [Lp|Lp].
    - right. destruct (per_spec n vs per L HL p Lp) as (q & Eq & P). exists q. split; auto. split; auto.
      pose proof (transformed_real h s p q I Lp P) as T.
      assert (K : dkeys (p_lookup s) = keys h) by (destruct I as (_ & _ & _ & _ & ->); apply lookup_keys).
      destruct (add_site_cases RA L h s c p I) as [(e & Q & E)|[(q' & e & Q & T' & E)|[(q' & k & i & Q & T' & D & E)|(q' & k & s' & Q & T' & D & E & I')]]]; try congruence.
      + left. split; auto. rewrite <- K. assert (k = place q) by congruence. subst k. eapply dget_Some_key; eauto.
      + right. assert (k = place q) by congruence. assert (q' = q) by congruence. subst k q'. split.
        * rewrite <- K. now apply dget_None.
        * exists s'. auto.
    - left. split; auto. destruct (add_site_cases RA L h s c p I) as [(e & Q & E)|[(q & e & Q & _ & E)|[(q & k & i & Q & _)|(q & k & s' & Q & _)]]];
        rewrite (per_wrong n vs per L HL p Lp) in Q; congruence.
  Qed.

  (** Histories over the reals. *)
  Definition real_hist (acc : list (string * vec)) (h : list (string * vec * vec)) : Prop :=
    Forall2 (fun x e => length (snd x) = n /\ exists q, periodised n vs per (snd x) q /\ e = (fst x, q, place q)) acc h.

  Lemma adds_real calls : forall h s, Inv RA L h s -> NoDup (keys h) ->
    exists h', Inv RA L (h ++ h') (fst (adds RA s calls)) /\ NoDup (keys (h ++ h')) /\
      real_hist (accepted calls (snd (adds RA s calls))) h' /\
      returned (snd (adds RA s calls)) = zrange (Z.of_nat (length h)) (Z.of_nat (length h + length h')).
  Proof.
    induction calls as [|[c p] t IH]; intros h s I ND.
    - exists []. simpl. rewrite app_nil_r. repeat split; try apply I; auto; try constructor.
      rewrite Nat.add_0_r. unfold zrange. now rewrite Z.sub_diag.
    - simpl. destruct (add_site_real h s c p I ND) as [[Lp ->]|(q & Lp & P & [[K ->]|(K & s' & -> & I')])]; simpl.
      + destruct (IH h s I ND) as (h' & H). exists h'. exact H.
      + destruct (IH h s I ND) as (h' & H). exists h'. exact H.
      + destruct (IH _ s' I') as (h' & H1 & H2 & H3 & H4).
        { unfold keys. rewrite map_app. simpl. apply NoDup_app_single; auto. }
        exists ((c, q, place q) :: h'). rewrite <- app_assoc in H1, H2. simpl in H1, H2. split; auto. split; auto. split.
        { constructor; auto. simpl. split; auto. exists q. auto. }
        rewrite H4, app_length. simpl. unfold zrange.
        replace (Z.to_nat (Z.of_nat (length h + S (length h')) - Z.of_nat (length h))) with (S (length h')) by lia.
        replace (Z.to_nat (Z.of_nat (length h + 1 + length h') - Z.of_nat (length h + 1))) with (length h') by lia.
        simpl. f_equal; [lia|]. rewrite <- seq_shift, map_map. apply map_ext. intros; lia.
  Qed.

  Lemma hist_start calls : exists h, Inv RA L h (fst (adds RA (struct_init L) calls)) /\ NoDup (keys h) /\
    real_hist (accepted calls (snd (adds RA (struct_init L) calls))) h /\
    returned (snd (adds RA (struct_init L) calls)) = zrange 0 (Z.of_nat (length h)).
  Proof.
    destruct (adds_real calls [] (struct_init L) (Inv_init RA L)) as (h & H); [constructor|]. exists h. exact H.
  Qed.

  Lemma real_hist_nth acc h i c p : real_hist acc h -> nth_error acc i = Some (c, p) ->
    length p = n /\ exists q, periodised n vs per p q /\ nth_error h i = Some (c, q, place q).
  Proof.
    intros H. revert i; induction H as [|[c' p'] e acc h (Lp & q & P & ->) _ IH]; destruct i; simpl; intros E; try discriminate; auto.
    injection E as <- <-. split; auto. exists q. auto.
  Qed.
  Lemma real_hist_nth' acc h i e : real_hist acc h -> nth_error h i = Some e ->
    exists c p q, nth_error acc i = Some (c, p) /\ length p = n /\ periodised n vs per p q /\ e = (c, q, place q).
  Proof.
    intros H. revert i; induction H as [|[c' p'] e' acc h (Lp & q & P & ->) _ IH]; destruct i; simpl; intros E; try discriminate; auto.
    injection E as <-. exists c', p', q. auto.
  Qed.
  Lemma real_hist_length acc h : real_hist acc h -> length acc = length h.
  Proof. induction 1; simpl; auto. Qed.

  (** Lookup. *)
  Lemma lookup_nth h s k i : Inv RA L h s -> NoDup (keys h) -> nth_error (keys h) i = Some k ->
    @dget (list R) Z (Eqb_vec RA) k (p_lookup s) = Some (Z.of_nat i).
  Proof.
    intros I ND E. pose proof (lookup_keys h) as K. destruct I as (_ & _ & _ & _ & ->). apply In_dget.
    - now rewrite K.
    - unfold keys in E. rewrite nth_error_map in E. destruct (nth_error h i) as [e|] eqn:Eh; [|discriminate].
      injection E as <-. apply in_map_iff. exists (Z.of_nat i, e). split; auto.
      eapply nth_error_In. rewrite enumerate_nth, Eh. reflexivity.
  Qed.
  Lemma lookup_none h s k : Inv RA L h s -> (@dget (list R) Z (Eqb_vec RA) k (p_lookup s) = None <-> ~ In k (keys h)).
  Proof.
    intros I. pose proof (lookup_keys h) as K. destruct I as (_ & _ & _ & _ & ->). rewrite dget_None, K. reflexivity.
  Qed.

  Lemma site_at_hit h s p q i e : Inv RA L h s -> NoDup (keys h) -> length p = n -> periodised n vs per p q ->
    nth_error h i = Some e -> snd e = place q ->
    site_at RA s p = Ok (Some (mkSite (fst (fst e)) (map round3 (snd (fst e))) (Z.of_nat i))).
  Proof.
    intros I ND Lp P Eh Ek. unfold site_at. rewrite (transformed_real h s p q); auto. cbn [bind].
    rewrite (lookup_nth h s _ i I ND); [|unfold keys; rewrite nth_error_map, Eh; simpl; congruence].
    rewrite (get_site_nth RA L h s i I), Eh. reflexivity.
  Qed.
  Lemma site_at_miss h s p q : Inv RA L h s -> length p = n -> periodised n vs per p q ->
    ~ In (place q) (keys h) -> site_at RA s p = Ok None.
  Proof.
    intros I Lp P N. unfold site_at. rewrite (transformed_real h s p q); auto. cbn [bind].
    apply (lookup_none h s _ I) in N. rewrite N. reflexivity.
  Qed.

  Lemma same_place_iff p q p' q' : length p = n -> length q = n ->
    periodised n vs per p p' -> periodised n vs per q q' ->
    (same_place n vs per p q <-> place p' = place q').
  Proof.
    intros Lp Lq P Q. split.
    - intros (p1 & q1 & P1 & Q1 & E).
      rewrite (periodised_unique n vs per L HL p p' p1), (periodised_unique n vs per L HL q q' q1); auto.
    - intros E. exists p', q'. auto.
  Qed.
End Reals.
