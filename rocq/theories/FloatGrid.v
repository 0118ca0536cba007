(** Square grids in binary64 (C30). *)
From Coq Require Import Reals Lra Psatz.
From Flocq Require Import Core BinarySingleNaN.
From Verif Require Import Prelude Dict Arith RealArith FloatArith LatticeModel JsonModel StructModel NbModel GridModel
  SpecGeom SpecFloat64 StructFacts StructBuild GridFacts FloatFacts FloatCoord.
Local Open Scope R_scope.

Lemma small_big x : Rabs x <= IZR (2 ^ 60) -> Rabs x <= big.
Proof. intros H. eapply Rle_trans; [exact H|]. eapply Rle_trans; [|apply big_large]. apply IZR_le. discriminate. Qed.
Lemma zero_big : Rabs 0 <= big.
Proof. apply small_big. rewrite Rabs_R0. apply (IZR_le 0). discriminate. Qed.

(** Operations with a zero or a one. *)
Lemma den_mul0l a b y : denotes a 0 -> denotes b y -> denotes (f_mul a b) 0.
Proof. intros Ha Hb. pose proof (denotes_mul _ _ _ _ Ha Hb) as H. rewrite Rmult_0_l, rnd_0 in H. apply H, zero_big. Qed.
Lemma den_mul0r a b x : denotes a x -> denotes b 0 -> denotes (f_mul a b) 0.
Proof. intros Ha Hb. pose proof (denotes_mul _ _ _ _ Ha Hb) as H. rewrite Rmult_0_r, rnd_0 in H. apply H, zero_big. Qed.
Lemma den_add0r a b x : denotes a x -> denotes b 0 -> rnd x = x -> Rabs x <= big -> denotes (f_add a b) x.
Proof. intros Ha Hb E B. pose proof (denotes_add _ _ _ _ Ha Hb) as H. rewrite Rplus_0_r, E in H. auto. Qed.
Lemma den_add0l a b x : denotes a 0 -> denotes b x -> rnd x = x -> Rabs x <= big -> denotes (f_add a b) x.
Proof. intros Ha Hb E B. pose proof (denotes_add _ _ _ _ Ha Hb) as H. rewrite Rplus_0_l, E in H. auto. Qed.
Lemma den_sub0 a b x : denotes a x -> denotes b 0 -> rnd x = x -> Rabs x <= big -> denotes (f_sub a b) x.
Proof. intros Ha Hb E B. pose proof (denotes_sub _ _ _ _ Ha Hb) as H. rewrite Rminus_0_r, E in H. auto. Qed.
Lemma den_0 : denotes (f_ofZ 0) 0. Proof. apply denotes_ofZ. reflexivity. Qed.
Lemma den_1 : denotes (f_ofZ 1) 1. Proof. apply denotes_ofZ. reflexivity. Qed.
Lemma den_mul1r a b x : denotes a x -> denotes b 1 -> rnd x = x -> Rabs x <= big -> denotes (f_mul a b) x.
Proof. intros Ha Hb E B. pose proof (denotes_mul _ _ _ _ Ha Hb) as H. rewrite Rmult_1_r, E in H. auto. Qed.
Lemma den_mul1l a b x : denotes a 1 -> denotes b x -> rnd x = x -> Rabs x <= big -> denotes (f_mul a b) x.
Proof. intros Ha Hb E B. pose proof (denotes_mul _ _ _ _ Ha Hb) as H. rewrite Rmult_1_l, E in H. auto. Qed.
Lemma den_div0 a b y : denotes a 0 -> denotes b y -> y <> 0 -> denotes (f_div a b) 0.
Proof.
  intros Ha Hb Ny. pose proof (denotes_div _ _ _ _ Ha Hb Ny) as H. unfold Rdiv in H. rewrite Rmult_0_l, rnd_0 in H. apply H, zero_big.
Qed.
Lemma den_div_self a b y : denotes a y -> denotes b y -> y <> 0 -> denotes (f_div a b) 1.
Proof.
  intros Ha Hb Ny. pose proof (denotes_div _ _ _ _ Ha Hb Ny) as H. unfold Rdiv in H. rewrite Rinv_r in H by auto.
  rewrite (rnd_IZR 1) in H by reflexivity. apply H. apply small_big. rewrite Rabs_R1. apply (IZR_le 1). discriminate.
Qed.
Lemma IZR_big z : (Z.abs z <= 2 ^ 60)%Z -> Rabs (IZR z) <= big.
Proof. intros H. apply small_big. now apply IZR_abs_le. Qed.

Section Two.
  Variables n m : Z.
  Hypothesis Hn : (1 <= n <= M20)%Z.
  Hypothesis Hm : (1 <= m <= M20)%Z.

  Lemma big20 k : (1 <= k <= M20)%Z -> Rabs (IZR k) <= big /\ rnd (IZR k) = IZR k /\ IZR k <> 0.
  Proof.
    intros H. unfold M20 in H. split; [apply IZR_big; lia|]. split; [apply rnd_IZR; lia|]. apply not_0_IZR. lia.
  Qed.
  Lemma recip_big k : (1 <= k <= M20)%Z -> Rabs (1 / IZR k) <= big /\ Rabs (rnd (1 / IZR k)) <= 1.
  Proof.
    intros H. pose proof (N_bounds k H) as B.
    assert (I : 0 < 1 / IZR k <= 1).
    { split; [apply Rdiv_lt_0_compat; lra|]. apply Rmult_le_reg_r with (IZR k); [lra|]. unfold Rdiv. rewrite Rmult_assoc, Rinv_l by lra. lra. }
    split.
    - apply small_big. rewrite Rabs_pos_eq by lra. apply Rle_trans with 1; [lra|]. apply (IZR_le 1). discriminate.
    - rewrite Rabs_pos_eq.
      + apply Rle_trans with (rnd 1); [apply rnd_le; lra|rewrite (rnd_IZR 1) by reflexivity; lra].
      + rewrite <- rnd_0. apply rnd_le. lra.
  Qed.

  (** The inverse of the lattice matrix. *)
  Lemma anti_first z1 vn vm z2 a b c d : denotes z1 0 -> denotes vn (IZR n) -> denotes vm (IZR m) -> denotes z2 0 ->
    denotes a 1 -> denotes b 0 -> denotes c 0 -> denotes d 1 ->
    exists e1 e2 e3 e4 g1 g2 g3 g4, eliminate 0 [[z1; vn; a; b]; [vm; z2; c; d]] = Ok [[e1; e2; e3; e4]; [g1; g2; g3; g4]] /\
      denotes e1 1 /\ denotes e2 0 /\ denotes e3 0 /\ denotes e4 (rnd (1 / IZR m)) /\
      denotes g1 0 /\ denotes g2 (IZR n) /\ denotes g3 1 /\ denotes g4 0.
  Proof.
    intros D1 Dn Dm D2 Da Db Dc Dd. destruct (big20 n Hn) as (Bn & Rn & Nn). destruct (big20 m Hm) as (Bm & Rm & Nm).
    pose proof (N_bounds n Hn) as Pn. pose proof (N_bounds m Hm) as Pm. pose proof den_0 as D0.
    unfold eliminate. cbn [skipn pivot nth].
    rewrite (denotes_ltb _ _ 0 (Rabs 0) D0 (denotes_abs _ _ D1)), Rabs_R0, Rlt_bool_false by lra.
    rewrite (denotes_ltb _ _ 0 (Rabs (IZR m)) D0 (denotes_abs _ _ Dm)), Rlt_bool_true by (rewrite Rabs_pos_eq; lra).
    cbn [swap length seq map nth Nat.eqb].
    rewrite (denotes_eqb _ _ (IZR m) 0 Dm D0), Req_bool_false by auto.
    cbn [zipwith map].
    pose proof (den_div_self _ _ _ Dm Dm Nm) as E1. pose proof (den_div0 _ _ _ D2 Dm Nm) as E2.
    pose proof (den_div0 _ _ _ Dc Dm Nm) as E3. pose proof (denotes_div _ _ _ _ Dd Dm Nm (proj1 (recip_big m Hm))) as E4.
    pose proof (den_sub0 _ _ _ D1 (den_mul0l _ _ _ D1 E1) rnd_0 zero_big) as G1.
    pose proof (den_sub0 _ _ _ Dn (den_mul0l _ _ _ D1 E2) Rn Bn) as G2.
    pose proof (den_sub0 _ _ _ Da (den_mul0l _ _ _ D1 E3) (rnd_IZR 1 eq_refl) (IZR_big 1 ltac:(discriminate))) as G3.
    pose proof (den_sub0 _ _ _ Db (den_mul0l _ _ _ D1 E4) rnd_0 zero_big) as G4.
    eexists _, _, _, _, _, _, _, _. split; [reflexivity|]. exact (conj E1 (conj E2 (conj E3 (conj E4 (conj G1 (conj G2 (conj G3 G4))))))).
  Qed.
  Lemma anti_second e1 e2 e3 e4 g1 g2 g3 g4 : denotes e2 0 -> denotes e3 0 -> denotes e4 (rnd (1 / IZR m)) ->
      denotes g1 0 -> denotes g2 (IZR n) -> denotes g3 1 -> denotes g4 0 ->
    exists k1 k2 w1 am l1 l2 an w2, eliminate 1 [[e1; e2; e3; e4]; [g1; g2; g3; g4]] = Ok [[k1; k2; w1; am]; [l1; l2; an; w2]] /\
      denotes w1 0 /\ denotes am (rnd (1 / IZR m)) /\ denotes an (rnd (1 / IZR n)) /\ denotes w2 0.
  Proof.
    intros E2 E3 E4 G1 G2 G3 G4. destruct (big20 n Hn) as (Bn & Rn & Nn).
    pose proof (N_bounds n Hn) as Pn. pose proof den_0 as D0.
    unfold eliminate. cbn [skipn pivot nth].
    rewrite (denotes_ltb _ _ 0 (Rabs (IZR n)) D0 (denotes_abs _ _ G2)), Rlt_bool_true by (rewrite Rabs_pos_eq; lra).
    cbn [swap length seq map nth Nat.eqb].
    rewrite (denotes_eqb _ _ (IZR n) 0 G2 D0), Req_bool_false by auto.
    cbn [zipwith map].
    pose proof (denotes_div _ _ _ _ G3 G2 Nn (proj1 (recip_big n Hn))) as K3. pose proof (den_div0 _ _ _ G4 G2 Nn) as K4.
    eexists _, _, _, _, _, _, _, _. split; [reflexivity|]. split; [|split; [|split]]; auto.
    - apply (den_sub0 _ _ _ E3 (den_mul0l _ _ _ E2 K3) rnd_0 zero_big).
    - apply (den_sub0 _ _ _ E4 (den_mul0l _ _ _ E2 K4) (rnd_idem _)). apply small_big.
      eapply Rle_trans; [apply (recip_big m Hm)|]. apply (IZR_le 1). discriminate.
  Qed.
  Lemma anti_inv z1 vn vm z2 : denotes z1 0 -> denotes vn (IZR n) -> denotes vm (IZR m) -> denotes z2 0 ->
    exists w1 am an w2, f_inv [[z1; vn]; [vm; z2]] = Ok [[w1; am]; [an; w2]] /\
      denotes w1 0 /\ denotes am (rnd (1 / IZR m)) /\ denotes an (rnd (1 / IZR n)) /\ denotes w2 0.
  Proof.
    intros D1 Dn Dm D2.
    destruct (anti_first z1 vn vm z2 _ _ _ _ D1 Dn Dm D2 den_1 den_0 den_0 den_1) as (e1 & e2 & e3 & e4 & g1 & g2 & g3 & g4 & E & A1 & A2 & A3 & A4 & B1 & B2 & B3 & B4).
    destruct (anti_second e1 e2 e3 e4 g1 g2 g3 g4 A2 A3 A4 B1 B2 B3 B4) as (k1 & k2 & w1 & am & l1 & l2 & an & w2 & E' & C).
    exists w1, am, an, w2. split; auto.
    unfold f_inv. cbn [length seq map nth app Nat.eqb]. cbn [foldM]. rewrite E. cbn [bind]. rewrite E'. reflexivity.
  Qed.

  (** The lattice of the grid. *)
  Definition wide (L : lattice b64) : Prop := exists z1 vn vm z2,
    L = mkLattice [[z1; vn]; [vm; z2]] [true; true] [[z1; vn]; [vm; z2]] 2 /\
    denotes z1 0 /\ denotes vn (IZR n) /\ denotes vm (IZR m) /\ denotes z2 0.

  Lemma rnd_big x : Rabs x <= IZR (2 ^ 50) -> Rabs (rnd x) <= big.
  Proof.
    intros H. pose proof (rnd_within x _ H) as E. apply small_big. apply Rabs_bnd in H.
    assert (E' : Rabs (rnd x - x) <= 1).
    { eapply Rle_trans; [apply E; apply IZR_le; discriminate|]. unfold ulp_. simpl. lra. }
    apply Rabs_bnd in E'. apply Rabs_le. revert H. simpl. lra.
  Qed.

  Lemma one_coord k x vx ak vk : (1 <= k <= M20)%Z -> (Z.abs x <= M30)%Z -> denotes vx (IZR x) -> denotes ak (rnd (1 / IZR k)) -> denotes vk (IZR k) ->
    denotes (f_mul vx ak) (frac_of k x) /\ Rabs (frac_of k x) <= big /\
    forall f, denotes f (frac_of k x) ->
      denotes (f_sub f (f_mul (f_floor f) (f_ofZ 1))) (rnd (frac_of k x - IZR (Zfloor (frac_of k x)))) /\
      forall g, denotes g (rnd (frac_of k x - IZR (Zfloor (frac_of k x)))) -> denotes (f_mul g vk) (cart_of k x) /\ Rabs (cart_of k x) <= big.
  Proof.
    intros Hk Hx Dx Da Dk. pose proof (f_bound k x Hk Hx) as FB. pose proof (q_bound k x Hk Hx) as QB.
    pose proof (X_bounds x Hx) as XB. pose proof (N_bounds k Hk) as NB. pose proof (floor_bounds k x) as FL.
    split; [|split].
    - apply denotes_mul; auto. apply small_big. eapply Rle_trans; [apply Rabs_prod; [exact XB|apply (recip_big k Hk)]|]. simpl; lra.
    - apply small_big. eapply Rle_trans; [exact FB|]. apply IZR_le. discriminate.
    - intros f Df. split.
      + apply denotes_sub; auto.
        * apply den_mul1r; [now apply denotes_floor|apply den_1|apply rnd_IZR; lia|apply IZR_big; lia].
        * apply small_big. apply Rle_trans with 1; [apply Rabs_le; lra|]. apply (IZR_le 1). discriminate.
      + intros g Dg. split.
        * apply denotes_mul; auto. apply small_big.
          assert (G : Rabs (rnd (frac_of k x - IZR (Zfloor (frac_of k x)))) <= 2).
          { assert (B : Rabs (frac_of k x - IZR (Zfloor (frac_of k x))) <= 1) by (apply Rabs_le; lra).
            pose proof (rnd_within _ _ B) as E.
            assert (E' : Rabs (rnd (frac_of k x - IZR (Zfloor (frac_of k x))) - (frac_of k x - IZR (Zfloor (frac_of k x)))) <= 1).
            { eapply Rle_trans; [apply E; apply (IZR_le 1); discriminate|]. unfold ulp_. simpl. lra. }
            apply Rabs_bnd in E', B. apply Rabs_le. lra. }
          eapply Rle_trans; [apply Rabs_prod; [exact G|rewrite Rabs_pos_eq; [apply NB|lra]]|]. simpl. lra.
        * apply small_big. eapply Rle_trans; [apply (cart_bound k x Hk Hx)|]. simpl. lra.
  Qed.

  Lemma frac_idem k x : rnd (frac_of k x) = frac_of k x. Proof. apply rnd_idem. Qed.
  Lemma cart_idem k x : rnd (cart_of k x) = cart_of k x. Proof. apply rnd_idem. Qed.

  Lemma per_fl L vx vy x y : wide L -> (Z.abs x <= M30)%Z -> (Z.abs y <= M30)%Z -> denotes vx (IZR x) -> denotes vy (IZR y) ->
    exists u v, get_periodized_cartesian_coords FA L [vx; vy] = Ok [u; v] /\ denotes u (cart_of m x) /\ denotes v (cart_of n y).
  Proof.
    intros (z1 & vn & vm & z2 & -> & D1 & Dn & Dm & D2) Hx Hy Dx Dy.
    destruct (anti_inv z1 vn vm z2 D1 Dn Dm D2) as (w1 & am & an & w2 & EI & W1 & Wm & Wn & W2).
    destruct (one_coord m x vx am vm Hm Hx Dx Wm Dm) as (Fx & FBx & Gx). destruct (one_coord n y vy an vn Hn Hy Dy Wn Dn) as (Fy & FBy & Gy).
    unfold get_periodized_cartesian_coords, get_fractional_coords, inv_matrix. cbn [l_matrix l_periodic a_inv FA]. rewrite EI. cbn [bind].
    unfold vecmat. cbn [length Nat.eqb bind width comb zeros repeat zipwith map a_add a_mul a_ofZ FA].
    pose proof (den_add0l _ _ _ (den_mul0r _ _ _ Dx W1) (den_add0r _ _ _ Fy den_0 (frac_idem n y) FBy) (frac_idem n y) FBy) as P1.
    pose proof (den_add0r _ _ _ Fx (den_add0r _ _ _ (den_mul0r _ _ _ Dy W2) den_0 rnd_0 zero_big) (frac_idem m x) FBx) as P2.
    set (p1 := f_add (f_mul vx w1) _) in *. set (p2 := f_add (f_mul vx am) _) in *.
    unfold periodize, bcast. cbn [length map Nat.eqb zipwith bind of_bool a_floor a_mul a_sub a_ofZ FA].
    destruct (Gy p1 P1) as [S1 T1]. destruct (Gx p2 P2) as [S2 T2].
    change (a_floor FA p1) with (f_floor p1). change (a_floor FA p2) with (f_floor p2).
    set (q1 := f_sub p1 _) in *. set (q2 := f_sub p2 _) in *.
    destruct (T1 q1 S1) as [U1 B1]. destruct (T2 q2 S2) as [U2 B2].
    unfold get_cartesian_coords, vecmat. cbn [l_matrix length Nat.eqb width comb zeros repeat zipwith map a_add a_mul a_ofZ FA].
    eexists _, _. split; [reflexivity|]. split.
    - apply (den_add0l _ _ _ (den_mul0r _ _ _ S1 D1) (den_add0r _ _ _ U2 den_0 (cart_idem m x) B2) (cart_idem m x) B2).
    - apply (den_add0r _ _ _ U1 (den_add0r _ _ _ (den_mul0r _ _ _ S2 D2) den_0 rnd_0 zero_big) (cart_idem n y) B1).
  Qed.

  (** Stored location and key. *)
  Lemma den_1000 : denotes (f_ofZ 1000) 1000. Proof. apply denotes_ofZ. reflexivity. Qed.
  Lemma den_offset : denotes (VEC_OFFSET FA) (rnd (1 / 1000)).
  Proof. apply denotes_div; [apply den_1|apply den_1000|lra|]. apply small_big. rewrite Rabs_pos_eq by lra. simpl. lra. Qed.
  Lemma round_den v y z : denotes v y -> Rabs y <= 1048579 -> ZnearestE (rnd (y * 1000)) = z -> (0 <= z <= 1000 * M20 + 1)%Z ->
    denotes (roundk FA 1000 v) (rnd (IZR z / 1000)).
  Proof.
    intros D B E Hz. unfold roundk. cbn [a_div a_rint a_mul a_ofZ FA]. apply denotes_div; [|apply den_1000|lra|].
    - rewrite <- E. apply denotes_rint. apply denotes_mul; auto; [apply den_1000|]. apply small_big.
      eapply Rle_trans; [apply (Rabs_prod _ _ 1048579 1000); [exact B|rewrite Rabs_pos_eq; lra]|]. simpl. lra.
    - unfold M20 in Hz. assert (Z2 : 0 <= IZR z <= 2000000000) by (split; apply IZR_le; lia). apply small_big. rewrite Rabs_pos_eq by lra. simpl. lra.
  Qed.
  Lemma loc_den k x v : (1 <= k <= M20)%Z -> (Z.abs x <= M30)%Z -> denotes v (cart_of k x) -> denotes (roundk FA 1000 v) (IZR (wrap_of k x)).
  Proof.
    intros Hk Hx D. pose proof (round_wrap k x Hk Hx) as E. pose proof (wrap_range k x Hk Hx) as [R _]. unfold M20 in Hk.
    rewrite <- (rnd_IZR (wrap_of k x)) by lia. replace (IZR (wrap_of k x)) with (IZR (1000 * wrap_of k x) / 1000) by (rewrite mult_IZR; field).
    apply (round_den v (cart_of k x)); auto; [pose proof (cart_bound k x Hk Hx); lra|unfold M20; lia].
  Qed.
  Lemma key_den k x v : (1 <= k <= M20)%Z -> (Z.abs x <= M30)%Z -> denotes v (cart_of k x) ->
    denotes (roundk FA 1000 (f_add v (VEC_OFFSET FA))) (key_of (wrap_of k x)).
  Proof.
    intros Hk Hx D. pose proof (round_key k x Hk Hx) as E. pose proof (wrap_range k x Hk Hx) as [R _]. unfold M20 in Hk.
    pose proof (cart_bound k x Hk Hx) as CB. pose proof thousandth as T. apply Rabs_bnd in CB, T.
    assert (B : Rabs (cart_of k x + rnd (1 / 1000)) <= 1048578) by (apply Rabs_le; lra).
    apply (round_den _ (rnd (cart_of k x + rnd (1 / 1000)))); auto; [| |unfold M20; lia].
    - apply denotes_add; auto; [apply den_offset|]. apply small_big. eapply Rle_trans; [exact B|]. simpl. lra.
    - pose proof (rnd_within _ _ B) as E'.
      assert (E'' : Rabs (rnd (cart_of k x + rnd (1 / 1000)) - (cart_of k x + rnd (1 / 1000))) <= 1).
      { eapply Rle_trans; [apply E'; simpl; lra|]. unfold ulp_. simpl. lra. }
      apply Rabs_bnd in E'', B. apply Rabs_le. lra.
  Qed.

  (** What is stored for the cell [i; j]. *)
  Definition good (c : list Z) (e : string * list b64 * list b64) : Prop :=
    exists i j u v k1 k2, c = [i; j] /\ e = ("_A"%string, [u; v], [k1; k2]) /\
      denotes (roundk FA 1000 u) (IZR j) /\ denotes (roundk FA 1000 v) (IZR i) /\
      denotes k1 (key_of j) /\ denotes k2 (key_of i).
  Definition inside (c : list Z) : Prop := exists i j, c = [i; j] /\ (0 <= i <= M20)%Z /\ (0 <= j <= M20)%Z.

  Lemma key_match k1 k2 a b i j r1 r2 : denotes k1 (key_of j) -> denotes k2 (key_of i) -> denotes a (key_of r1) -> denotes b (key_of r2) ->
    (0 <= i <= M20)%Z -> (0 <= j <= M20)%Z -> (0 <= r1 <= M20)%Z -> (0 <= r2 <= M20)%Z ->
    vec_eqb FA [a; b] [k1; k2] = true <-> [i; j] = [r2; r1].
  Proof.
    intros D1 D2 Da Db Hi Hj H1 H2. unfold vec_eqb. cbn [list_eqb a_eqb FA].
    assert (Eq1 : @eqb b64 (a_eqb FA) a k1 = Req_bool (key_of r1) (key_of j)) by (apply (denotes_eqb _ _ _ _ Da D1)).
    assert (Eq2 : @eqb b64 (a_eqb FA) b k2 = Req_bool (key_of r2) (key_of i)) by (apply (denotes_eqb _ _ _ _ Db D2)).
    change (@eqb b64 f_eqb a k1) with (@eqb b64 (a_eqb FA) a k1). change (@eqb b64 f_eqb b k2) with (@eqb b64 (a_eqb FA) b k2).
    rewrite Eq1, Eq2. split.
    - intros H. apply Bool.andb_true_iff in H as [T1 H]. apply Bool.andb_true_iff in H as [T2 _].
      revert T1 T2. case Req_bool_spec; [|discriminate]. intros T1 _. case Req_bool_spec; [|discriminate]. intros T2 _.
      apply key_inj in T1; auto. apply key_inj in T2; auto. congruence.
    - intros [= -> ->]. now rewrite !Req_bool_true by reflexivity.
  Qed.

  Lemma lookup_none cs h a b r1 r2 : Forall2 good cs h -> Forall inside cs -> denotes a (key_of r1) -> denotes b (key_of r2) ->
    (0 <= r1 <= M20)%Z -> (0 <= r2 <= M20)%Z -> ~ In [r2; r1] cs -> forall st,
    @dget _ _ (Eqb_vec FA) [a; b] (map (fun x : Z * (string * list b64 * list b64) => (snd (snd x), fst x)) (enumerate_from st h)) = None.
  Proof.
    intros G I Da Db H1 H2. induction G as [|c e cs h Gc G IH]; intros N st; auto.
    inversion I as [|? ? Ic I']; subst. destruct Gc as (i & j & u & v & k1 & k2 & -> & -> & _ & _ & D1 & D2).
    destruct Ic as (i' & j' & [= <- <-] & Hi & Hj). cbn [enumerate_from map dget fst snd].
    destruct (@eqb (list b64) (Eqb_vec FA) [a; b] [k1; k2]) eqn:E.
    - exfalso. apply N. left. apply (key_match k1 k2 a b i j r1 r2); auto.
    - apply IH; auto. intros X. apply N. simpl; auto.
  Qed.
  Lemma lookup_some cs h a b r1 r2 : Forall2 good cs h -> Forall inside cs -> denotes a (key_of r1) -> denotes b (key_of r2) ->
    (0 <= r1 <= M20)%Z -> (0 <= r2 <= M20)%Z -> NoDup cs -> forall p st, nth_error cs p = Some [r2; r1] ->
    @dget _ _ (Eqb_vec FA) [a; b] (map (fun x : Z * (string * list b64 * list b64) => (snd (snd x), fst x)) (enumerate_from st h)) = Some (st + Z.of_nat p)%Z.
  Proof.
    intros G I Da Db H1 H2. induction G as [|c e cs h Gc G IH]; intros ND p st E; [destruct p; discriminate|].
    inversion I as [|? ? Ic I']; subst. inversion ND as [|? ? N1 N2]; subst.
    destruct Gc as (i & j & u & v & k1 & k2 & -> & -> & _ & _ & D1 & D2).
    destruct Ic as (i' & j' & [= <- <-] & Hi & Hj). cbn [enumerate_from map dget fst snd].
    destruct (@eqb (list b64) (Eqb_vec FA) [a; b] [k1; k2]) eqn:Eq.
    - apply (key_match k1 k2 a b i j r1 r2) in Eq; auto. destruct p as [|p]; [f_equal; lia|]. simpl in E. exfalso. apply N1. rewrite Eq. eapply nth_error_In; eauto.
    - destruct p as [|p].
      + simpl in E. injection E as -> ->. assert (X : vec_eqb FA [a; b] [k1; k2] = true) by (apply (key_match k1 k2 a b r2 r1 r1 r2); auto).
        unfold eqb, Eqb_vec in Eq. congruence.
      + simpl in E. rewrite (IH I' N2 p (st + 1)%Z E). f_equal. lia.
  Qed.

  Lemma not_short_inside k x : (1 <= k <= M20)%Z -> (0 <= x < k)%Z -> ~ falls_short k x.
  Proof.
    intros Hk Hx [[z Ez] L]. assert (z = 0)%Z by nia. subst z. rewrite Z.mul_0_l in Ez. subst x.
    rewrite Rmult_0_l, rnd_0 in L. unfold Rdiv in L. rewrite Rmult_0_l in L. lra.
  Qed.
  Lemma wrap_inside k x : (1 <= k <= M20)%Z -> (0 <= x < k)%Z -> wrap_of k x = x.
  Proof. intros Hk Hx. rewrite wrap_mod; auto using not_short_inside; [apply Z.mod_small; lia|]. unfold M20, M30 in *. lia. Qed.

  Lemma transformed_fl L h s vx vy x y : wide L -> Inv FA L h s -> (Z.abs x <= M30)%Z -> (Z.abs y <= M30)%Z ->
    denotes vx (IZR x) -> denotes vy (IZR y) ->
    exists u v k1 k2, get_periodized_cartesian_coords FA L [vx; vy] = Ok [u; v] /\ transformed_coords FA s [vx; vy] = Ok [k1; k2] /\
      denotes (roundk FA 1000 u) (IZR (wrap_of m x)) /\ denotes (roundk FA 1000 v) (IZR (wrap_of n y)) /\
      denotes k1 (key_of (wrap_of m x)) /\ denotes k2 (key_of (wrap_of n y)).
  Proof.
    intros WL I Hx Hy Dx Dy. destruct (per_fl L vx vy x y WL Hx Hy Dx Dy) as (u & v & E & Du & Dv).
    exists u, v. eexists _, _. split; auto. split.
    { rewrite (transformed_eq FA L h s _ _ I E). destruct WL as (z1 & vn & vm & z2 & -> & _). cbn [l_dim repeat].
      unfold bcast. cbn [length Nat.eqb zipwith bind get_rounded_coords map]. reflexivity. }
    split; [apply loc_den; auto|]. split; [apply loc_den; auto|]. split; apply key_den; auto.
  Qed.

  Lemma add_fl L h s done i j vx vy : wide L -> Inv FA L h s -> Forall2 good done h -> Forall inside done -> ~ In [i; j] done ->
    (0 <= i < n)%Z -> (0 <= j < m)%Z -> denotes vx (IZR j) -> denotes vy (IZR i) ->
    exists s' e, add_site_or_raise FA s ("_A"%string, [vx; vy]) = Ok s' /\ Inv FA L (h ++ [e]) s' /\ good [i; j] e.
  Proof.
    intros WL I G IN ND Hi Hj Dx Dy.
    destruct (transformed_fl L h s vx vy j i WL I) as (u & v & k1 & k2 & E & T & L1 & L2 & K1 & K2); auto; try (unfold M20, M30 in *; lia).
    rewrite wrap_inside in L1, K1 by auto. rewrite wrap_inside in L2, K2 by auto.
    destruct (add_site_cases FA L h s "_A" [vx; vy] I) as [(e & Q & _)|[(q & e & _ & T' & _)|[(q & k & p & _ & T' & D & _)|(q & k & s' & Q & T' & D & EA & I')]]].
    - congruence.
    - congruence.
    - exfalso. assert (k = [k1; k2]) by congruence. subst k. destruct I as (_ & _ & _ & _ & EL). rewrite EL in D.
      unfold enumerate in D. rewrite (lookup_none done h k1 k2 j i) in D; auto; try discriminate; unfold M20 in *; lia.
    - exists s', ("_A"%string, q, k). unfold add_site_or_raise. cbn [fst snd]. rewrite EA. split; auto. split; auto.
      assert (q = [u; v]) by congruence. assert (k = [k1; k2]) by congruence. subst.
      exists i, j, u, v, k1, k2. auto 10.
  Qed.

  Lemma fold_fl L loc : wide L ->
    (forall i j, (0 <= i < n)%Z -> (0 <= j < m)%Z -> exists vx vy, loc [i; j] = Ok [vx; vy] /\ denotes vx (IZR j) /\ denotes vy (IZR i)) ->
    forall cs done h s, Inv FA L h s -> Forall2 good done h -> Forall inside done -> NoDup (done ++ cs) ->
      Forall (fun c => exists i j, c = [i; j] /\ (0 <= i < n)%Z /\ (0 <= j < m)%Z) cs ->
      exists s' h', foldM (fun s c => do l <- loc c; add_site_or_raise FA s ("_A"%string, l)) cs s = Ok s' /\
        Inv FA L h' s' /\ Forall2 good (done ++ cs) h' /\ Forall inside (done ++ cs).
  Proof.
    intros WL HL. induction cs as [|c cs IH]; intros done h s I G IN ND R.
    - exists s, h. rewrite app_nil_r. auto.
    - inversion R as [|? ? (i & j & -> & Hi & Hj) R']; subst. destruct (HL i j Hi Hj) as (vx & vy & EL & Dx & Dy).
      replace (done ++ [i; j] :: cs) with ((done ++ [[i; j]]) ++ cs) in * by (now rewrite <- app_assoc).
      assert (NI : ~ In [i; j] done).
      { rewrite <- app_assoc in ND. cbn [app] in ND. apply NoDup_remove_2 in ND. intros X. apply ND. apply in_or_app. auto. }
      destruct (add_fl L h s done i j vx vy WL I G IN NI Hi Hj Dx Dy) as (s' & e & EA & I' & Ge).
      destruct (IH (done ++ [[i; j]]) (h ++ [e]) s' I') as (s'' & h'' & EF & I'' & G'' & IN''); auto.
      + apply Forall2_app; auto.
      + apply Forall_app. split; auto. constructor; [|constructor]. exists i, j. unfold M20 in *. split; auto. lia.
      + exists s'', h''. cbn [foldM]. rewrite EL. cbn [bind]. rewrite EA. cbn [bind]. auto.
  Qed.
End Two.
