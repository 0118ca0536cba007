(** Reloading honeycombs in binary64 (C119). *)
From Coq Require Import Reals Lra Psatz.
From Flocq Require Import Core BinarySingleNaN.
From Verif Require Import Prelude Dict Val Arith RealArith FloatArith LatticeModel JsonModel StructModel StateModel NbModel GridModel SimModel SpecState SpecResult SpecGeom SpecNb SpecGrid SpecHoney SpecFloat64 SpecNuc SpecHoneyFloat
  StateFacts JsonFacts StructFacts StructMore StructBuild NbFacts NbMore GridFacts HoneyFacts FloatFacts FloatCoord FloatGrid FloatVec FloatAxis FloatBox FloatNorm FloatCut FloatNear FloatInv FloatHoney FloatJson HoneyGrow.
Local Open Scope R_scope.

Definition mil (z : Z) : R := rnd (IZR z / 1000).

Section Reload.
  Variable inv : list (list b64) -> res (list (list b64)).
  Notation FI := (FAi inv).
  Variables n m : Z.
  Hypothesis (Hn : (3 <= n <= 2 ^ 20)%Z) (Hm : (3 <= m <= 2 ^ 20)%Z).
  Hypothesis AC : accurate n m inv.
  Let N := IZR n. Let M := IZR m. Let s := sqrt 3.

  (** A location near a centre stays where it is. *)
  Lemma per_near L p q x y i j : hexa n m L -> (0 <= i < n)%Z -> (0 <= j < m)%Z -> denotes p x -> denotes q y -> Rabs (x - cx i j) <= 1 / 1000 -> Rabs (y - cy j) <= 1 / 1000 ->
    exists u v, get_periodized_cartesian_coords FI L [p; q] = Ok [u; v] /\ ap 1 u x (/ 131072) /\ ap 1 v y (/ 131072).
  Proof.
    intros HL Hi Hj Dx Dy Ex Ey. destruct (ij_bounds n m Hn Hm i j Hi Hj) as (Bi & Bj & CN & CM & N3 & M3). fold N M in Bi, Bj, CN, CM, N3, M3.
    destruct (cy_bound n m Hn Hm i j Hi Hj) as [BX BY]. pose proof sqrt3_sp as HS. fold s in HS. assert (Sne : s <> 0) by lra.
    apply Rabs_bnd in Ex, Ey. assert (n1 : (1 <= n <= 2 ^ 20)%Z) by lia. assert (m1 : (1 <= m <= 2 ^ 20)%Z) by lia.
    destruct (frac_hex inv n m n1 m1 AC L p q x y HL Dx Dy) as (f1 & f2 & EF & A1 & A2); try (apply Rabs_le; lra). fold N M s in A1, A2.
    set (Y := y / s) in *. assert (EY : y = Y * s) by (unfold Y; field; auto).
    replace (2 * y / s) with (2 * Y) in A2 by (unfold Y; field; auto).
    assert (YB : Rabs (Y - (IZR j + 1 / 2) / 2) <= 1 / 1000).
    { replace (Y - (IZR j + 1 / 2) / 2) with ((y - cy j) * / s) by (unfold Y, cy; fold s; field; auto).
      apply Rle_trans with (1 / 1000 * 1); [|lra]. apply Rabs_prod; [apply Rabs_le; lra|]. rewrite Rabs_pos_eq by (left; apply Rinv_0_lt_compat; lra). rewrite <- Rinv_1. apply Rinv_le_contravar; lra. }
    apply Rabs_bnd in YB.
    destruct A1 as (t1 & D1 & E1). destruct A2 as (t2 & D2 & E2). apply Rabs_bnd in E1, E2. unfold cx in Ex.
    assert (F1 : Zfloor t1 = 0%Z). { apply Zfloor_imp. simpl. assert (0 < t1 < 1); [|lra]. split; apply Rmult_lt_reg_l with N; lra. }
    assert (F2 : Zfloor t2 = 0%Z). { apply Zfloor_imp. simpl. assert (0 < t2 < 1); [|lra]. split; apply Rmult_lt_reg_l with M; lra. }
    assert (B1 : Rabs t1 <= 1). { pose proof (Zfloor_lb t1) as LB; pose proof (Zfloor_ub t1) as UB; rewrite F1 in LB, UB; simpl in LB, UB; apply Rabs_le; lra. }
    assert (B2 : Rabs t2 <= 1). { pose proof (Zfloor_lb t2) as LB; pose proof (Zfloor_ub t2) as UB; rewrite F2 in LB, UB; simpl in LB, UB; apply Rabs_le; lra. }
    assert (KEEP : forall f t, denotes f t -> Zfloor t = 0%Z -> Rabs t <= 1 -> denotes (f_sub f (f_mul (f_floor f) (f_ofZ 1))) t).
    { intros f t D F B. pose proof (denotes_floor _ _ D) as DF. rewrite F in DF.
      apply den_sub0; auto; [apply (den_mul0l _ _ _ DF den_1)|now apply den_fix with f|apply T60_big; lra]. }
    pose proof (KEEP f1 t1 D1 F1 B1) as G1. pose proof (KEEP f2 t2 D2 F2 B2) as G2.
    unfold get_periodized_cartesian_coords. rewrite EF. cbn [bind].
    assert (LP : l_periodic L = [true; true]) by (destruct HL as (? & ? & ? & ? & -> & _); reflexivity). rewrite LP.
    unfold periodize, bcast. cbn [length map Nat.eqb zipwith bind of_bool a_floor a_mul a_sub a_ofZ FAi].
    set (g1 := f_sub f1 _) in *. set (g2 := f_sub f2 _) in *.
    assert (C1 : ap N g1 (x - Y) (/ T20)) by (exists t1; split; [exact G1|]; apply Rabs_le; lra).
    assert (C2 : ap M g2 (2 * Y) (/ T20)) by (exists t2; split; [exact G2|]; apply Rabs_le; lra).
    destruct (cart_hex inv n m n1 m1 L g1 g2 (x - Y) (2 * Y) (/ T20) HL C1 C2) as (u & v & E & U & V); try (apply Rabs_le; lra); try lra.
    fold s in V. exists u, v. split; [exact E|]. split.
    - apply (ap_eq _ _ (x - Y + 2 * Y / 2)); [|field]. apply ap_weak with (2 * / T20 + / T20); [exact U|nums].
    - apply (ap_eq _ _ (2 * Y * (s / 2))); [|rewrite EY; field]. apply ap_weak with (2 * / T20 + / T20); [exact V|nums].
  Qed.

  (** Rounding to thousandths. *)
  Lemma mil_near z : Rabs (IZR z) <= 4194306000 -> Rabs (mil z - IZR z / 1000) <= / 10000000.
  Proof.
    intros B. apply Rabs_bnd in B. assert (B2 : Rabs (IZR z / 1000) <= 4194306) by (apply Rabs_le; lra).
    apply (rnd_close _ _ _ B2); [simpl; lra|unfold ulp_; simpl; lra].
  Qed.
  Lemma round_num u x : ap 1 u x (/ 131072) -> Rabs x <= 2097152 -> exists z, denotes (roundk FI 1000 u) (mil z) /\ Rabs (mil z - x) <= 52 / 100000 /\ Rabs (IZR z) <= 4194306000.
  Proof.
    intros (y & D & H) BX. rewrite Rmult_1_l in H. apply Rabs_bnd in H, BX.
    assert (B1 : Rabs (y * 1000) <= 4194305000) by (apply Rabs_le; lra).
    set (z := ZnearestE (rnd (y * 1000))).
    assert (R1 : Rabs (rnd (y * 1000) - y * 1000) <= / 10000) by (apply (rnd_close _ _ _ B1); [simpl; lra|unfold ulp_; simpl; lra]).
    assert (R2 : Rabs (rnd (y * 1000) - IZR z) <= / 2) by apply Znearest_half. apply Rabs_bnd in R1, R2, B1.
    assert (Bz : Rabs (IZR z) <= 4194306000) by (apply Rabs_le; lra).
    assert (Bz' : (Z.abs z <= 2 ^ 41)%Z). { apply le_IZR. rewrite abs_IZR. eapply Rle_trans; [exact Bz|]. simpl; lra. }
    exists z. split; [apply (round_milli u y z D); auto; apply Rabs_le; lra|]. split; auto. pose proof (mil_near z Bz) as R3. apply Rabs_bnd in R3. apply Rabs_le. lra.
  Qed.
  Lemma round_back u z : ap 1 u (IZR z / 1000) (/ 100000) -> Rabs (IZR z) <= 2097153000 -> denotes (roundk FI 1000 u) (mil z).
  Proof.
    intros (y & D & H) Bz. rewrite Rmult_1_l in H. apply Rabs_bnd in H, Bz.
    assert (B1 : Rabs (y * 1000) <= 4194305000) by (apply Rabs_le; lra).
    assert (R1 : Rabs (rnd (y * 1000) - y * 1000) <= / 10000) by (apply (rnd_close _ _ _ B1); [simpl; lra|unfold ulp_; simpl; lra]). apply Rabs_bnd in R1.
    assert (EZ : ZnearestE (rnd (y * 1000)) = z) by (apply Znearest_imp, Rabs_def1; lra).
    assert (Bz' : (Z.abs z <= 2 ^ 41)%Z). { apply le_IZR. rewrite abs_IZR. apply Rle_trans with 4194306000; [apply Rabs_le; lra|simpl; lra]. }
    apply (round_milli u y z D); auto. apply Rabs_le; lra.
  Qed.
  Lemma mil_inj z z' : Rabs (IZR z) <= 4194306000 -> Rabs (IZR z') <= 4194306000 -> mil z = mil z' -> z = z'.
  Proof.
    intros B B' E. apply mil_near in B, B'. rewrite E in B. apply Rabs_bnd in B, B'.
    assert (L1 : IZR z < IZR (z' + 1)) by (rewrite plus_IZR; lra). assert (L2 : IZR z' < IZR (z + 1)) by (rewrite plus_IZR; lra). apply lt_IZR in L1, L2. lia.
  Qed.

  Definition hkey (c : list Z) (e : string * list b64 * list b64) : Prop :=
    exists i j u v k1 k2, c = [i; j] /\ e = ("A"%string, [u; v], [k1; k2]) /\ ap 1 k1 (cx i j + 1 / 1000) (2 / 1000) /\ ap 1 k2 (cy j + 1 / 1000) (2 / 1000).
  (** The stored location is (z1, z2) thousandths, near the centre of the cell. *)
  Definition numbers (c : list Z) (e : string * list b64 * list b64) (z1 z2 : Z) : Prop :=
    exists i j u v k, c = [i; j] /\ e = ("A"%string, [u; v], k) /\ (0 <= i < n)%Z /\ (0 <= j < m)%Z /\
      denotes (roundk FI 1000 u) (mil z1) /\ denotes (roundk FI 1000 v) (mil z2) /\ Rabs (mil z1 - cx i j) <= 53 / 100000 /\ Rabs (mil z2 - cy j) <= 53 / 100000 /\
      Rabs (IZR z1) <= 2097152000 /\ Rabs (IZR z2) <= 2097152000.
  Definition keyed (e : string * list b64 * list b64) (z1 z2 : Z) : Prop :=
    exists k1 k2, snd e = [k1; k2] /\ denotes k1 (mil (z1 + 1)) /\ denotes k2 (mil (z2 + 1)).

  Lemma hkey_apart k1 k2 a b i j i' j' : ap 1 k1 (cx i j + 1 / 1000) (2 / 1000) -> ap 1 k2 (cy j + 1 / 1000) (2 / 1000) -> ap 1 a (cx i' j' + 1 / 1000) (2 / 1000) -> ap 1 b (cy j' + 1 / 1000) (2 / 1000) ->
    vec_eqb FI [a; b] [k1; k2] = true -> i = i' /\ j = j'.
  Proof.
    intros (x1 & D1 & E1) (x2 & D2 & E2) (y1 & Da & Ea) (y2 & Db & Eb). unfold vec_eqb. cbn [list_eqb a_eqb FAi].
    assert (Eq1 : @eqb b64 f_eqb a k1 = Req_bool y1 x1) by (apply (denotes_eqb _ _ _ _ Da D1)).
    assert (Eq2 : @eqb b64 f_eqb b k2 = Req_bool y2 x2) by (apply (denotes_eqb _ _ _ _ Db D2)).
    rewrite Eq1, Eq2. intros H. apply Bool.andb_true_iff in H as [T1 H]. apply Bool.andb_true_iff in H as [T2 _].
    revert T1 T2. case Req_bool_spec; [|discriminate]. intros T1 _. case Req_bool_spec; [|discriminate]. intros T2 _. subst y1 y2.
    apply Rabs_bnd in E1, E2, Ea, Eb. apply centres_apart; apply Rabs_le; lra.
  Qed.
  Lemma hkey_look cs h a b i j : Forall2 hkey cs h -> ap 1 a (cx i j + 1 / 1000) (2 / 1000) -> ap 1 b (cy j + 1 / 1000) (2 / 1000) -> ~ In [i; j] cs -> forall st,
    @dget _ _ (Eqb_vec FI) [a; b] (map (fun x : Z * (string * list b64 * list b64) => (snd (snd x), fst x)) (enumerate_from st h)) = None.
  Proof.
    intros G Ha Hb. induction G as [|c e cs h Gc G IH]; intros ND st; auto.
    destruct Gc as (i' & j' & u & v & k1 & k2 & -> & -> & K1 & K2). cbn [enumerate_from map dget fst snd].
    destruct (@eqb (list b64) (Eqb_vec FI) [a; b] [k1; k2]) eqn:E.
    - exfalso. apply ND. left. destruct (hkey_apart k1 k2 a b i' j' i j K1 K2 Ha Hb E) as [-> ->]. reflexivity.
    - apply IH; auto. intros X. apply ND. simpl; auto.
  Qed.

  Lemma add_near L h S done i j p q x y : hexa n m L -> Inv FI L h S -> Forall2 hkey done h -> ~ In [i; j] done -> (0 <= i < n)%Z -> (0 <= j < m)%Z ->
    denotes p x -> denotes q y -> Rabs (x - cx i j) <= 1 / 1000 -> Rabs (y - cy j) <= 1 / 1000 ->
    exists S' u v, let e := ("A"%string, [u; v], [roundk FI 1000 (f_add u (VEC_OFFSET FI)); roundk FI 1000 (f_add v (VEC_OFFSET FI))]) in
      add_site_or_raise FI S ("A"%string, [p; q]) = Ok S' /\ Inv FI L (h ++ [e]) S' /\ hkey [i; j] e /\ ap 1 u x (/ 131072) /\ ap 1 v y (/ 131072).
  Proof.
    intros HL I G ND Hi Hj P Q NX NY. destruct (per_near L p q x y i j HL Hi Hj P Q NX NY) as (u & v & E & U & V). destruct (cy_bound n m Hn Hm i j Hi Hj) as [BX BY].
    assert (T : transformed_coords FI S [p; q] = Ok [roundk FI 1000 (f_add u (VEC_OFFSET FI)); roundk FI 1000 (f_add v (VEC_OFFSET FI))]).
    { rewrite (transformed_eq FI L h S _ _ I E). destruct HL as (v0 & z0 & w0 & h0 & -> & _). cbn [l_dim repeat].
      unfold bcast. cbn [length Nat.eqb zipwith bind get_rounded_coords map]. reflexivity. }
    apply Rabs_bnd in NX, NY.
    assert (K1 : ap 1 (roundk FI 1000 (f_add u (VEC_OFFSET FI))) (cx i j + 1 / 1000) (2 / 1000)).
    { apply (ap_shift _ _ (x + 1 / 1000) _ (51 / 100000) (1 / 1000)); [|apply Rabs_le; lra|lra]. apply (key_place inv u x U). apply Rabs_le; lra. }
    assert (K2 : ap 1 (roundk FI 1000 (f_add v (VEC_OFFSET FI))) (cy j + 1 / 1000) (2 / 1000)).
    { apply (ap_shift _ _ (y + 1 / 1000) _ (51 / 100000) (1 / 1000)); [|apply Rabs_le; lra|lra]. apply (key_place inv v y V). apply Rabs_le; lra. }
    destruct (add_site_cases FI L h S "A" [p; q] I) as [(e & X & _)|[(z & e & _ & T' & _)|[(z & k & w & _ & T' & D & _)|(z & k & S' & X & T' & D & EA & I')]]].
    - congruence.
    - congruence.
    - exfalso. rewrite T in T'. injection T' as <-. destruct I as (_ & _ & _ & _ & EL). rewrite EL in D.
      unfold enumerate in D. rewrite (hkey_look done h _ _ i j G K1 K2 ND) in D. discriminate.
    - exists S', u, v. cbv zeta. unfold add_site_or_raise. cbn [fst snd]. rewrite EA. split; auto.
      rewrite E in X. injection X as <-. rewrite T in T'. injection T' as <-. split; auto. split; [|auto]. exists i, j, u, v. eauto 10.
  Qed.

  Lemma z_of_near z x : Rabs x <= 2097150 -> Rabs (mil z - x) <= 1 / 1000 -> Rabs (IZR z) <= 4194306000 -> Rabs (IZR z) <= 2097152000.
  Proof. intros B H Bz. apply mil_near in Bz. apply Rabs_bnd in B, H, Bz. apply Rabs_le. lra. Qed.

  Lemma fold_first L : hexa n m L -> forall cs done h S, Inv FI L h S -> Forall2 hkey done h -> Forall2 (fun c e => exists z1 z2, numbers c e z1 z2) done h -> NoDup (done ++ cs) -> incl cs (cells [n; m]) ->
    exists S' h', foldM (fun s coeffs => foldM (fun s cv => foldM (fun s vec => do loc <- motif_loc FI (baseL inv) true coeffs vec; add_site_or_raise FI s (fst cv, loc)) (snd cv) s)
                    [("A"%string, [[half FI; half FI]])] s) cs S = Ok S' /\ Inv FI L h' S' /\ Forall2 (fun c e => exists z1 z2, numbers c e z1 z2) (done ++ cs) h'.
  Proof.
    intros HL. induction cs as [|c cs IH]; intros done h S I G GN ND IN.
    - exists S, h. rewrite app_nil_r. auto.
    - destruct (hex_cells n m c) as (i & j & -> & Hi & Hj); [apply IN; simpl; auto|].
      destruct (loc_hex inv n m Hn Hm i j Hi Hj) as (p & q & EL & (x & Dx & Ex) & (y & Dy & Ey)). rewrite Rmult_1_l in Ex, Ey. destruct (cy_bound n m Hn Hm i j Hi Hj) as [BX BY].
      assert (NI : ~ In [i; j] done).
      { apply NoDup_remove_2 in ND. intros X. apply ND. apply in_or_app. auto. }
      apply Rabs_bnd in Ex, Ey.
      destruct (add_near L h S done i j p q x y HL I G NI Hi Hj Dx Dy) as (S' & u & v & EA & I' & Ge & U & V); try (apply Rabs_le; lra).
      set (e := ("A"%string, [u; v], [roundk FI 1000 (f_add u (VEC_OFFSET FI)); roundk FI 1000 (f_add v (VEC_OFFSET FI))])) in *.
      assert (NE : exists z1 z2, numbers [i; j] e z1 z2).
      { destruct (round_num u x U) as (z1 & D1 & N1 & B1); [apply Rabs_le; lra|]. destruct (round_num v y V) as (z2 & D2 & N2 & B2); [apply Rabs_le; lra|].
        exists z1, z2, i, j, u, v. eexists. split; auto. split; [reflexivity|]. split; auto. split; auto. split; auto. split; auto. apply Rabs_bnd in N1, N2.
        split; [apply Rabs_le; lra|]. split; [apply Rabs_le; lra|]. split; [apply (z_of_near z1 x)|apply (z_of_near z2 y)]; auto; apply Rabs_le; lra. }
      replace (done ++ [i; j] :: cs) with ((done ++ [[i; j]]) ++ cs) in * by (now rewrite <- app_assoc).
      destruct (IH (done ++ [[i; j]]) (h ++ [e]) S' I') as (S'' & h'' & EF & I'' & G''); auto.
      + apply Forall2_app; auto.
      + apply Forall2_app; auto.
      + intros w Hw. apply IN. simpl; auto.
      + exists S'', h''. cbn [foldM fst snd] in *. rewrite EL. cbn [bind]. rewrite EA. cbn [bind]. auto.
  Qed.

  Lemma hex_hist : exists S L h, fl_honeycomb inv n m S /\ hexa n m L /\ Inv FI L h S /\ Forall2 (fun c e => exists z1 z2, numbers c e z1 z2) (cells [n; m]) h /\
    get_scaled_lattice FI (baseL inv) [n; m] = Ok L.
  Proof.
    destruct (scaled_hexa inv n m Hn Hm) as (L & EL & HL).
    destruct (fold_first L HL (cells [n; m]) [] [] (struct_init L)) as (S & h & EF & I & G); auto using incl_refl.
    { apply Inv_init. }
    { apply (cells_NoDup [n; m]). }
    exists S, L, h. split; [|auto]. eexists. split; [apply builder_eq|]. unfold build. cbn [b_lattice b_motif b_frac baseL l_dim length Nat.eqb negb]. unfold build_from. rewrite EL. cbn [bind].
    replace (l_dim L) with (length [n; m]) by (destruct HL as (? & ? & ? & ? & -> & _); reflexivity). rewrite box_cells. exact EF.
  Qed.

  Lemma BACK w z : ap 1 w (mil z) (/ 131072) -> Rabs (IZR z) <= 2097152000 -> denotes (roundk FI 1000 w) (mil z) /\ denotes (roundk FI 1000 (f_add w (VEC_OFFSET FI))) (mil (z + 1)).
  Proof.
    intros Hw Bz. assert (Mz : Rabs (mil z - IZR z / 1000) <= / 10000000) by (apply mil_near; lra). apply Rabs_bnd in Mz. split.
    - apply round_back; [|lra]. apply (ap_shift _ _ (mil z) _ (/ 131072) (/ 10000000) _ Hw); [apply Rabs_le; lra|lra].
    - apply Rabs_bnd in Bz. apply round_back; [|rewrite plus_IZR; apply Rabs_le; lra].
      assert (AO : ap 1 (VEC_OFFSET FI) (1 / 1000) (/ 1073741824)).
      { exists (rnd (1 / 1000)). split; [apply den_offset|]. rewrite Rmult_1_l. apply (rnd_close _ 1); [rewrite Rabs_pos_eq; lra|simpl; lra|nums]. }
      apply (ap_shift _ _ (mil z + 1 / 1000) _ (/ 131072 + / 268435456) (/ 10000000)); [|apply Rabs_le; rewrite plus_IZR; lra|lra].
      apply (ap_add 1 _ _ _ _ (/ 131072) (/ 1073741824) 2097154); auto; try lra; try nums. apply Rabs_le; lra.
  Qed.

  Definition resettled (c : list Z) (e e' : string * list b64 * list b64) : Prop := exists z1 z2, numbers c e z1 z2 /\ numbers c e' z1 z2 /\ keyed e' z1 z2.

  Lemma keys_at L h S i j p q z1 z2 : hexa n m L -> Inv FI L h S -> (0 <= i < n)%Z -> (0 <= j < m)%Z -> denotes p (mil z1) -> denotes q (mil z2) -> Rabs (mil z1 - cx i j) <= 53 / 100000 -> Rabs (mil z2 - cy j) <= 53 / 100000 ->
    Rabs (IZR z1) <= 2097152000 -> Rabs (IZR z2) <= 2097152000 -> exists k1 k2, transformed_coords FI S [p; q] = Ok [k1; k2] /\ denotes k1 (mil (z1 + 1)) /\ denotes k2 (mil (z2 + 1)) /\
      exists u v, get_periodized_cartesian_coords FI L [p; q] = Ok [u; v] /\ denotes (roundk FI 1000 u) (mil z1) /\ denotes (roundk FI 1000 v) (mil z2).
  Proof.
    intros HL I Hi Hj P Q N1 N2 B1 B2. apply Rabs_bnd in N1, N2. destruct (per_near L p q _ _ i j HL Hi Hj P Q) as (u & v & E & U & V); try (apply Rabs_le; lra).
    assert (T : transformed_coords FI S [p; q] = Ok [roundk FI 1000 (f_add u (VEC_OFFSET FI)); roundk FI 1000 (f_add v (VEC_OFFSET FI))]).
    { rewrite (transformed_eq FI L h S _ _ I E). destruct HL as (v0 & z0 & w0 & h0 & -> & _). cbn [l_dim repeat].
      unfold bcast. cbn [length Nat.eqb zipwith bind get_rounded_coords map]. reflexivity. }
    destruct (BACK u z1 U B1) as [R1 K1]. destruct (BACK v z2 V B2) as [R2 K2]. eexists _, _. split; [exact T|]. split; auto. split; auto. exists u, v. auto.
  Qed.

  Lemma readd L : hexa n m L -> forall cs h done h0 i S, Forall2 (fun c e => exists z1 z2, numbers c e z1 z2) cs h -> Inv FI L h0 S -> Forall2 hkey done h0 -> NoDup (done ++ cs) ->
    exists S' hh, foldM (fun S kv => add_site_or_raise FI S (s_class (snd kv), s_loc (snd kv))) (map (mk FI) (enumerate_from i h)) S = Ok S' /\
      Inv FI L (h0 ++ map snd hh) S' /\ Forall2 (fun c ee => resettled c (fst ee) (snd ee)) cs hh /\ map fst hh = h.
  Proof.
    intros HL. induction cs as [|c cs IH]; intros h done h0 k S G I G0 ND.
    - destruct h; [|inversion G]. exists S, []. cbn [map]. rewrite app_nil_r. cbn [enumerate_from map foldM]. auto.
    - destruct h as [|e h1]; [inversion G|]. destruct (pairs _ _ _ _ _ G) as [Gc G1].
      destruct Gc as (z1 & z2 & Ne). pose proof Ne as (i & j & u0 & v0 & k0 & -> & -> & Hi & Hj & Du & Dv & N1 & N2 & B1 & B2). destruct (cy_bound n m Hn Hm i j Hi Hj) as [BX BY].
      assert (NI : ~ In [i; j] done) by (apply NoDup_remove_2 in ND; intros X; apply ND; apply in_or_app; auto).
      apply Rabs_bnd in N1, N2.
      destruct (add_near L h0 S done i j _ _ _ _ HL I G0 NI Hi Hj Du Dv) as (S' & u & v & EA & I' & Ge & U & V); try (apply Rabs_le; lra).
      set (e' := ("A"%string, [u; v], [roundk FI 1000 (f_add u (VEC_OFFSET FI)); roundk FI 1000 (f_add v (VEC_OFFSET FI))])) in *.
      destruct (BACK u z1 U B1) as [R1 K1]. destruct (BACK v z2 V B2) as [R2 K2].
      assert (Ne' : numbers [i; j] e' z1 z2).
      { exists i, j, u, v. eexists. split; auto. split; [reflexivity|]. split; auto. split; auto. split; auto. split; auto. split; [apply Rabs_le; lra|]. split; [apply Rabs_le; lra|]. auto. }
      replace (done ++ [i; j] :: cs) with ((done ++ [[i; j]]) ++ cs) in * by (now rewrite <- app_assoc).
      destruct (IH h1 (done ++ [[i; j]]) (h0 ++ [e']) (k + 1)%Z S' G1 I') as (S'' & h2 & EF & I'' & G'' & G3); auto; [apply Forall2_app; auto|].
      exists S'', (("A"%string, [u0; v0], k0, e') :: h2). cbn [map fst snd]. rewrite <- app_assoc in I''. cbn [app] in I''. split.
      + cbn [enumerate_from map foldM].
        change (add_site_or_raise FI S (s_class (snd (mk FI (k, ("A"%string, [u0; v0], k0)))), s_loc (snd (mk FI (k, ("A"%string, [u0; v0], k0)))))) with (add_site_or_raise FI S ("A"%string, [roundk FI 1000 u0; roundk FI 1000 v0])).
        rewrite EA. cbn [bind]. exact EF.
      + split; auto. split; [|f_equal; exact G3]. constructor; auto. exists z1, z2. split; auto. split; auto. eexists _, _. split; [reflexivity|]. auto.
  Qed.

  Lemma reload1 S L h : hexa n m L -> lattice_from_dict (lattice_as_dict L) = Ok L -> Inv FI L h S -> Forall2 (fun c e => exists z1 z2, numbers c e z1 z2) (cells [n; m]) h ->
    exists S' hh, struct_from_dict FI (struct_json S) = Ok S' /\ Inv FI L (map snd hh) S' /\ map fst hh = h /\ Forall2 (fun c ee => resettled c (fst ee) (snd ee)) (cells [n; m]) hh.
  Proof.
    intros HL EL I G. pose proof I as (E1 & E2 & E3 & E4 & E5).
    destruct (readd L HL (cells [n; m]) h [] [] 0 (struct_init L) G (Inv_init FI L) (Forall2_nil _) (cells_NoDup [n; m])) as (S' & hh & EF & I' & G' & EH).
    exists S', hh. split; auto. unfold struct_from_dict. unfold struct_json at 1. cbn [fst]. rewrite E1, EL. cbn [bind]. pose proof (json_items b64 S L h FI I) as J.
    destruct (mapM _ (snd (struct_json S))) as [items|] eqn:EM; [|discriminate]. cbn [bind] in *. injection J as J. rewrite J, E3. exact EF.
  Qed.

  Lemma nth_both {B C} (P : B -> C -> Prop) l l' p c : Forall2 P l l' -> nth_error l' p = Some c -> exists b, nth_error l p = Some b /\ P b c.
  Proof.
    intros G. revert p. induction G as [|b c' l l' Hb G IH]; intros [|p] E; cbn [nth_error] in *; try discriminate; [injection E as <-; eauto|eauto].
  Qed.

  Lemma ids_enum (h h' : list (string * list b64 * list b64)) : length h = length h' -> forall i,
    map (fun x => s_id (snd (mk FI x))) (enumerate_from i h) = map (fun x => s_id (snd (mk FI x))) (enumerate_from i h').
  Proof. revert h'. induction h as [|e h IH]; intros [|e' h'] E i; try discriminate; cbn [enumerate_from map]; auto. f_equal. apply IH. simpl in E. lia. Qed.

  (** The same sites. *)
  Definition same_sites (s s' : structure b64) : Prop :=
    p_lattice s' = p_lattice s /\ p_dim s' = p_dim s /\ map s_id (sites s' None) = map s_id (sites s None) /\
    (forall i x, get_site s i = Some x -> exists x', get_site s' i = Some x' /\ s_class x' = s_class x /\
       Forall2 (fun a b => exists r, denotes a r /\ denotes b r) (s_loc x) (s_loc x')).

  Lemma site_index S L h i x : Inv FI L h S -> get_site S i = Some x -> exists p e, i = Z.of_nat p /\ nth_error h p = Some e /\ x = mkSite (fst (fst e)) (get_rounded_coords FI (snd (fst e))) i.
  Proof.
    intros I Gx. pose proof (dense_id S x (inv_dense FI L h S I) (proj1 (proj1 (inv_get_site FI L h S i x I) Gx))) as RB.
    assert (Ei : s_id x = i) by (apply (inv_get_site FI L h S i x I) in Gx; apply Gx). rewrite Ei in RB.
    pose proof (get_site_nth FI L h S (Z.to_nat i) I) as GN. rewrite Z2Nat.id in GN by lia. rewrite Gx in GN.
    destruct (nth_error h (Z.to_nat i)) as [e|] eqn:Ee; [|discriminate]. cbn [option_map] in GN. injection GN as ->. exists (Z.to_nat i), e. split; [lia|auto].
  Qed.

  Lemma fst_nth {B C} (l : list (B * C)) p b : nth_error (map fst l) p = Some b -> exists c, nth_error l p = Some (b, c).
  Proof. rewrite nth_error_map. destruct (nth_error l p) as [[b' c]|]; [|discriminate]. intros E. injection E as <-. eauto. Qed.

  Lemma same_after S S' L hh : Inv FI L (map fst hh) S -> Inv FI L (map snd hh) S' -> Forall2 (fun c ee => resettled c (fst ee) (snd ee)) (cells [n; m]) hh -> same_sites S S'.
  Proof.
    intros I I' G. pose proof I as (E1 & E2 & _). pose proof I' as (E1' & E2' & _).
    split; [congruence|]. split; [congruence|]. split.
    - rewrite (sites_list FI L _ S I), (sites_list FI L _ S' I'), !map_map. symmetry. apply ids_enum. now rewrite !map_length.
    - intros i x Gx. destruct (site_index S L _ i x I Gx) as (p & e & -> & Ee & ->). destruct (fst_nth hh p e Ee) as (e' & Ep).
      pose proof (get_site_nth FI L _ S' p I') as GN. rewrite nth_error_map, Ep in GN. cbn [option_map snd] in GN. eexists. split; [exact GN|].
      destruct (nth_both _ _ _ _ _ G Ep) as (c & _ & R). cbn [fst snd] in R. destruct R as (z1 & z2 & (i & j & u & v & k & _ & -> & _ & _ & D1 & D2 & _) & (i' & j' & u' & v' & k' & _ & -> & _ & _ & D1' & D2' & _) & _).
      cbn [s_class s_loc fst snd get_rounded_coords map]. split; auto. constructor; [eauto|]. constructor; [eauto|constructor].
  Qed.

  (** Entries added on reloading are found under their location. *)
  Lemma look_found : forall cs h p i j e k1 k2 a b, Forall2 hkey cs h -> NoDup cs -> nth_error cs p = Some [i; j] -> nth_error h p = Some e -> snd e = [k1; k2] ->
    ap 1 a (cx i j + 1 / 1000) (2 / 1000) -> ap 1 b (cy j + 1 / 1000) (2 / 1000) -> vec_eqb FI [a; b] [k1; k2] = true -> forall st,
    @dget _ _ (Eqb_vec FI) [a; b] (map (fun x : Z * (string * list b64 * list b64) => (snd (snd x), fst x)) (enumerate_from st h)) = Some (st + Z.of_nat p)%Z.
  Proof.
    intros cs h p i j e k1 k2 a b G. revert p. induction G as [|c e' cs h Gc G IH]; intros p ND Ec Ee Ek Ha Hb Eq st; [destruct p; discriminate|].
    inversion ND as [|? ? NI ND']; subst. cbn [enumerate_from map dget fst snd]. destruct p as [|p]; cbn [nth_error] in *.
    - injection Ec as ->. injection Ee as ->. rewrite Ek. change (@eqb (list b64) (Eqb_vec FI) [a; b] [k1; k2]) with (vec_eqb FI [a; b] [k1; k2]). rewrite Eq. f_equal. cbn. lia.
    - destruct Gc as (i' & j' & u & v & l1 & l2 & -> & -> & K1 & K2). cbn [snd]. change (@eqb (list b64) (Eqb_vec FI) [a; b] [l1; l2]) with (vec_eqb FI [a; b] [l1; l2]).
      destruct (vec_eqb FI [a; b] [l1; l2]) eqn:E.
      + exfalso. apply NI. destruct (hkey_apart l1 l2 a b i' j' i j K1 K2 Ha Hb E) as [-> ->]. now apply nth_error_In with p.
      + rewrite (IH p ND' Ec Ee Ek Ha Hb Eq). f_equal. lia.
  Qed.

  Lemma near_key i j z1 z2 k1 k2 : denotes k1 (mil (z1 + 1)) -> denotes k2 (mil (z2 + 1)) -> Rabs (mil z1 - cx i j) <= 53 / 100000 -> Rabs (mil z2 - cy j) <= 53 / 100000 ->
    Rabs (IZR z1) <= 2097152000 -> Rabs (IZR z2) <= 2097152000 -> ap 1 k1 (cx i j + 1 / 1000) (2 / 1000) /\ ap 1 k2 (cy j + 1 / 1000) (2 / 1000).
  Proof.
    intros D1 D2 N1 N2 B1 B2.
    assert (X : forall z, Rabs (IZR z) <= 2097152000 -> Rabs (mil (z + 1) - (mil z + 1 / 1000)) <= / 1000000).
    { intros z B. assert (M1 : Rabs (mil z - IZR z / 1000) <= / 10000000) by (apply mil_near; lra). apply Rabs_bnd in B.
      assert (M2 : Rabs (mil (z + 1) - IZR (z + 1) / 1000) <= / 10000000) by (apply mil_near; rewrite plus_IZR; apply Rabs_le; lra).
      rewrite plus_IZR in M2. apply Rabs_bnd in M1, M2. apply Rabs_le. lra. }
    apply X in B1, B2. apply Rabs_bnd in B1, B2, N1, N2. split; eexists; (split; [eassumption|]); rewrite Rmult_1_l; apply Rabs_le; lra.
  Qed.

  Lemma resettled_key c e e' : resettled c e e' -> hkey c e'.
  Proof.
    intros (z1 & z2 & _ & (i & j & u & v & k & -> & -> & Hi & Hj & D1 & D2 & N1 & N2 & B1 & B2) & (k1 & k2 & Ek & K1 & K2)). cbn [snd] in Ek. subst k.
    destruct (near_key i j z1 z2 k1 k2 K1 K2 N1 N2 B1 B2) as [A1 A2]. exists i, j, u, v, k1, k2. auto.
  Qed.

  Lemma found_after S S' L hh i x : hexa n m L -> Inv FI L (map fst hh) S -> Inv FI L (map snd hh) S' -> Forall2 (fun c ee => resettled c (fst ee) (snd ee)) (cells [n; m]) hh ->
    get_site S i = Some x -> id_at FI S' (s_loc x) = Ok (Some i).
  Proof.
    intros HL I I' G Gx. destruct (site_index S L _ i x I Gx) as (p & e & -> & Ee & ->). destruct (fst_nth hh p e Ee) as (e' & Ep).
    destruct (nth_both _ _ _ _ _ G Ep) as (c & Ec & R). cbn [fst snd] in R. pose proof R as (z1 & z2 & (i & j & u & v & k & -> & -> & Hi & Hj & D1 & D2 & N1 & N2 & B1 & B2) & _ & (l1 & l2 & El & L1 & L2)).
    cbn [s_loc fst snd get_rounded_coords map]. destruct (keys_at L _ S' i j _ _ z1 z2 HL I' Hi Hj D1 D2 N1 N2 B1 B2) as (k1 & k2 & ET & K1 & K2 & _).
    assert (GK : Forall2 hkey (cells [n; m]) (map snd hh)).
    { clear -G. induction G as [|c [e e'] cs hh Hc G IH]; cbn [map]; constructor; auto. now apply resettled_key with e. }
    destruct (near_key i j z1 z2 k1 k2 K1 K2 N1 N2 B1 B2) as [A1 A2].
    assert (EQ : vec_eqb FI [k1; k2] [l1; l2] = true).
    { unfold vec_eqb. cbn [list_eqb a_eqb FAi]. assert (Q1 : @eqb b64 f_eqb k1 l1 = true) by (unfold eqb; rewrite (denotes_eqb _ _ _ _ K1 L1); apply Req_bool_true; auto).
      assert (Q2 : @eqb b64 f_eqb k2 l2 = true) by (unfold eqb; rewrite (denotes_eqb _ _ _ _ K2 L2); apply Req_bool_true; auto). rewrite Q1, Q2. reflexivity. }
    assert (Ep' : nth_error (map snd hh) p = Some e') by (rewrite nth_error_map, Ep; reflexivity).
    pose proof (look_found _ _ p i j e' l1 l2 k1 k2 GK (cells_NoDup [n; m]) Ec Ep' El A1 A2 EQ 0%Z) as LF.
    unfold id_at, site_at. rewrite ET. cbn [bind]. pose proof I' as (_ & _ & _ & _ & EL). rewrite EL. unfold enumerate. rewrite LF. rewrite Z.add_0_l.
    rewrite (get_site_nth FI L _ S' p I'), Ep'. reflexivity.
  Qed.

  (** Reloading once more changes nothing. *)
  Lemma lookup_twice cs : forall hh hh', map fst hh' = map snd hh -> Forall2 (fun c ee => resettled c (fst ee) (snd ee)) cs hh -> Forall2 (fun c ee => resettled c (fst ee) (snd ee)) cs hh' -> forall key i,
    @dget _ _ (Eqb_vec FI) key (map (fun x : Z * (string * list b64 * list b64) => (snd (snd x), fst x)) (enumerate_from i (map snd hh))) =
    @dget _ _ (Eqb_vec FI) key (map (fun x : Z * (string * list b64 * list b64) => (snd (snd x), fst x)) (enumerate_from i (map snd hh'))).
  Proof.
    induction cs as [|c cs IH]; intros hh hh' EM G G' key i; [inversion G; inversion G'; reflexivity|].
    destruct hh as [|[e0 e1] hh]; [inversion G|]. destruct hh' as [|[e1' e2] hh']; [inversion G'|]. destruct (pairs _ _ _ _ _ G) as [R G1]. destruct (pairs _ _ _ _ _ G') as [R' G1'].
    cbn [map fst snd] in *. injection EM as -> EM. cbn [enumerate_from map dget fst snd].
    assert (EK : forall w, vec_eqb FI w (snd e1) = vec_eqb FI w (snd e2)).
    { destruct R as (z1 & z2 & _ & N1 & (k1 & k2 & E1 & K1 & K2)). destruct R' as (z1' & z2' & N1' & _ & (k1' & k2' & E2 & K1' & K2')).
      destruct N1 as (i1 & j1 & u & v & k & _ & Ee & _ & _ & D1 & D2 & _ & _ & B1 & B2). destruct N1' as (i2 & j2 & u' & v' & k' & _ & Ee' & _ & _ & D1' & D2' & _ & _ & B1' & B2').
      rewrite Ee in Ee'. injection Ee' as <- <- <-. 
      assert (z1' = z1) as -> by (apply mil_inj; try lra; destruct D1 as [_ <-], D1' as [_ <-]; reflexivity).
      assert (z2' = z2) as -> by (apply mil_inj; try lra; destruct D2 as [_ <-], D2' as [_ <-]; reflexivity).
      rewrite E1, E2. intros w. apply (vec_eqb_same 2 _ _ (fun a => match a with O => mil (z1 + 1) | _ => mil (z2 + 1) end)); (split; [reflexivity|]); intros [|[|a]] Ha; cbn [nth]; auto; lia. }
    change (@eqb (list b64) (Eqb_vec FI) key (snd e1)) with (vec_eqb FI key (snd e1)). change (@eqb (list b64) (Eqb_vec FI) key (snd e2)) with (vec_eqb FI key (snd e2)).
    rewrite EK. destruct (vec_eqb FI key (snd e2)); auto.
  Qed.

  Lemma lookups_after S S' L hh hh' : map fst hh' = map snd hh -> Inv FI L (map snd hh) S -> Inv FI L (map snd hh') S' ->
    Forall2 (fun c ee => resettled c (fst ee) (snd ee)) (cells [n; m]) hh -> Forall2 (fun c ee => resettled c (fst ee) (snd ee)) (cells [n; m]) hh' -> forall v, id_at FI S' v = id_at FI S v.
  Proof.
    intros EM I I' G G' v. pose proof I as (E1 & E2 & E3 & E4 & E5). pose proof I' as (E1' & E2' & E3' & E4' & E5').
    assert (LH : length (map snd hh) = length (map snd hh')) by (rewrite <- EM, !map_length; reflexivity).
    unfold id_at, site_at. assert (ET : transformed_coords FI S' v = transformed_coords FI S v) by (unfold transformed_coords, coords_with_offset, offset_vector; now rewrite E1, E1', E2, E2').
    rewrite ET. destruct (transformed_coords FI S v) as [key|]; cbn [bind]; auto. rewrite E5, E5'. unfold enumerate. rewrite (lookup_twice _ hh hh' EM G G' key 0).
    destruct (@dget _ _ (Eqb_vec FI) key _) as [i|]; auto. unfold get_site. rewrite E3, E3'. unfold enumerate. f_equal. clear -LH. generalize 0%Z as j. revert LH. generalize (map snd hh) as h. generalize (map snd hh') as h'.
    intros h' h. revert h'. induction h as [|e h IH]; intros [|e' h'] E j; try discriminate; cbn [enumerate_from map dget]; auto. unfold mk at 1 3. cbn [fst snd]. destruct (eqb i j); auto.
  Qed.

  (** Neighbourhoods. *)
  Lemma hex_after S S' L h : hex_struct n m S -> same_sites S S' -> Inv FI L h S' -> hex_struct n m S'.
  Proof.
    intros HS (EL & ED & EI & GS) I'. pose proof (inv_dense FI L h S' I') as DS.
    assert (LE : length (sites S' None) = length (sites S None)) by (rewrite <- (map_length s_id), EI, map_length; reflexivity).
    constructor.
    - rewrite EL. apply (hs_lat _ _ _ HS).
    - exact DS.
    - rewrite LE. apply (hs_count _ _ _ HS).
    - intros i j Hi Hj. destruct (hs_site _ _ _ HS i j Hi Hj) as (u & v & Gu & (x & Dx & Ex) & (y & Dy & Ey)). destruct (GS _ _ Gu) as ([cl loc id] & Gx & Cx & Lx). cbn [s_class s_loc] in *. subst cl.
      pose proof (proj2 (proj1 (inv_get_site FI L h S' _ _ I') Gx)) as Ix. cbn [s_id] in Ix. subst id.
      inversion Lx as [|? a ? l (r & Dr & Dr') Lx']; subst. inversion Lx' as [|? b ? l' (r2 & Dr2 & Dr2') Lx'']; subst. inversion Lx''; subst.
      exists a, b. split; [exact Gx|]. split.
      + exists x. split; auto. destruct Dx as [_ <-], Dr as [_ <-]. exact Dr'.
      + exists y. split; auto. destruct Dy as [_ <-], Dr2 as [_ <-]. exact Dr2'.
    - intros k x Gk. destruct (proj1 (inv_get_site FI L h S' k x I') Gk) as [Hx <-].
      apply (in_map s_id) in Hx. rewrite EI in Hx. apply in_map_iff in Hx as (x0 & E0 & Hx0). apply (hs_in _ _ _ HS) in Hx0. rewrite E0 in Hx0. apply (hs_all _ _ _ HS _ _ Hx0).
    - intros x. rewrite (inv_get_site FI L h S' (s_id x) x I'). tauto.
  Qed.
End Reload.

Lemma C119_lemma : forall n m s st, (3 <= n <= 2 ^ 20)%Z -> (3 <= m <= 2 ^ 20)%Z -> fl_honeycomb f_inv n m s -> json_state st ->
  exists s' s'', struct_from_dict FA (struct_json s) = Ok s' /\ sim_from_dict FA (sim_json (mkSim st s)) = Ok (mkSim st s') /\
    p_lattice s' = p_lattice s /\ p_dim s' = p_dim s /\ map s_id (sites s' None) = map s_id (sites s None) /\
    (forall i x, get_site s i = Some x -> id_at FA s' (s_loc x) = Ok (Some i) /\ exists x', get_site s' i = Some x' /\ s_class x' = s_class x /\
       Forall2 (fun a b => exists r, denotes a r /\ denotes b r) (s_loc x) (s_loc x')) /\
    (exists G G', nb_get FA (HoneycombNeighborhoodBuilder FA) s None = Ok G /\ nb_get FA (HoneycombNeighborhoodBuilder FA) s' None = Ok G' /\
       forall i j, (0 <= i < n)%Z -> (0 <= j < m)%Z -> neighbours G (hex_id n m i j) (fun k => In k (six n m i j)) /\ neighbours G' (hex_id n m i j) (fun k => In k (six n m i j))) /\
    struct_from_dict FA (struct_json s') = Ok s'' /\ reloaded s' s''.
Proof.
  intros n m s st Hn Hm HC HJ. assert (AC : accurate n m f_inv) by (apply C96_inverse_lemma; lia).
  destruct (hex_hist f_inv n m Hn Hm AC) as (S & L & h & HC2 & HL & I & G & ELs). rewrite (fl_honey_unique _ _ _ _ _ HC2 HC) in *. clear S HC2.
  destruct (hex_built f_inv n m Hn Hm AC) as (S & HC2 & HS). rewrite (fl_honey_unique _ _ _ _ _ HC2 HC) in *. clear S HC2.
  assert (EL : lattice_from_dict (lattice_as_dict L) = Ok L).
  { unfold get_scaled_lattice in ELs. exact (flags_back _ _ _ ELs). }
  destruct (reload1 f_inv n m Hn Hm AC s L h HL EL I G) as (s' & hh & E1 & I1 & EH & G1). subst h.
  assert (GN : Forall2 (fun c e => exists z1 z2, numbers f_inv n m c e z1 z2) (cells [n; m]) (map snd hh)).
  { clear -G1. induction G1 as [|c [e e'] cs hh (z1 & z2 & _ & N1 & _) G IH]; cbn [map]; constructor; eauto. }
  destruct (reload1 f_inv n m Hn Hm AC s' L _ HL EL I1 GN) as (s'' & hh2 & E2 & I2 & EH2 & G2).
  pose proof (same_after f_inv n m s s' L hh I I1 G1) as SS. rewrite <- EH2 in I1.
  pose proof (same_after f_inv n m s' s'' L hh2 I1 I2 G2) as SS2.
  pose proof SS as (P1 & P2 & P3 & P4). pose proof SS2 as (Q1 & Q2 & Q3 & Q4).
  assert (HS' : hex_struct n m s') by (eapply hex_after; eauto).
  exists s', s''. split; [exact E1|]. split.
  { unfold sim_from_dict, sim_json. cbn [fst snd sim_state sim_struct]. rewrite (C06_lemma st HJ). cbn [bind]. change FA with (FAi f_inv). now rewrite E1. }
  split; auto. split; auto. split; auto. split.
  { intros i x Gx. split; [|now apply P4]. rewrite EH2 in I1. exact (found_after f_inv n m Hn Hm AC s s' L hh i x HL I I1 G1 Gx). }
  split.
  { destruct (nb_hex f_inv n m Hn Hm AC s HS) as (N & EN & H). destruct (nb_hex f_inv n m Hn Hm AC s' HS') as (N' & EN' & H').
    exists N, N'. split; [exact EN|]. split; [exact EN'|]. intros i j Hi Hj. assert (EI : hex_id n m i j = (i * m + j)%Z) by (unfold hex_id; rewrite !Z.mod_small by lia; auto). rewrite EI.
    split; [apply (H i j Hi Hj)|apply (H' i j Hi Hj)]. }
  split; [exact E2|]. split; auto. split; auto. split; auto. split; auto. rewrite EH2 in I1. exact (lookups_after f_inv n m s' s'' L hh hh2 EH2 I1 I2 G1 G2).
Qed.
