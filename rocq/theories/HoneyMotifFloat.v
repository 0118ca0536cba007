(** Neighbourhoods made for square grids on honeycombs, in binary64 (C121). *)
From Coq Require Import Reals Lra Psatz.
From Flocq Require Import Core BinarySingleNaN.
From Verif Require Import Prelude Dict Val Arith RealArith FloatArith LatticeModel JsonModel StructModel StateModel ResultModel RunnerModel NbModel GridModel SimModel RulesModel SpecState SpecResult SpecGeom SpecNb SpecGrid SpecHoney SpecFloat64 SpecNuc SpecHoneyFloat
  StateFacts JsonFacts StructFacts StructMore StructBuild NbFacts NbMore GridFacts GridMore GridNb HoneyFacts FloatFacts FloatCoord FloatGrid FloatVec FloatAxis FloatBox FloatNorm FloatCut FloatNear FloatInv FloatHoney FloatJson FloatNb HoneyGrow FloatHexReload HoneyMotif.
Local Open Scope R_scope.

Section Miss.
  Variable inv : list (list b64) -> res (list (list b64)).
  Notation FI := (FAi inv).
  Variables n m : Z.
  Hypothesis (Hn : (3 <= n <= 2 ^ 20)%Z) (Hm : (3 <= m <= 2 ^ 20)%Z).
  Hypothesis AC : accurate n m inv.
  Let N := IZR n. Let M := IZR m. Let s := sqrt 3.

  (** A point inside the box stays where it is. *)
  Lemma per_in L p q x y : hexa n m L -> denotes p x -> denotes q y -> 1 / 100 <= x - y / s <= 2 -> 1 / 100 <= 2 * y / s <= 2 -> 0 <= x <= 4 -> 0 <= y <= 4 ->
    exists u v, get_periodized_cartesian_coords FI L [p; q] = Ok [u; v] /\ ap 1 u x (/ 131072) /\ ap 1 v y (/ 131072).
  Proof.
    intros HL Dx Dy Ex Ey Bx By. pose proof sqrt3_sp as HS. fold s in HS. assert (Sne : s <> 0) by lra.
    assert (n1 : (1 <= n <= 2 ^ 20)%Z) by lia. assert (m1 : (1 <= m <= 2 ^ 20)%Z) by lia.
    assert (N3 : 3 <= N) by (apply (IZR_le 3); lia). assert (M3 : 3 <= M) by (apply (IZR_le 3); lia).
    destruct (frac_hex inv n m n1 m1 AC L p q x y HL Dx Dy) as (f1 & f2 & EF & A1 & A2); try (apply Rabs_le; lra). fold N M s in A1, A2.
    set (Y := y / s) in *. assert (EY : y = Y * s) by (unfold Y; field; auto).
    replace (2 * y / s) with (2 * Y) in * by (unfold Y; field; auto).
    destruct A1 as (t1 & D1 & E1). destruct A2 as (t2 & D2 & E2). apply Rabs_bnd in E1, E2.
    assert (TT : / T20 <= 1 / 1000) by nums.
    assert (F1 : Zfloor t1 = 0%Z). { apply Zfloor_imp. simpl. assert (0 < t1 < 1); [|lra]. split; apply Rmult_lt_reg_l with N; lra. }
    assert (F2 : Zfloor t2 = 0%Z). { apply Zfloor_imp. simpl. assert (0 < t2 < 1); [|lra]. split; apply Rmult_lt_reg_l with M; lra. }
    assert (B1 : Rabs t1 <= 1). { pose proof (Zfloor_lb t1) as LB; pose proof (Zfloor_ub t1) as UB; rewrite F1 in LB, UB; simpl in LB, UB; apply Rabs_le; lra. }
    assert (B2 : Rabs t2 <= 1). { pose proof (Zfloor_lb t2) as LB; pose proof (Zfloor_ub t2) as UB; rewrite F2 in LB, UB; simpl in LB, UB; apply Rabs_le; lra. }
    assert (KEEP : forall f t, denotes f t -> Zfloor t = 0%Z -> Rabs t <= 1 -> denotes (f_sub f (f_mul (f_floor f) (f_ofZ 1))) t).
    { intros f t D F B. pose proof (denotes_floor _ _ D) as DF. rewrite F in DF.
      apply den_sub0; auto; [apply (den_mul0l _ _ _ DF den_1)|now apply den_fix with f|apply T60_big; lra]. }
    pose proof (KEEP f1 t1 D1 F1 B1) as G1. pose proof (KEEP f2 t2 D2 F2 B2) as G2.
    unfold get_periodized_cartesian_coords. rewrite EF. cbn [bind].
    assert (LP : l_periodic L = [true; true]) by (destruct HL as (? & ? & ? & ? & -> & _); reflexivity). rewrite LP.
    unfold periodize, bcast. cbn [length map Nat.eqb zipwith bind of_bool a_floor a_mul a_sub a_ofZ FAi].
    set (g1 := f_sub f1 _) in *. set (g2 := f_sub f2 _) in *.
    assert (C1 : ap N g1 (x - Y) (/ T20)) by (exists t1; split; [exact G1|]; apply Rabs_le; lra).
    assert (C2 : ap M g2 (2 * Y) (/ T20)) by (exists t2; split; [exact G2|]; apply Rabs_le; lra).
    destruct (cart_hex inv n m n1 m1 L g1 g2 (x - Y) (2 * Y) (/ T20) HL C1 C2) as (u & v & E & U & V); try (apply Rabs_le; lra); try lra.
    fold s in V. exists u, v. split; [exact E|]. split.
    - apply (ap_eq _ _ (x - Y + 2 * Y / 2)); [|field]. apply ap_weak with (2 * / T20 + / T20); [exact U|nums].
    - apply (ap_eq _ _ (2 * Y * (s / 2))); [|rewrite EY; field]. apply ap_weak with (2 * / T20 + / T20); [exact V|nums].
  Qed.

  Lemma frac_any L p q : hexa n m L -> exists a b, get_fractional_coords FI L [p; q] = Ok [a; b].
  Proof.
    intros (v & z & w & h & -> & Dv & Dz & Dw & Dh). destruct (AC v z w h Dv Dz Dw Dh) as (a & b & c & d & EI & _).
    unfold get_fractional_coords, inv_matrix. cbn [l_matrix a_inv FAi]. rewrite EI. cbn [bind].
    unfold vecmat. cbn [l_matrix length Nat.eqb width comb zeros repeat zipwith map a_add a_mul a_ofZ FAi]. eauto.
  Qed.
  Lemma per_any L p q : hexa n m L -> exists u v, get_periodized_cartesian_coords FI L [p; q] = Ok [u; v].
  Proof.
    intros HL. destruct (frac_any L p q HL) as (a & b & E). unfold get_periodized_cartesian_coords. rewrite E. cbn [bind].
    destruct HL as (v & z & w & h & -> & _). cbn [l_periodic]. unfold periodize, bcast. cbn [length map Nat.eqb zipwith bind of_bool].
    unfold get_cartesian_coords, vecmat. cbn [l_matrix length Nat.eqb width comb zeros repeat zipwith map]. eauto.
  Qed.
  Lemma key_any L h S p q : hexa n m L -> Inv FI L h S -> exists k, transformed_coords FI S [p; q] = Ok k.
  Proof.
    intros HL I. destruct (per_any L p q HL) as (u & v & E). rewrite (transformed_eq FI L h S _ _ I E). destruct HL as (v0 & z0 & w0 & h0 & -> & _). cbn [l_dim repeat].
    unfold bcast. cbn [length Nat.eqb zipwith bind]. eauto.
  Qed.
  Lemma at_any L h S p q : hexa n m L -> Inv FI L h S -> exists o, id_at FI S [p; q] = Ok o.
  Proof. intros HL I. destruct (key_any L h S p q HL I) as (k & E). unfold id_at, site_at. rewrite E. cbn [bind]. eauto. Qed.

  Lemma row_look cs h a b j c : Forall2 hkey cs h -> ap 1 b (cy j + c + 1 / 1000) (2 / 1000) -> (c = 1 \/ c = -1) -> forall st,
    @dget _ _ (Eqb_vec FI) [a; b] (map (fun x : Z * (string * list b64 * list b64) => (snd (snd x), fst x)) (enumerate_from st h)) = None.
  Proof.
    intros G (y & Db & Eb) C. induction G as [|c0 e cs h Gc G IH]; intros st; auto.
    destruct Gc as (i' & j' & u & v & k1 & k2 & -> & -> & K1 & (x2 & D2 & E2)). cbn [enumerate_from map dget fst snd].
    destruct (@eqb (list b64) (Eqb_vec FI) [a; b] [k1; k2]) eqn:E; [|apply IH]. exfalso.
    assert (Eq2 : @eqb b64 f_eqb b k2 = Req_bool y x2) by (apply (denotes_eqb _ _ _ _ Db D2)).
    cbn in E. apply Bool.andb_true_iff in E as [_ H]. apply Bool.andb_true_iff in H as [T2 _]. change (@eqb b64 f_eqb b k2 = true) in T2. rewrite Eq2 in T2.
    revert T2. case Req_bool_spec; [|discriminate]. intros T2 _. subst y. apply Rabs_bnd in Eb, E2.
    apply (rows_apart j j' c (cy j' - cy j - c) C); [apply Rabs_le; lra|]. unfold cy in *. lra.
  Qed.

  (** The point one above the first cell of the second column. *)
  Lemma above L h S : hexa n m L -> Inv FI L h S -> Forall2 hkey (cells [n; m]) h -> hex_struct n m S ->
    exists x, get_site S m = Some x /\ id_at FI S (zipwith f_add (s_loc x) [f_ofZ 0; f_ofZ 1]) = Ok None.
  Proof.
    intros HL I G HS. destruct (hs_site _ _ _ HS 1 0 ltac:(lia) ltac:(lia)) as (u & v & GS & U & V). replace (1 * m + 0)%Z with m in GS by lia.
    eexists. split; [exact GS|]. cbn [s_loc zipwith]. pose proof sqrt3_sp as HQ. fold s in HQ. pose proof r3_close as R3. fold s in R3.
    assert (P1 : ap 1 (f_add u (f_ofZ 0)) (cx 1 0 + 0) (52 / 100000)).
    { apply (ap_add 1 _ _ _ _ (51 / 100000) 0 4); auto; try lra; try nums; [apply ap_den, den_0|]. unfold cx. rewrite Rabs_pos_eq; simpl; lra. }
    assert (P2 : ap 1 (f_add v (f_ofZ 1)) (cy 0 + 1) (52 / 100000)).
    { apply (ap_add 1 _ _ _ _ (51 / 100000) 0 4); auto; try lra; try nums; [apply ap_den, den_1|]. unfold cy. fold s. rewrite Rabs_pos_eq; simpl; lra. }
    destruct P1 as (x & D1 & E1). destruct P2 as (y & D2 & E2). rewrite Rmult_1_l in E1, E2. apply Rabs_bnd in E1, E2. unfold cx in E1. unfold cy in E2. fold s in E2. simpl in E1, E2.
    assert (YS : 82 / 100 <= y / s <= 83 / 100).
    { split; [apply Rmult_le_reg_r with s; [lra|]|apply Rmult_le_reg_r with s; [lra|]]; unfold Rdiv at 2; try (unfold Rdiv at 1); rewrite ?Rmult_assoc, ?Rinv_l by lra; nra. }
    destruct (per_in L _ _ x y HL D1 D2) as (a & b & E & A & B); try lra.
    assert (T : transformed_coords FI S [f_add u (f_ofZ 0); f_add v (f_ofZ 1)] = Ok [roundk FI 1000 (f_add a (VEC_OFFSET FI)); roundk FI 1000 (f_add b (VEC_OFFSET FI))]).
    { rewrite (transformed_eq FI L h S _ _ I E). destruct HL as (v0 & z0 & w0 & h0 & -> & _). cbn [l_dim repeat].
      unfold bcast. cbn [length Nat.eqb zipwith bind get_rounded_coords map]. reflexivity. }
    unfold id_at, site_at. rewrite T. cbn [bind]. pose proof I as (_ & _ & _ & _ & EL). rewrite EL. unfold enumerate.
    rewrite (row_look (cells [n; m]) h _ _ 0 1 G); auto.
    apply (ap_shift _ _ (y + 1 / 1000) _ (51 / 100000) (1 / 1000)); [|unfold cy; fold s; simpl; apply Rabs_le; lra|lra]. apply (key_place inv b y B). apply Rabs_le; lra.
  Qed.
End Miss.

Lemma hex_keys n m : (3 <= n <= 2 ^ 20)%Z -> (3 <= m <= 2 ^ 20)%Z -> exists S L h, fl_honeycomb f_inv n m S /\ hexa n m L /\ Inv FA L h S /\ Forall2 hkey (cells [n; m]) h /\ hex_struct n m S.
Proof.
  intros Hn Hm. assert (AC : accurate n m f_inv) by (apply C96_inverse_lemma; lia). destruct (hex_built f_inv n m Hn Hm AC) as (S0 & HC0 & HS).
  destruct (scaled_hexa f_inv n m Hn Hm) as (L & EL & HL).
  destruct (fold_hex f_inv n m Hn Hm AC L HL (cells [n; m]) [] [] (struct_init L)) as (S & h & EF & I & G); auto using incl_refl.
  { apply Inv_init. }
  { apply (cells_NoDup [n; m]). }
  assert (HC : fl_honeycomb f_inv n m S).
  { eexists. split; [apply builder_eq|]. unfold build. cbn [b_lattice b_motif b_frac baseL l_dim length Nat.eqb negb]. unfold build_from. rewrite EL. cbn [bind].
    replace (l_dim L) with (length [n; m]) by (destruct HL as (? & ? & ? & ? & -> & _); reflexivity). rewrite box_cells. exact EF. }
  rewrite (fl_honey_unique _ _ _ _ _ HC0 HC) in *. exists S, L, h. split; [exact HC|]. split; [exact HL|]. split; [exact I|]. split; [|exact HS].
  clear -G. cbn [app] in G. induction G as [|c e cs h Gc G IH]; constructor; auto.
  destruct Gc as (i & j & u & v & k1 & k2 & -> & -> & _ & _ & _ & _ & K1 & K2). exists i, j, u, v, k1, k2. split; auto. split; auto. split; (eapply ap_weak; [eassumption|lra]).
Qed.

Local Open Scope Z_scope.
Lemma C121_float_motif n m s D : 3 <= n <= 2 ^ 20 -> 3 <= m <= 2 ^ 20 -> fl_honeycomb f_inv n m s -> (forall p, In p D -> length p = 2%nat) -> In [0; 1] D ->
  exists b, motif_builder FA (map (nums FA) D) = Ok b /\ nb_get FA b s None = Err TypeError.
Proof.
  intros Hn Hm HC LD HI. assert (AC : accurate n m f_inv) by (apply C96_inverse_lemma; lia).
  destruct (hex_keys n m Hn Hm) as (S & L & h & HC2 & HL & IV & G & HS). rewrite (fl_honey_unique _ _ _ _ _ HC2 HC) in *. clear S HC2.
  destruct (motif_total (map (nums FA) D)) as (d & Ed). exists (BMotif (map (nums FA) D) d). split; [exact Ed|].
  cbn [nb_get]. pose proof (hs_dense _ _ _ HS) as DS.
  assert (LST : forall cur, In cur (sites s None) -> exists ys, get_neighbors FA (BMotif (map (nums FA) D) d) s cur = Ok ys /\
    forall o x, In (o, x) ys <-> exists v, In v (map (nums FA) D) /\ id_at FA s (zipwith (a_add FA) (s_loc cur) v) = Ok o /\ is_other o (s_id cur) = true /\ x = get_dist FA d v).
  { intros cur Hc. destruct (motif_fold_fl (fun v => id_at FA s (zipwith (a_add FA) (s_loc cur) v)) (get_dist FA d) (s_id cur) (map (nums FA) D) []) as (ys & E & H); [|exists ys; split; [exact E|exact H]].
    intros v Hv. apply in_map_iff in Hv as (p & <- & Hp). pose proof (LD p Hp) as Lp. destruct p as [|a [|b [|]]]; try discriminate.
    apply (hs_in _ _ _ HS) in Hc. destruct (hs_all _ _ _ HS _ _ Hc) as (i & j & Hi & Hj & Eij). destruct (hs_site _ _ _ HS i j Hi Hj) as (u & v & GS & _). rewrite Eij, GS in Hc. injection Hc as <-.
    cbn [s_loc nums map zipwith]. exact (at_any f_inv n m AC L h s _ _ HL IV). }
  rewrite (graph_None FA _ s None DS); [reflexivity| |].
  - intros cur Hc. destruct (LST cur Hc) as (ys & E & H). exists ys. split; [exact E|]. apply Forall_forall. intros [o x] Hx k Ek. cbn [fst] in Ek. subst o.
    apply H in Hx as (v & _ & Eo & _). unfold id_at, site_at in Eo. destruct (transformed_coords FA s _) as [key|]; [|discriminate]. cbn [bind] in Eo.
    destruct (dget key (p_lookup s)) as [i|]; [|discriminate]. destruct (get_site s i) as [y|] eqn:Gy; [|discriminate]. injection Eo as <-.
    apply dense_id; auto. now apply (inv_get_site FA L h s i y IV) in Gy.
  - destruct (above f_inv n m Hn Hm AC L h s HL IV G HS) as (x & Gx & Ex). pose proof (proj1 (inv_get_site FA L h s _ _ IV) Gx) as [Hx _].
    destruct (LST x Hx) as (ys & E & H). exists x, ys. split; [exact Hx|]. split; [exact E|]. apply Exists_exists. exists (None, get_dist FA d (nums FA [0; 1])). split; [|reflexivity].
    apply H. exists (nums FA [0; 1]). split; [now apply in_map|]. split; [exact Ex|]. auto.
Qed.

Lemma C121_float_lemma : forall n m s r, 3 <= n <= 2 ^ 20 -> 3 <= m <= 2 ^ 20 -> fl_honeycomb f_inv n m s -> 1 <= r ->
  (exists b, MooreNbHoodBuilder FA r 2 = Ok b /\ nb_get FA b s None = Err TypeError) /\
  (exists b, VonNeumannNbHood2DBuilder FA r = Ok b /\ nb_get FA b s None = Err TypeError) /\
  growth_nbhood FA s None = Err TypeError /\
  forall variant ords rnd ctl, life_init FA s ords rnd variant = Ok ctl -> forall c0 init k,
    run_sync ctl c0 init k = Err TypeError /\ run_async ctl c0 init k = Err TypeError /\ forall q sched, run_parallel ctl q sched c0 init k = Err TypeError.
Proof.
  intros n m s r Hn Hm HC Hr.
  assert (MO : forall r, 1 <= r -> exists b, MooreNbHoodBuilder FA r 2 = Ok b /\ nb_get FA b s None = Err TypeError).
  { intros r' Hr'. apply (C121_float_motif n m s _ Hn Hm HC).
    - intros p Hp. now apply moore_points in Hp.
    - apply moore_points. split; auto. repeat constructor; lia. }
  split; [now apply MO|]. split; [|split].
  - apply (C121_float_motif n m s _ Hn Hm HC).
    + intros p Hp. now apply vn_points in Hp.
    + apply vn_points. split; [reflexivity|]. unfold within_vn; cbn; lia.
  - destruct (MO 1 ltac:(lia)) as (b & Eb & EN). unfold growth_nbhood.
    assert (ED : p_dim s = 2%nat).
    { destruct (hex_keys n m Hn Hm) as (S & L & h & HC2 & HL & IV & _). rewrite (fl_honey_unique _ _ _ _ _ HC2 HC) in *. destruct IV as (_ & -> & _). destruct HL as (? & ? & ? & ? & -> & _). reflexivity. }
    rewrite ED, Eb. cbn [bind]. exact EN.
  - intros variant ords rnd ctl E c0 init k. destruct (MO 1 ltac:(lia)) as (b & Eb & EN).
    assert (EP : forall c st, c_pre_run ctl c st = Err TypeError).
    { unfold life_init in E. destruct (process_variant_string variant) as [[bo su]|]; [|discriminate]. cbn [bind] in E. injection E as <-. intros c st. cbn [life_controller c_pre_run]. unfold life_pre_run. rewrite Eb. cbn [bind]. rewrite EN. reflexivity. }
    unfold run_sync, run_async, run_parallel. rewrite EP. cbn [bind]. auto.
Qed.
