(** Structures on axis-parallel lattices in binary64. *)
From Coq Require Import Reals Lra Psatz.
From Flocq Require Import Core BinarySingleNaN.
From Verif Require Import Prelude Dict Arith RealArith FloatArith LatticeModel StructModel SpecGeom SpecFloat64 StructFacts StructBuild NbFacts GridFacts
  FloatFacts FloatCoord FloatGrid FloatVec FloatAxis.
Local Open Scope R_scope.

Local Notation fz := (f_ofZ 0).

Lemma dens_zip n (op : b64 -> b64 -> b64) u v (r : nat -> R) : length u = n -> length v = n ->
  (forall a, (a < n)%nat -> denotes (op (nth a u fz) (nth a v fz)) (r a)) -> dens n (zipwith op u v) r.
Proof.
  intros Lu Lv H. split; [rewrite zipwith_length; congruence|]. intros a Ha. rewrite (nth_zipwith _ fz fz) by congruence. auto.
Qed.
Lemma dens_map n (op : b64 -> b64) u (r : nat -> R) : length u = n ->
  (forall a, (a < n)%nat -> denotes (op (nth a u fz)) (r a)) -> dens n (map op u) r.
Proof. intros Lu H. split; [now rewrite map_length|]. intros a Ha. rewrite (nth_map' _ fz) by congruence. auto. Qed.
Lemma dens_ext n v x y : (forall a, (a < n)%nat -> x a = y a) -> dens n v x -> dens n v y.
Proof. intros E [L H]. split; auto. intros a Ha. rewrite <- E; auto. Qed.
Lemma bcast_eq (op : b64 -> b64 -> b64) u v : length u = length v -> bcast op u v = Ok (zipwith op u v).
Proof. intros E. unfold bcast. now rewrite E, Nat.eqb_refl. Qed.
Lemma nth_repeat' {A} (x d : A) n a : (a < n)%nat -> nth a (repeat x n) d = x.
Proof. revert a; induction n; intros [|a] H; simpl; auto; try lia. apply IHn. lia. Qed.

Lemma width_rows n (M : list (list b64)) : length M = n -> (forall i, (i < n)%nat -> length (nth i M []) = n) -> width M = n /\ forall r, In r M -> length r = n.
Proof.
  intros L H. split.
  - destruct M as [|r M]; simpl in *; auto. subst n. apply (H 0%nat). lia.
  - intros r Hr. destruct (In_nth _ _ [] Hr) as (i & Hi & <-). apply H. lia.
Qed.
Lemma f_floor_flag f y (b : bool) : denotes f y -> Rabs y <= 1073741825 -> denotes (f_sub f (f_mul (f_floor f) (of_bool FA b))) (rnd (y - (if b then IZR (Zfloor y) else 0))).
Proof.
  intros D B. pose proof (denotes_floor _ _ D) as DF. pose proof (Zfloor_lb y) as F1. pose proof (Zfloor_ub y) as F2. apply Rabs_bnd in B.
  apply denotes_sub; auto.
  - unfold of_bool. cbn [a_ofZ FA]. destruct b; [|apply (den_mul0r _ _ _ DF den_0)].
    assert (Q : (Z.abs (Zfloor y) <= 2 ^ 31)%Z) by (apply le_IZR; rewrite abs_IZR; apply Rabs_le; simpl; lra).
    apply den_mul1r; auto using den_1; [apply rnd_IZR; lia|apply IZR_big; lia].
  - apply small_big. apply Rabs_le. destruct b; simpl; lra.
Qed.
Lemma f_rint_flag f y (b : bool) : denotes f y -> Rabs y <= 2147483660 -> denotes (f_sub f (f_mul (f_rint f) (of_bool FA b))) (rnd (y - (if b then IZR (ZnearestE y) else 0))).
Proof.
  intros D B. pose proof (denotes_rint _ _ D) as DF. assert (H : Rabs (y - IZR (ZnearestE y)) <= / 2) by apply Znearest_half. apply Rabs_bnd in B, H.
  apply denotes_sub; auto.
  - unfold of_bool. cbn [a_ofZ FA]. destruct b; [|apply (den_mul0r _ _ _ DF den_0)].
    assert (Q : (Z.abs (ZnearestE y) <= 2 ^ 40)%Z) by (apply le_IZR; rewrite abs_IZR; apply Rabs_le; simpl; lra).
    apply den_mul1r; auto using den_1; [apply rnd_IZR; lia|apply IZR_big; lia].
  - apply small_big. apply Rabs_le. destruct b; simpl; lra.
Qed.

(** An axis-parallel lattice: coordinate [a] belongs to the lattice vector
    [s a], of length [N a]. *)
Record axis_lattice (n : nat) (s : nat -> nat) (N : nat -> Z) (per : list bool) (L : lattice b64) : Prop := {
  al_per : l_periodic L = per;
  al_len : length per = n;
  al_dim : l_dim L = n;
  al_mat : axis_matrix n s N (l_matrix L);
  al_inv : exists W, f_inv (l_matrix L) = Ok W /\ axis_inverse n s N W
}.

Section Axis.
  Variables (n : nat) (s : nat -> nat) (N : nat -> Z) (per : list bool) (L : lattice b64).
  Hypothesis Hs : forall a, (a < n)%nat -> (s a < n)%nat /\ s (s a) = a.
  Hypothesis HN : forall a, (a < n)%nat -> (1 <= N a <= M20)%Z.
  Hypothesis HL : axis_lattice n s N per L.
  Local Notation flag a := (nth (s a) per false).

  Lemma frac_axis v X : dens n v X -> (forall a, (a < n)%nat -> Rabs (X a) <= 1073741824) ->
    exists f, get_fractional_coords FA L v = Ok f /\ dens n f (fun i => fracR (N (s i)) (X (s i))).
  Proof.
    intros [Lv Dv] BX. destruct (al_inv _ _ _ _ _ HL) as (W & EW & LW & DW). unfold get_fractional_coords, inv_matrix. cbn [a_inv FA]. rewrite EW. cbn [bind].
    destruct (width_rows n W LW) as [WW RW]; [intros i Hi; apply DW; auto|].
    unfold vecmat. rewrite LW, Lv, Nat.eqb_refl, WW. eexists. split; [reflexivity|]. split; [now apply comb_length|]. intros i Hi.
    destruct (Hs i Hi) as [Hsi Si]. unfold fracR. apply (comb_one n i Hi v W (s i)); auto; try congruence.
    - destruct (DW (s i) Hsi) as [_ D]. specialize (D i Hi). cbn beta in D. now rewrite Si, Nat.eqb_refl in D.
    - apply Rle_trans with (1073741824 * 1); [|simpl; lra]. apply Rabs_prod; auto. apply (recip_big _ (HN _ Hsi)).
    - intros a Ha Na. rewrite LW in Ha. split; [eauto|]. destruct (DW a Ha) as [_ D]. specialize (D i Hi). cbn beta in D.
      destruct (Nat.eqb_spec i (s a)) as [->|]; auto. exfalso. apply Na. symmetry. apply Hs. auto.
  Qed.
  Lemma cart_axis f g : dens n f g -> (forall i, (i < n)%nat -> Rabs (g i) <= IZR (2 ^ 29)) ->
    exists c, get_cartesian_coords FA L f = Ok c /\ dens n c (fun a => rnd (g (s a) * IZR (N a))).
  Proof.
    intros [Lf Df] BG. destruct (al_mat _ _ _ _ _ HL) as [LM DM]. destruct (width_rows n _ LM) as [WM RM]; [intros i Hi; apply DM; auto|].
    unfold get_cartesian_coords, vecmat. rewrite LM, Lf, Nat.eqb_refl, WM. eexists. split; [reflexivity|]. split; [now apply comb_length|]. intros a Ha.
    destruct (Hs a Ha) as [Hsa Sa]. apply (comb_one n a Ha f _ (s a)); auto; try congruence.
    - destruct (DM (s a) Hsa) as [_ D]. specialize (D a Ha). cbn beta in D. now rewrite Nat.eqb_refl in D.
    - apply Rle_trans with (IZR (2 ^ 29) * 1048576); [|rewrite <- mult_IZR; apply IZR_le; discriminate]. apply Rabs_prod; auto.
      pose proof (N_bounds _ (HN a Ha)). rewrite Rabs_pos_eq; lra.
    - intros i Hi Ni. rewrite LM in Hi. split; [eauto|]. destruct (DM i Hi) as [_ D]. specialize (D a Ha). cbn beta in D.
      destruct (Nat.eqb_spec i (s a)) as [->|]; auto. congruence.
  Qed.
  (** Fractional coordinates can be large on short sides, so the bound is kept small. *)
  Lemma perR_small k b X : (1 <= k <= M20)%Z -> Rabs X <= 268435456 -> Rabs (perR k b X) <= IZR (2 ^ 29).
  Proof.
    intros Hk BX. assert (BX' : Rabs X <= 1073741824) by lra. pose proof (fracR_err k X Hk BX') as E. pose proof (N_bounds k Hk) as BN.
    assert (FB : Rabs (fracR k X) <= 268435457).
    { apply Rabs_bnd in E, BX. set (f := fracR k X) in *. apply Rabs_le. split; nra. }
    unfold perR. set (f := fracR k X) in *. pose proof (Zfloor_lb f). pose proof (Zfloor_ub f). apply Rabs_bnd in FB.
    assert (B : Rabs (f - (if b then IZR (Zfloor f) else 0)) <= 268435457) by (apply Rabs_le; destruct b; lra).
    assert (R1 : Rabs (rnd (f - (if b then IZR (Zfloor f) else 0)) - (f - (if b then IZR (Zfloor f) else 0))) <= 1).
    { apply (rnd_close _ _ _ B); [simpl; lra|unfold ulp_; simpl; lra]. }
    apply Rabs_bnd in B, R1. change (IZR (2 ^ 29)) with 536870912. apply Rabs_le. lra.
  Qed.
  Lemma per_axis v X : dens n v X -> (forall a, (a < n)%nat -> Rabs (X a) <= 268435456) ->
    exists u, get_periodized_cartesian_coords FA L v = Ok u /\ dens n u (fun a => cartR (N a) (flag a) (X a)).
  Proof.
    intros Dv BX. destruct (frac_axis v X Dv) as (f & Ef & Lf & Df); [intros a Ha; specialize (BX a Ha); lra|].
    unfold get_periodized_cartesian_coords. rewrite Ef. cbn [bind]. rewrite (al_per _ _ _ _ _ HL). pose proof (al_len _ _ _ _ _ HL) as Lp.
    unfold periodize. rewrite bcast_eq by (rewrite !map_length; congruence). cbn [bind].
    rewrite bcast_eq by (rewrite zipwith_length; rewrite !map_length; congruence). cbn [bind].
    destruct (cart_axis (zipwith (a_sub FA) f (zipwith (a_mul FA) (map (a_floor FA) f) (map (of_bool FA) per))) (fun i => perR (N (s i)) (nth i per false) (X (s i)))) as (c & Ec & Dc).
    - apply dens_zip; auto; [rewrite zipwith_length; rewrite !map_length; congruence|]. intros i Hi.
      rewrite (nth_zipwith _ fz fz); [|rewrite !map_length; congruence|rewrite map_length; congruence].
      rewrite (nth_map' _ fz) by congruence. rewrite (nth_map' _ false) by congruence. apply f_floor_flag; auto.
      destruct (Hs i Hi) as [Hsi _]. specialize (BX _ Hsi). apply fracR_bound; auto. lra.
    - intros i Hi. destruct (Hs i Hi) as [Hsi _]. apply perR_small; auto.
    - exists c. split; auto. revert Dc. apply dens_ext. intros a Ha. destruct (Hs a Ha) as [_ ->]. reflexivity.
  Qed.

  (** Differences. *)
  Lemma diff_axis v w X Y : dens n v X -> dens n w Y -> (forall a, (a < n)%nat -> Rabs (X a) <= 16777216 /\ Rabs (Y a) <= 16777216) ->
    exists c, (do f1 <- get_fractional_coords FA L v; do f2 <- get_fractional_coords FA L w;
               do fd <- pbc_diff_frac_vec FA f1 f2 (l_periodic L); get_cartesian_coords FA L fd) = Ok c /\ dens n c (fun a => diffR (N a) (flag a) (X a) (Y a)).
  Proof.
    intros Dv Dw B. destruct (frac_axis v X Dv) as (f1 & E1 & L1 & D1); [intros a Ha; specialize (B a Ha); lra|].
    destruct (frac_axis w Y Dw) as (f2 & E2 & L2 & D2); [intros a Ha; specialize (B a Ha); lra|].
    rewrite E1. cbn [bind]. rewrite E2. cbn [bind]. rewrite (al_per _ _ _ _ _ HL). pose proof (al_len _ _ _ _ _ HL) as Lp.
    assert (FB : forall k X, (1 <= k <= M20)%Z -> Rabs X <= 16777216 -> Rabs (fracR k X) <= 16777217).
    { intros k x Hk Hx. assert (Hx' : Rabs x <= 1073741824) by lra. pose proof (fracR_err k x Hk Hx') as E. pose proof (N_bounds k Hk) as BN.
      apply Rabs_bnd in E, Hx. set (f := fracR k x) in *. apply Rabs_le. split; nra. }
    assert (DB : forall i, (i < n)%nat -> Rabs (fracR (N (s i)) (X (s i)) - fracR (N (s i)) (Y (s i))) <= 33554434).
    { intros i Hi. destruct (Hs i Hi) as [Hsi _]. destruct (B _ Hsi) as [BX BY]. pose proof (FB _ _ (HN _ Hsi) BX) as F1. pose proof (FB _ _ (HN _ Hsi) BY) as F2.
      apply Rabs_bnd in F1, F2. apply Rabs_le. lra. }
    assert (RB : forall i, (i < n)%nat -> Rabs (rnd (fracR (N (s i)) (X (s i)) - fracR (N (s i)) (Y (s i)))) <= 33554435).
    { intros i Hi. specialize (DB i Hi). assert (R1 : Rabs (rnd (fracR (N (s i)) (X (s i)) - fracR (N (s i)) (Y (s i))) - (fracR (N (s i)) (X (s i)) - fracR (N (s i)) (Y (s i)))) <= 1).
      { apply (rnd_close _ _ _ DB); [simpl; lra|unfold ulp_; simpl; lra]. }
      apply Rabs_bnd in DB, R1. apply Rabs_le. lra. }
    unfold pbc_diff_frac_vec. rewrite bcast_eq by congruence. cbn [bind]. set (d := zipwith (a_sub FA) f1 f2).
    assert (Dd : dens n d (fun i => rnd (fracR (N (s i)) (X (s i)) - fracR (N (s i)) (Y (s i))))).
    { apply dens_zip; auto. intros i Hi. apply denotes_sub; auto. apply small_big. eapply Rle_trans; [apply DB; auto|simpl; lra]. }
    destruct Dd as [Ld Dd]. rewrite bcast_eq by (rewrite !map_length; congruence). cbn [bind].
    rewrite bcast_eq by (rewrite zipwith_length; rewrite !map_length; congruence). cbn [bind].
    destruct (cart_axis (zipwith (a_sub FA) d (zipwith (a_mul FA) (map (a_rint FA) d) (map (of_bool FA) per)))
      (fun i => let e := rnd (fracR (N (s i)) (X (s i)) - fracR (N (s i)) (Y (s i))) in rnd (e - (if nth i per false then IZR (ZnearestE e) else 0)))) as (c & Ec & Dc).
    - apply dens_zip; auto; [rewrite zipwith_length; rewrite !map_length; congruence|]. intros i Hi.
      rewrite (nth_zipwith _ fz fz); [|rewrite !map_length; congruence|rewrite map_length; congruence].
      rewrite (nth_map' _ fz) by congruence. rewrite (nth_map' _ false) by congruence. apply f_rint_flag; auto. specialize (RB i Hi). lra.
    - intros i Hi. cbv zeta. specialize (RB i Hi). set (e := rnd (fracR (N (s i)) (X (s i)) - fracR (N (s i)) (Y (s i)))) in *.
      assert (H : Rabs (e - IZR (ZnearestE e)) <= / 2) by apply Znearest_half.
      assert (E : Rabs (e - (if nth i per false then IZR (ZnearestE e) else 0)) <= 33554435) by (apply Rabs_bnd in RB, H; apply Rabs_le; destruct (nth i per false); lra).
      assert (R1 : Rabs (rnd (e - (if nth i per false then IZR (ZnearestE e) else 0)) - (e - (if nth i per false then IZR (ZnearestE e) else 0))) <= 1).
      { apply (rnd_close _ _ _ E); [simpl; lra|unfold ulp_; simpl; lra]. }
      apply Rabs_bnd in E, R1. apply Rabs_le. change (IZR (2 ^ 29)) with 536870912. lra.
    - exists c. split; auto. revert Dc. apply dens_ext. intros a Ha. destruct (Hs a Ha) as [_ ->]. reflexivity.
  Qed.

  (** * Adding the sites *)
  Variable z : nat -> Z.
  Hypothesis Hz : forall a, (a < n)%nat -> (0 <= z a < 1000)%Z.
  Definition NB : Z := 268435454.

  Lemma transformed_axis h S v X x w : Inv FA L h S -> dens n v X -> (forall a, (a < n)%nat -> (Z.abs (x a) <= NB)%Z) ->
    (forall a, (a < n)%nat -> Rabs (X a - (IZR (x a) + IZR (z a) / 1000)) <= / 1048576) -> (forall a, (a < n)%nat -> lands (N a) (flag a) (x a) (z a) (X a) (w a)) ->
    exists u k, get_periodized_cartesian_coords FA L v = Ok u /\ transformed_coords FA S v = Ok k /\
      dens n (get_rounded_coords FA u) (fun a => placeR (w a) (z a)) /\
      dens n k (fun a => placeR (w a) (z a + 1)).
  Proof.
    intros I Dv Hx HX C. assert (BX : forall a, (a < n)%nat -> Rabs (X a) <= 268435456).
    { intros a Ha. specialize (Hx a Ha). specialize (HX a Ha). pose proof (milli_bound _ (Hz a Ha)). apply IZR_abs_le, Rabs_bnd in Hx. change (IZR NB) with 268435454 in Hx.
      apply Rabs_bnd in HX. apply Rabs_le. lra. }
    destruct (per_axis v X Dv BX) as (u & E & Lu & Du). exists u. eexists. split; auto. split.
    - rewrite (transformed_eq FA L h S _ _ I E), (al_dim _ _ _ _ _ HL). rewrite bcast_eq by (rewrite repeat_length; congruence). cbn [bind]. reflexivity.
    - unfold get_rounded_coords. split.
      + apply dens_map; auto. intros a Ha. apply (stored (N a) (flag a) (x a) (z a) (X a) (w a)); auto. specialize (Hx a Ha). unfold NB, M30 in *. lia.
      + apply dens_map; [rewrite zipwith_length; rewrite ?repeat_length; congruence|]. intros a Ha. rewrite (nth_zipwith _ fz fz) by (rewrite ?repeat_length; congruence).
        rewrite nth_repeat' by auto. apply (keyed (N a) (flag a) (x a) (z a) (X a) (w a)); auto. specialize (Hx a Ha). unfold NB, M30 in *. lia.
  Qed.

  Local Notation xc c := (fun a : nat => nth (s a) c 0%Z).
  Definition matches (c : list Z) (x : nat -> Z) : Prop := forall a, (a < n)%nat -> nth (s a) c 0%Z = x a.
  Definition goodc (cls : string) (c : list Z) (e : string * list b64 * list b64) : Prop :=
    exists u ks, e = (cls, u, ks) /\ dens n (get_rounded_coords FA u) (fun a => placeR (nth (s a) c 0%Z) (z a)) /\
      dens n ks (fun a => placeR (nth (s a) c 0%Z) (z a + 1)).
  Definition small (c : list Z) : Prop := length c = n /\ forall i, (i < n)%nat -> (Z.abs (nth i c 0%Z) <= M30)%Z.

  Lemma list_eqb_nth (u : list b64) : forall v, length u = length v ->
    (vec_eqb FA u v = true <-> forall a, (a < length u)%nat -> f_eqb (nth a u fz) (nth a v fz) = true).
  Proof.
    unfold vec_eqb. induction u as [|x u IH]; intros [|y v] E; try discriminate.
    - split; [intros _ a H; simpl in H; lia|reflexivity].
    - cbn [list_eqb]. change (@eqb b64 (a_eqb FA) x y) with (f_eqb x y). rewrite Bool.andb_true_iff, IH by (simpl in E; lia). split.
      + intros [H1 H2] [|a] Ha; cbn [nth]; auto. apply H2. simpl in Ha; lia.
      + intros H. split; [apply (H 0%nat); simpl; lia|]. intros a Ha. apply (H (S a)). simpl; lia.
  Qed.
  Lemma key_eq k k' x x' : dens n k (fun a => placeR (x a) (z a + 1)) -> dens n k' (fun a => placeR (x' a) (z a + 1)) ->
    (forall a, (a < n)%nat -> (Z.abs (x a) <= M30)%Z /\ (Z.abs (x' a) <= M30)%Z) ->
    (vec_eqb FA k k' = true <-> forall a, (a < n)%nat -> x a = x' a).
  Proof.
    intros [Lk Dk] [Lk' Dk'] B. rewrite list_eqb_nth by congruence. rewrite Lk. split; intros H a Ha.
    - specialize (H a Ha). rewrite (denotes_eqb _ _ _ _ (Dk a Ha) (Dk' a Ha)) in H. revert H. case Req_bool_spec; [|discriminate]. intros H _.
      destruct (B a Ha). specialize (Hz a Ha). apply (placeR_inj (x a) (x' a) (z a + 1)); auto. lia.
    - rewrite (denotes_eqb _ _ _ _ (Dk a Ha) (Dk' a Ha)), (H a Ha). now apply Req_bool_true.
  Qed.
  Lemma small_s c a : small c -> (a < n)%nat -> (Z.abs (nth (s a) c 0%Z) <= M30)%Z.
  Proof. intros [_ H] Ha. apply H. now apply Hs. Qed.
  Lemma matches_eq c c' : length c = n -> length c' = n -> matches c (xc c') -> c = c'.
  Proof.
    intros L1 L2 H. apply nth_ext with 0%Z 0%Z; [congruence|]. intros i Hi. rewrite L1 in Hi. destruct (Hs i Hi) as [H1 H2]. specialize (H (s i) H1). cbn beta in H. now rewrite H2 in H.
  Qed.

  Lemma look_none cls cs h k x : Forall2 (goodc cls) cs h -> Forall small cs -> dens n k (fun a => placeR (x a) (z a + 1)) ->
    (forall a, (a < n)%nat -> (Z.abs (x a) <= M30)%Z) -> (forall c, In c cs -> ~ matches c x) -> forall st,
    @dget _ _ (Eqb_vec FA) k (map (fun x : Z * (string * list b64 * list b64) => (snd (snd x), fst x)) (enumerate_from st h)) = None.
  Proof.
    intros G I Dk Bx. induction G as [|c e cs h Gc G IH]; intros NM st; auto. inversion I as [|? ? Ic I']; subst. destruct Gc as (u & ks & -> & _ & Dks).
    cbn [enumerate_from map dget fst snd]. destruct (@eqb (list b64) (Eqb_vec FA) k ks) eqn:E.
    - exfalso. apply (NM c); [simpl; auto|]. assert (BB : forall a, (a < n)%nat -> (Z.abs (x a) <= M30)%Z /\ (Z.abs (nth (s a) c 0%Z) <= M30)%Z) by (intros a Ha; split; auto; now apply small_s).
      pose proof (proj1 (key_eq k ks x (xc c) Dk Dks BB) E) as M. intros a Ha. symmetry. now apply M.
    - apply IH; auto. intros c' Hc'. apply NM. simpl; auto.
  Qed.
  Lemma look_some cls cs h k x : Forall2 (goodc cls) cs h -> Forall small cs -> dens n k (fun a => placeR (x a) (z a + 1)) ->
    (forall a, (a < n)%nat -> (Z.abs (x a) <= M30)%Z) -> NoDup cs -> forall p st c0, nth_error cs p = Some c0 -> matches c0 x ->
    @dget _ _ (Eqb_vec FA) k (map (fun x : Z * (string * list b64 * list b64) => (snd (snd x), fst x)) (enumerate_from st h)) = Some (st + Z.of_nat p)%Z.
  Proof.
    intros G I Dk Bx. induction G as [|c e cs h Gc G IH]; intros ND p st c0 E M; [destruct p; discriminate|].
    inversion I as [|? ? Ic I']; subst. inversion ND as [|? ? N1 N2]; subst. destruct Gc as (u & ks & -> & _ & Dks).
    cbn [enumerate_from map dget fst snd].
    assert (KE : vec_eqb FA k ks = true <-> forall a, (a < n)%nat -> x a = nth (s a) c 0%Z).
    { apply (key_eq k ks x (xc c)); auto. intros a Ha. split; auto. now apply small_s. }
    destruct (@eqb (list b64) (Eqb_vec FA) k ks) eqn:Eq.
    - destruct p as [|p]; [f_equal; lia|]. simpl in E. exfalso. apply N1. replace c with c0; [eapply nth_error_In; eauto|].
      assert (S0 : small c0) by (apply nth_error_In in E; rewrite Forall_forall in I'; auto).
      apply matches_eq; [apply S0|apply Ic|]. intros a Ha. rewrite M by auto. now apply KE.
    - destruct p as [|p].
      + simpl in E. injection E as ->. assert (X : vec_eqb FA k ks = true) by (apply KE; intros a Ha; symmetry; apply M; auto).
        unfold eqb, Eqb_vec in Eq. congruence.
      + simpl in E. rewrite (IH I' N2 p (st + 1)%Z c0 E M). f_equal. lia.
  Qed.

  (** * Building *)
  Variable k : list Z.
  Hypothesis Lk : length k = n.
  Hypothesis HNk : forall a, (a < n)%nat -> N a = nth (s a) k 0%Z.
  Definition incell (c : list Z) : Prop := length c = n /\ forall i, (i < n)%nat -> (0 <= nth i c 0 < nth i k 0)%Z.
  Lemma incell_small c : incell c -> small c.
  Proof.
    intros [Lc H]. split; auto. intros i Hi. specialize (H i Hi). destruct (Hs i Hi) as [H1 H2]. pose proof (HN (s i) H1) as B. rewrite HNk, H2 in B by auto. unfold M20, M30 in *. lia.
  Qed.
  Lemma wrap_in c a : incell c -> (a < n)%nat -> wrapZ (N a) (flag a) (nth (s a) c 0%Z) = nth (s a) c 0%Z.
  Proof. intros [_ H] Ha. unfold wrapZ. destruct (flag a); auto. apply Z.mod_small. rewrite HNk by auto. apply H. now apply Hs. Qed.
  Definition fits (v : list b64) (c : list Z) : Prop := exists X, dens n v X /\ forall a, (a < n)%nat ->
    Rabs (X a - (IZR (nth (s a) c 0%Z) + IZR (z a) / 1000)) <= / 1048576 /\ 0 <= X a.

  Lemma add_axis cls h S done c v : Inv FA L h S -> Forall2 (goodc cls) done h -> Forall incell done -> ~ In c done -> incell c -> fits v c ->
    exists S' e, add_site_or_raise FA S (cls, v) = Ok S' /\ Inv FA L (h ++ [e]) S' /\ goodc cls c e.
  Proof.
    intros I G IN ND Hc (X & Dv & HX). pose proof (incell_small c Hc) as SC.
    assert (CB : forall a, (a < n)%nat -> (0 <= nth (s a) c 0 < N a)%Z) by (intros a Ha; rewrite HNk by auto; apply Hc; now apply Hs).
    destruct (transformed_axis h S v X (xc c) (fun a => wrapZ (N a) (flag a) (nth (s a) c 0%Z)) I Dv) as (u & ks & E & T & L1 & K1).
    { intros a Ha. specialize (CB a Ha). specialize (HN a Ha). unfold M20, NB in *. lia. }
    { intros a Ha. now apply HX. }
    { intros a Ha. left. split; [|reflexivity]. right. right. left. split; [now apply CB|now apply HX]. }
    assert (L1' : dens n (get_rounded_coords FA u) (fun a => placeR (nth (s a) c 0%Z) (z a))) by (revert L1; apply dens_ext; intros a Ha; now rewrite wrap_in).
    assert (K1' : dens n ks (fun a => placeR (nth (s a) c 0%Z) (z a + 1))) by (revert K1; apply dens_ext; intros a Ha; now rewrite wrap_in).
    destruct (add_site_cases FA L h S cls v I) as [(e & Q & _)|[(q & e & _ & T' & _)|[(q & kk & p & _ & T' & D & _)|(q & kk & S' & Q & T' & D & EA & I')]]].
    - congruence.
    - congruence.
    - exfalso. assert (kk = ks) by congruence. subst kk. destruct I as (_ & _ & _ & _ & EL). rewrite EL in D. unfold enumerate in D.
      rewrite (look_none cls done h ks (xc c)) in D; auto; try discriminate.
      + apply Forall_forall. intros c' Hc'. rewrite Forall_forall in IN. now apply incell_small, IN.
      + intros a Ha. now apply small_s.
      + intros c' Hc' M. apply ND. rewrite Forall_forall in IN. replace c with c'; auto. apply matches_eq; auto; [apply IN; auto|apply Hc].
    - exists S', (cls, q, kk). unfold add_site_or_raise. cbn [fst snd]. rewrite EA. split; auto. split; auto.
      assert (q = u) by congruence. assert (kk = ks) by congruence. subst. exists u, ks. auto.
  Qed.
  Lemma fold_axis cls loc : (forall c, incell c -> exists v, loc c = Ok v /\ fits v c) ->
    forall cs done h S, Inv FA L h S -> Forall2 (goodc cls) done h -> NoDup (done ++ cs) -> Forall incell (done ++ cs) ->
      exists S' h', foldM (fun S c => do l <- loc c; add_site_or_raise FA S (cls, l)) cs S = Ok S' /\
        Inv FA L h' S' /\ Forall2 (goodc cls) (done ++ cs) h'.
  Proof.
    intros HC. induction cs as [|c cs IH]; intros done h S I G ND IN.
    - exists S, h. rewrite app_nil_r. auto.
    - assert (Hc : incell c) by (rewrite Forall_forall in IN; apply IN; apply in_or_app; simpl; auto).
      destruct (HC c Hc) as (v & EL & Fv).
      assert (NI : ~ In c done).
      { apply NoDup_remove_2 in ND. intros X. apply ND. apply in_or_app. auto. }
      destruct (add_axis cls h S done c v I G) as (S' & e & EA & I' & Ge); auto.
      { apply Forall_app in IN. apply IN. }
      replace (done ++ c :: cs) with ((done ++ [c]) ++ cs) in * by (now rewrite <- app_assoc).
      destruct (IH (done ++ [c]) (h ++ [e]) S' I') as (S'' & h'' & EF & I'' & G''); auto; [apply Forall2_app; auto|].
      exists S'', h''. cbn [foldM]. rewrite EL. cbn [bind]. rewrite EA. cbn [bind]. auto.
  Qed.

  Record fl_box (cls : string) (S : structure b64) : Prop := {
    fb_lat : p_lattice S = L;
    fb_dense : dense S;
    fb_count : Z.of_nat (length (sites S None)) = fold_right Z.mul 1%Z k;
    fb_site : forall c, In c (cells k) -> exists loc, get_site S (rank k c) = Some (mkSite cls loc (rank k c)) /\
      dens n loc (fun a => placeR (nth (s a) c 0%Z) (z a));
    fb_all : forall i x, get_site S i = Some x -> exists c, In c (cells k) /\ i = rank k c;
    fb_in : forall x, In x (sites S None) <-> get_site S (s_id x) = Some x;
    fb_land : forall v X x w, dens n v X -> (forall a, (a < n)%nat -> (Z.abs (x a) <= NB)%Z) ->
      (forall a, (a < n)%nat -> Rabs (X a - (IZR (x a) + IZR (z a) / 1000)) <= / 1048576) -> (forall a, (a < n)%nat -> lands (N a) (flag a) (x a) (z a) (X a) (w a)) ->
      (forall c, In c (cells k) -> matches c w -> id_at FA S v = Ok (Some (rank k c))) /\
      ((forall c, In c (cells k) -> ~ matches c w) -> id_at FA S v = Ok None);
    fb_hist : exists h, Inv FA L h S /\ Forall2 (goodc cls) (cells k) h
  }.
  Lemma cells_incell c : In c (cells k) <-> incell c.
  Proof.
    rewrite cells_In. unfold incell. split.
    - intros H. assert (Lc : length c = length k) by (clear -H; induction H; simpl; auto). split; [congruence|].
      intros i Hi. rewrite <- Lk in Hi. clear -H Hi. revert i Hi. induction H as [|x m c k E H IH]; intros [|i] Hi; simpl in *; try lia. apply IH. lia.
    - rewrite <- Lk. clear. revert c. induction k as [|m k' IH]; intros [|x c] [E H]; try discriminate; constructor.
      + apply (H 0%nat). simpl; lia.
      + apply IH. split; [simpl in E; lia|]. intros i Hi. apply (H (S i)). simpl; lia.
  Qed.
  Lemma pos_k : Forall (fun a => 0 < a)%Z k.
  Proof.
    apply Forall_forall. intros m Hm. destruct (In_nth _ _ 0%Z Hm) as (i & Hi & <-). rewrite Lk in Hi. destruct (Hs i Hi) as [H1 H2].
    pose proof (HN (s i) H1) as B. rewrite HNk, H2 in B by auto. lia.
  Qed.
  Lemma box_of cls S h : Inv FA L h S -> Forall2 (goodc cls) (cells k) h -> fl_box cls S.
  Proof.
    intros I G. pose proof pos_k as Pk. assert (LH : length h = length (cells k)) by (symmetry; clear -G; induction G; simpl; auto).
    assert (GS : forall c, In c (cells k) -> exists loc, get_site S (rank k c) = Some (mkSite cls loc (rank k c)) /\ dens n loc (fun a => placeR (nth (s a) c 0%Z) (z a))).
    { intros c HC. pose proof (cells_nth k _ Pk HC) as NT. pose proof (rank_bound _ _ HC) as RB.
      assert (GE : exists e, nth_error h (Z.to_nat (rank k c)) = Some e /\ goodc cls c e).
      { clear -G NT. revert NT. generalize (Z.to_nat (rank k c)). induction G as [|c' e cs h Gc G IH]; intros p E; [destruct p; discriminate|].
        destruct p; simpl in *; [injection E as ->; eauto|eauto]. }
      destruct GE as (e & Ee & (u & ks & -> & D1 & _)).
      pose proof (get_site_nth FA L h S (Z.to_nat (rank k c)) I) as GN. rewrite Ee in GN. cbn [option_map fst snd] in GN.
      rewrite Z2Nat.id in GN by lia. eexists. split; [exact GN|]. auto. }
    assert (CNT : Z.of_nat (length (sites S None)) = fold_right Z.mul 1%Z k).
    { rewrite (sites_list FA L h S I), map_length. unfold enumerate. rewrite enumerate_from_length, LH. apply (cells_count _ Pk). }
    pose proof (inv_dense FA L h S I) as DS.
    assert (INX : forall x, In x (sites S None) <-> get_site S (s_id x) = Some x).
    { intros x. rewrite (inv_get_site FA L h S (s_id x) x I). tauto. }
    constructor; auto.
    - apply I.
    - intros i x Gx. apply (inv_get_site FA L h S i x I) in Gx as [Hx <-]. pose proof (dense_id S x DS Hx) as RB. rewrite CNT in RB.
      assert (LT : (Z.to_nat (s_id x) < length (cells k))%nat) by (pose proof (cells_count _ Pk); lia).
      destruct (nth_error (cells k) (Z.to_nat (s_id x))) as [c|] eqn:E; [|apply nth_error_None in E; lia]. exists c.
      pose proof (nth_error_In _ _ E) as Hc. split; auto. pose proof (cells_nth k _ Pk Hc) as E2. pose proof (rank_bound _ _ Hc).
      assert (Z.to_nat (s_id x) = Z.to_nat (rank k c)) by (apply (proj1 (NoDup_nth_error (cells k)) (cells_NoDup k)); [auto|congruence]). lia.
    - intros v X x w Dv Bx HX C. destruct (transformed_axis h S v X x w I Dv Bx HX C) as (u & ks & _ & T & _ & K1).
      unfold id_at, site_at. rewrite T. cbn [bind]. pose proof I as (_ & _ & _ & _ & EL). rewrite EL. unfold enumerate.
      assert (SM : Forall small (cells k)) by (apply Forall_forall; intros c Hc; now apply incell_small, cells_incell).
      assert (WB : forall a, (a < n)%nat -> (Z.abs (w a) <= M30)%Z).
      { intros a Ha. apply (lands_bound _ _ _ _ _ _ (HN a Ha)) with (2 := C a Ha). specialize (Bx a Ha). unfold NB, M30 in *. lia. }
      split.
      + intros c Hc M. pose proof (cells_nth k _ Pk Hc) as NT. pose proof (rank_bound _ _ Hc) as RB.
        rewrite (look_some cls (cells k) h ks w G SM K1 WB (cells_NoDup k) _ 0%Z c NT M).
        rewrite Z2Nat.id, Z.add_0_l by lia. destruct (GS c Hc) as (loc & -> & _). reflexivity.
      + intros NM. rewrite (look_none cls (cells k) h ks w G SM K1 WB NM 0%Z). reflexivity.
    - exists h. auto.
  Qed.
  Lemma build_axis cls loc : (forall c, incell c -> exists v, loc c = Ok v /\ fits v c) ->
    exists S, foldM (fun S c => do l <- loc c; add_site_or_raise FA S (cls, l)) (cells k) (struct_init L) = Ok S /\ fl_box cls S.
  Proof.
    intros HC. destruct (fold_axis cls loc HC (cells k) [] [] (struct_init L)) as (S & h & EF & I & G); auto.
    - apply Inv_init.
    - apply (cells_NoDup k).
    - apply Forall_forall. intros c Hc. now apply cells_incell.
    - exists S. split; auto. now apply (box_of cls S h).
  Qed.
End Axis.
