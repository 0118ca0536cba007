(** Vectors of real numbers as lists, linear combinations, and the linear
    algebra the lattice proofs need.  Nothing here refers to the repository or
    to its model. *)
From Coq Require Import Reals Lra.
From Verif Require Import Prelude Arith.
Open Scope R_scope.

Notation vec := (list R) (only parsing).

Definition vplus (u v : vec) : vec := zipwith Rplus u v.
Definition vminus (u v : vec) : vec := zipwith Rminus u v.
Definition vscale (k : R) (v : vec) : vec := map (Rmult k) v.
Definition vzero (n : nat) : vec := repeat 0 n.
Fixpoint vdot (u v : vec) : R :=
  match u, v with x :: u', y :: v' => x * y + vdot u' v' | _, _ => 0 end.
Definition vlength (v : vec) : R := sqrt (vdot v v).

(** [c_1 * v_1 + ... + c_k * v_k] for vectors of width [n]. *)
Fixpoint lincomb (n : nat) (c : vec) (vs : list vec) : vec :=
  match c, vs with x :: c', v :: vs' => vplus (vscale x v) (lincomb n c' vs') | _, _ => vzero n end.

Definition widths (n : nat) (vs : list vec) : Prop := Forall (fun v => length v = n) vs.

(** [n] linearly independent vectors of dimension [n]. *)
Definition independent (n : nat) (vs : list vec) : Prop :=
  forall c, length c = length vs -> lincomb n c vs = vzero n -> c = vzero (length vs).
Definition basis (n : nat) (vs : list vec) : Prop :=
  length vs = n /\ widths n vs /\ independent n vs.

Lemma zipwith_length {A B C} (f : A -> B -> C) l m :
  length l = length m -> length (zipwith f l m) = length l.
Proof. revert m; induction l; destruct m; simpl; intros; try discriminate; auto. Qed.

Lemma zipwith_length_min {A B C} (f : A -> B -> C) l m :
  length (zipwith f l m) = Nat.min (length l) (length m).
Proof. revert m; induction l; destruct m; simpl; intros; auto. Qed.

Lemma zipwith_nth {A B C} (f : A -> B -> C) l m i :
  nth_error (zipwith f l m) i =
  match nth_error l i, nth_error m i with Some x, Some y => Some (f x y) | _, _ => None end.
Proof.
  revert m i; induction l; destruct m, i; simpl; auto; destruct (nth_error l i); reflexivity.
Qed.

Lemma vplus_length u v : length u = length v -> length (vplus u v) = length u.
Proof. apply zipwith_length. Qed.
Lemma vminus_length u v : length u = length v -> length (vminus u v) = length u.
Proof. apply zipwith_length. Qed.
Lemma vscale_length k v : length (vscale k v) = length v.
Proof. apply map_length. Qed.
Lemma vzero_length n : length (vzero n) = n.
Proof. apply repeat_length. Qed.

Lemma vplus_comm u v : vplus u v = vplus v u.
Proof. revert v; induction u; destruct v; simpl; auto. unfold vplus in *; simpl; f_equal; [ring|auto]. Qed.
Lemma vplus_assoc u v w : vplus u (vplus v w) = vplus (vplus u v) w.
Proof.
  revert v w; induction u; destruct v, w; simpl; auto. unfold vplus in *; simpl; f_equal; [ring|auto].
Qed.
Lemma vplus_zero_r n u : length u = n -> vplus u (vzero n) = u.
Proof.
  revert n; induction u; intros n L; simpl in *; subst; simpl; auto.
  unfold vplus, vzero in *; simpl; f_equal; [ring|apply IHu; reflexivity].
Qed.
Lemma vplus_zero_l n u : length u = n -> vplus (vzero n) u = u.
Proof. intros; rewrite vplus_comm; now apply vplus_zero_r. Qed.
Lemma vscale_plus k u v : vscale k (vplus u v) = vplus (vscale k u) (vscale k v).
Proof. revert v; induction u; destruct v; simpl; auto. unfold vscale, vplus in *; simpl; f_equal; [ring|auto]. Qed.
Lemma vscale_scale a b u : vscale a (vscale b u) = vscale (a * b) u.
Proof. unfold vscale; rewrite map_map; apply map_ext; intros; ring. Qed.
Lemma vscale_add a b u : vscale (a + b) u = vplus (vscale a u) (vscale b u).
Proof. induction u; simpl; auto. unfold vscale, vplus in *; simpl; f_equal; [ring|auto]. Qed.
Lemma vscale_zero u : vscale 0 u = vzero (length u).
Proof. induction u; simpl; auto. unfold vscale, vzero in *; simpl; f_equal; [ring|auto]. Qed.
Lemma vscale_one u : vscale 1 u = u.
Proof. unfold vscale; rewrite <- (map_id u) at 2; apply map_ext; intros; ring. Qed.
Lemma vscale_vzero k n : vscale k (vzero n) = vzero n.
Proof. unfold vscale, vzero; induction n; simpl; f_equal; [ring|auto]. Qed.
Lemma vplus_vzero n : vplus (vzero n) (vzero n) = vzero n.
Proof. apply vplus_zero_r, vzero_length. Qed.
Lemma vminus_as_plus u v : length u = length v -> vminus u v = vplus u (vscale (-1) v).
Proof.
  revert v; induction u; destruct v; simpl; intros; try discriminate; auto.
  unfold vminus, vplus, vscale in *; simpl; f_equal; [ring|auto].
Qed.
Lemma vminus_self u : vminus u u = vzero (length u).
Proof. induction u; simpl; auto. unfold vminus, vzero in *; simpl; f_equal; [ring|auto]. Qed.
Lemma vminus_eq u v : length u = length v -> vminus u v = vzero (length u) -> u = v.
Proof.
  revert v; induction u; destruct v; simpl; intros; try discriminate; auto.
  unfold vminus, vzero in *; simpl in *. injection H0 as E1 E2. f_equal; [lra|auto].
Qed.
Lemma vplus_cancel_l u v w : length v = length u -> length w = length u -> vplus u v = vplus u w -> v = w.
Proof.
  revert v w; induction u; destruct v, w; simpl; intros; try discriminate; auto.
  injection H1 as E1 E2. f_equal; [lra|apply IHu; auto].
Qed.
Lemma vplus_minus u v : length u = length v -> vplus v (vminus u v) = u.
Proof.
  revert v; induction u; destruct v; simpl; intros; try discriminate; auto.
  unfold vplus, vminus in *; simpl; f_equal; [ring|auto].
Qed.
Lemma vminus_plus u v : length u = length v -> vminus (vplus u v) v = u.
Proof.
  revert v; induction u; destruct v; simpl; intros; try discriminate; auto.
  unfold vplus, vminus in *; simpl; f_equal; [ring|auto].
Qed.

Lemma widths_nil n : widths n []. Proof. constructor. Qed.
Lemma widths_cons n v vs : widths n (v :: vs) <-> length v = n /\ widths n vs.
Proof. apply Forall_cons_iff. Qed.
Lemma widths_app n vs ws : widths n (vs ++ ws) <-> widths n vs /\ widths n ws.
Proof. apply Forall_app. Qed.

Lemma lincomb_length n c vs : widths n vs -> length (lincomb n c vs) = n.
Proof.
  revert vs; induction c; destruct vs; simpl; intros W; try apply vzero_length.
  apply widths_cons in W as [W1 W2]. rewrite vplus_length; rewrite vscale_length; auto.
  rewrite IHc; auto.
Qed.

Lemma lincomb_plus n u v vs : widths n vs -> length u = length v ->
  lincomb n (vplus u v) vs = vplus (lincomb n u vs) (lincomb n v vs).
Proof.
  revert v vs; induction u; destruct v, vs; simpl; intros W L; try discriminate; try (symmetry; apply vplus_vzero).
  apply widths_cons in W as [W1 W2]. injection L as L.
  change (lincomb n (vplus (a :: u) (r :: v)) (l :: vs)) with (vplus (vscale (a + r) l) (lincomb n (vplus u v) vs)).
  rewrite IHu, vscale_add; auto.
  rewrite <- !vplus_assoc; f_equal. rewrite !vplus_assoc; f_equal. apply vplus_comm.
Qed.

Lemma lincomb_scale n k u vs : lincomb n (vscale k u) vs = vscale k (lincomb n u vs).
Proof.
  revert vs; induction u; destruct vs; simpl; try (symmetry; apply vscale_vzero).
  rewrite IHu, vscale_plus, vscale_scale; auto.
Qed.

Lemma lincomb_vzero n k vs : widths n vs -> lincomb n (vzero k) vs = vzero n.
Proof.
  revert vs; induction k; destruct vs; simpl; auto. intros W. apply widths_cons in W as [W1 W2].
  rewrite IHk, vscale_zero, W1; auto. apply vplus_vzero.
Qed.

Lemma lincomb_minus n u v vs : widths n vs -> length u = length v ->
  lincomb n (vminus u v) vs = vminus (lincomb n u vs) (lincomb n v vs).
Proof.
  intros W L. rewrite !vminus_as_plus; auto; [|rewrite !lincomb_length; auto].
  rewrite lincomb_plus; auto; [|rewrite vscale_length; auto]. now rewrite lincomb_scale.
Qed.

Lemma lincomb_app n c1 c2 vs1 vs2 : length c1 = length vs1 -> widths n vs1 -> widths n vs2 ->
  lincomb n (c1 ++ c2) (vs1 ++ vs2) = vplus (lincomb n c1 vs1) (lincomb n c2 vs2).
Proof.
  revert vs1; induction c1; destruct vs1; simpl; intros L W1 W2; try discriminate.
  - rewrite vplus_zero_l; auto. now apply lincomb_length.
  - apply widths_cons in W1 as [W0 W1]. rewrite IHc1; auto. now rewrite vplus_assoc.
Qed.

(** Composition of linear maps: [lincomb (lincomb v M) J] is the combination of
    the rows [lincomb row J]. *)
Lemma lincomb_lincomb n k v M J : widths n M -> widths k J -> length J = n ->
  lincomb k (lincomb n v M) J = lincomb k v (map (fun r => lincomb k r J) M).
Proof.
  intros WM WJ LJ. revert M WM; induction v; destruct M; simpl; intros; try (apply lincomb_vzero; auto).
  apply widths_cons in WM as [W1 W2].
  rewrite lincomb_plus; auto; [|rewrite vscale_length, lincomb_length; auto].
  now rewrite lincomb_scale, IHv.
Qed.

(** Standard basis vectors. *)
Fixpoint unit (n j : nat) : vec :=
  match n with
  | O => []
  | S n' => match j with O => 1 :: vzero n' | S j' => 0 :: unit n' j' end
  end.
Definition idmat (n : nat) : list vec := map (unit n) (seq 0 n).

Lemma unit_length n j : length (unit n j) = n.
Proof. revert j; induction n; destruct j; simpl; auto. f_equal; apply vzero_length. Qed.
Lemma idmat_widths n : widths n (idmat n).
Proof. apply Forall_map, Forall_forall. intros; apply unit_length. Qed.
Lemma idmat_length n : length (idmat n) = n.
Proof. unfold idmat; now rewrite map_length, seq_length. Qed.

Lemma lincomb_cons0 n c vs : length c = length vs -> lincomb (S n) c (map (cons 0) vs) = 0 :: lincomb n c vs.
Proof.
  revert vs; induction c; destruct vs; simpl; intros L; try discriminate; auto.
  rewrite IHc; auto. unfold vplus, vscale; simpl. f_equal. ring.
Qed.

Lemma lincomb_id n v : length v = n -> lincomb n v (idmat n) = v.
Proof.
  revert v; induction n; destruct v; simpl; intros L; try discriminate; auto. injection L as L.
  unfold idmat. simpl. rewrite <- seq_shift, map_map. simpl.
  rewrite <- (map_map (unit n) (cons 0)).
  rewrite lincomb_cons0; [|rewrite map_length, seq_length; auto].
  fold (idmat n). rewrite IHn; auto. unfold vscale, vplus; simpl. fold vplus. f_equal; [ring|].
  fold (vscale r (vzero n)). rewrite vscale_vzero. now apply vplus_zero_l.
Qed.

(** More vectors than dimensions: some non-trivial combination vanishes. *)
Lemma first_nonzero (vs : list vec) n : widths (S n) vs ->
  (Forall (fun v => hd 0 v = 0) vs) \/
  exists l1 v l2, vs = l1 ++ v :: l2 /\ hd 0 v <> 0.
Proof.
  induction vs as [|v vs IH]; intros W; [left; constructor|].
  apply widths_cons in W as [W1 W2].
  destruct (Req_dec (hd 0 v) 0) as [E|E].
  - destruct (IH W2) as [A|(l1 & w & l2 & E1 & E2)]; [left; constructor; auto|].
    right. exists (v :: l1), w, l2. subst; auto.
  - right. exists [], v, vs. auto.
Qed.

(** Subtract from each vector the multiple of [p] that clears its first entry. *)
Definition clear (p v : vec) : vec := vplus v (vscale (- (hd 0 v / hd 0 p)) p).

Lemma lincomb_clear n p c vs : length p = n -> widths n vs -> length c = length vs ->
  lincomb n c (map (clear p) vs) =
  vplus (lincomb n c vs) (vscale (vdot c (map (fun v => - (hd 0 v / hd 0 p)) vs)) p).
Proof.
  intros Lp. revert vs; induction c; destruct vs; simpl; intros W L; try discriminate.
  - rewrite vscale_zero, Lp. symmetry; apply vplus_vzero.
  - apply widths_cons in W as [W1 W2]. injection L as L. rewrite IHc; auto. unfold clear at 1.
    rewrite vscale_plus, vscale_scale, vscale_add, <- !vplus_assoc. f_equal.
    rewrite !vplus_assoc. rewrite (vplus_comm (vscale _ p) (lincomb n c vs)).
    reflexivity.
Qed.

Lemma dependent n vs : widths n vs -> (n < length vs)%nat ->
  exists c, length c = length vs /\ lincomb n c vs = vzero n /\ c <> vzero (length vs).
Proof.
  revert vs; induction n; intros vs W L.
  - exists (repeat 1 (length vs)). split; [apply repeat_length|]. split.
    + pose proof (lincomb_length 0 (repeat 1 (length vs)) vs W) as E.
      destruct (lincomb 0 _ vs); [reflexivity|discriminate].
    + destruct vs; simpl in *; [lia|]. unfold vzero; simpl. intros E; injection E as E _. lra.
  - assert (TL : forall ws, widths (S n) ws -> widths n (map (@tl R) ws)).
    { intros ws Ww. apply Forall_map. eapply Forall_impl; [|exact Ww]. intros v Lv; destruct v; simpl in *; lia. }
    destruct (first_nonzero vs n W) as [Z|(l1 & p & l2 & E & N)].
    + destruct (IHn (map (@tl R) vs) (TL _ W)) as (c & Lc & E & Nz); [rewrite map_length; lia|].
      rewrite map_length in Lc, Nz. exists c. split; auto. split; auto.
      assert (vs = map (cons 0) (map (@tl R) vs)) as ->.
      { rewrite map_map. clear -W Z. induction vs; simpl; auto.
        apply widths_cons in W as [W1 W2]. inversion Z; subst. f_equal; auto.
        destruct a; simpl in *; [discriminate|]. now subst. }
      rewrite lincomb_cons0; [|rewrite map_length; auto]. rewrite E. reflexivity.
    + subst vs. apply widths_app in W as [W1 W2]. apply widths_cons in W2 as [Wp W2].
      rewrite app_length in L; simpl in L.
      set (rest := map (clear p) (l1 ++ l2)).
      assert (Wr : widths (S n) rest).
      { apply Forall_map, Forall_forall. intros v Hv. unfold clear.
        assert (length v = S n).
        { apply in_app_or in Hv as [Hv|Hv]; [exact (proj1 (Forall_forall _ _) W1 v Hv)|exact (proj1 (Forall_forall _ _) W2 v Hv)]. }
        rewrite vplus_length; rewrite ?vscale_length; congruence. }
      assert (Zr : Forall (fun v => hd 0 v = 0) rest).
      { apply Forall_map, Forall_forall. intros v Hv.
        assert (length v = S n).
        { apply in_app_or in Hv as [Hv|Hv]; [exact (proj1 (Forall_forall _ _) W1 v Hv)|exact (proj1 (Forall_forall _ _) W2 v Hv)]. }
        destruct v; [discriminate|]. destruct p; [discriminate|]. unfold clear; simpl in *. field. exact N. }
      destruct (IHn (map (@tl R) rest) (TL _ Wr)) as (c & Lc & E & Nz).
      { unfold rest. rewrite !map_length, app_length. lia. }
      rewrite map_length in Lc, Nz.
      assert (Er : lincomb (S n) c rest = vzero (S n)).
      { assert (rest = map (cons 0) (map (@tl R) rest)) as ->.
        { rewrite map_map. clear -Wr Zr. induction rest; simpl; auto.
          apply widths_cons in Wr as [W1 W2]. inversion Zr; subst. f_equal; auto.
          destruct a; simpl in *; [discriminate|]. now subst. }
        rewrite lincomb_cons0; [|rewrite map_length; auto]. rewrite E. reflexivity. }
      unfold rest in Er. rewrite lincomb_clear in Er; auto;
        [|apply widths_app; auto|unfold rest in Lc; rewrite map_length in Lc; auto].
      set (k := vdot c _) in Er.
      assert (Lc' : length c = (length l1 + length l2)%nat).
      { rewrite Lc. unfold rest. rewrite map_length, app_length. reflexivity. }
      rewrite <- (firstn_skipn (length l1) c) in Er.
      assert (L1 : length (firstn (length l1) c) = length l1) by (rewrite firstn_length; lia).
      assert (L2 : length (skipn (length l1) c) = length l2) by (rewrite skipn_length; lia).
      rewrite lincomb_app in Er; auto.
      exists (firstn (length l1) c ++ k :: skipn (length l1) c). split; [|split].
      * rewrite !app_length. simpl. lia.
      * rewrite lincomb_app; auto; [|apply widths_cons; auto]. simpl.
        rewrite <- Er. rewrite <- vplus_assoc. f_equal. apply vplus_comm.
      * intros Ez. apply Nz. rewrite <- (firstn_skipn (length l1) c).
        assert (Hall : forall x, In x (firstn (length l1) c ++ k :: skipn (length l1) c) -> x = 0).
        { intros x Hx. rewrite Ez in Hx. apply repeat_spec in Hx. auto. }
        assert (Hc : forall x, In x c -> x = 0).
        { intros x Hx. apply Hall. rewrite <- (firstn_skipn (length l1) c) in Hx.
          apply in_app_or in Hx. apply in_or_app. simpl. tauto. }
        rewrite firstn_skipn. rewrite <- Lc. clear -Hc. unfold vzero. induction c; simpl; auto.
        f_equal; [apply Hc; simpl; auto|apply IHc; intros; apply Hc; simpl; auto].
Qed.

(** [J] is the inverse matrix of [M]: row-vector multiplication by one undoes
    multiplication by the other. *)
Definition inverse_of (n : nat) (M J : list vec) : Prop :=
  length M = n /\ widths n M /\ length J = n /\ widths n J /\
  (forall v, length v = n -> lincomb n (lincomb n v M) J = v) /\
  (forall v, length v = n -> lincomb n (lincomb n v J) M = v).

Lemma spans n vs : basis n vs -> forall w, length w = n -> exists c, length c = n /\ lincomb n c vs = w.
Proof.
  intros (L & W & I) w Lw.
  destruct (dependent n (vs ++ [w])) as (c & Lc & E & Nz).
  { apply widths_app. split; auto. apply widths_cons; split; auto. apply widths_nil. }
  { rewrite app_length; simpl; lia. }
  rewrite app_length in Lc; simpl in Lc.
  assert (Hc : c = firstn n c ++ [nth n c 0]).
  { rewrite <- (firstn_skipn n c) at 1. f_equal. clear -Lc L. subst n.
    assert (length (skipn (length vs) c) = 1%nat) by (rewrite skipn_length; lia).
    rewrite <- (firstn_skipn (length vs) c) at 2.
    rewrite app_nth2; rewrite firstn_length; [|lia].
    replace (length vs - Nat.min (length vs) (length c))%nat with 0%nat by lia.
    destruct (skipn (length vs) c) as [|x [|]]; simpl in *; auto; lia. }
  set (c1 := firstn n c) in *. set (k := nth n c 0) in *.
  assert (L1 : length c1 = n) by (unfold c1; rewrite firstn_length; lia).
  rewrite Hc, lincomb_app in E; auto; try congruence; [|apply widths_cons; split; [auto|apply widths_nil]].
  simpl in E. rewrite (vplus_zero_r n) in E; [|rewrite vscale_length; auto].
  assert (k <> 0) as Nk.
  { intros K. rewrite K, vscale_zero, Lw in E. rewrite vplus_zero_r in E; [|apply lincomb_length; auto].
    apply I in E; [|congruence]. apply Nz. rewrite Hc, E, K, app_length, L. simpl. unfold vzero.
    now rewrite repeat_app. }
  exists (vscale (- / k) c1). split; [now rewrite vscale_length|].
  rewrite lincomb_scale.
  assert (lincomb n c1 vs = vscale (- k) w) as ->.
  { pose proof (lincomb_length n c1 vs W) as Ll.
    apply vplus_cancel_l with (u := vscale k w); rewrite ?vscale_length; try congruence.
    rewrite vplus_comm, E, <- vscale_add. replace (k + - k) with 0 by ring. now rewrite vscale_zero, Lw. }
  rewrite vscale_scale. replace (- / k * - k) with 1; [apply vscale_one|field; auto].
Qed.

Lemma basis_inverse n vs : basis n vs -> exists J, inverse_of n vs J.
Proof.
  intros B. pose proof B as (L & W & I).
  assert (exists J, Forall2 (fun c w => length c = n /\ lincomb n c vs = w) J (idmat n)) as [J HJ].
  { assert (forall ws, widths n ws -> exists J, Forall2 (fun c w => length c = n /\ lincomb n c vs = w) J ws) as H.
    { induction ws; intros Ww; [exists []; constructor|]. apply widths_cons in Ww as [Wa Ww].
      destruct (IHws Ww) as [J HJ]. destruct (spans n vs B a Wa) as (c & H1 & H2).
      exists (c :: J). constructor; auto. }
    apply H, idmat_widths. }
  assert (LJ : length J = n).
  { transitivity (length (idmat n)); [|apply idmat_length]. clear -HJ; induction HJ; simpl; auto. }
  assert (WJ : widths n J).
  { clear -HJ. unfold widths. induction HJ; constructor; tauto. }
  assert (MJ : map (fun r => lincomb n r vs) J = idmat n).
  { clear -HJ. induction HJ; simpl; auto. destruct H. f_equal; auto. }
  assert (R2 : forall v, length v = n -> lincomb n (lincomb n v J) vs = v).
  { intros v Lv. rewrite lincomb_lincomb; auto. rewrite MJ. now apply lincomb_id. }
  exists J. repeat split; auto. intros v Lv.
  pose proof (lincomb_length n v vs W) as L1. pose proof (lincomb_length n (lincomb n v vs) J WJ) as L2.
  apply vminus_eq; [congruence|]. rewrite L2. replace (vzero n) with (vzero (length vs)) by (now rewrite L). apply I.
  { rewrite vminus_length; congruence. }
  rewrite lincomb_minus; auto; [|congruence]. rewrite R2; auto. now rewrite vminus_self, L1.
Qed.

Lemma inverse_unique n M J K : inverse_of n M J -> inverse_of n M K -> J = K.
Proof.
  intros (LM & WM & LJ & WJ & H1 & H2) (_ & _ & LK & WK & H3 & H4).
  assert (E : forall v, length v = n -> lincomb n v J = lincomb n v K).
  { intros v Lv. rewrite <- (H3 (lincomb n v J)); [|apply lincomb_length; auto]. rewrite H2; auto. }
  assert (U : forall Q, length Q = n -> widths n Q -> Q = map (fun u => lincomb n u Q) (idmat n)).
  { clear. intros Q LQ WQ. subst n.
    assert (forall (pre Q : list vec) n, widths n (pre ++ Q) ->
       Q = map (fun u => lincomb n u (pre ++ Q)) (map (unit (length (pre ++ Q))) (seq (length pre) (length Q)))) as H.
    { clear. intros pre Q; revert pre; induction Q; intros pre n W; auto. simpl. f_equal.
      - clear IHQ. induction pre as [|x pre IH]; simpl.
        + rewrite vscale_one. apply widths_cons in W as [W1 W2]. rewrite lincomb_vzero; auto.
          now rewrite vplus_zero_r.
        + simpl in W; apply widths_cons in W as [W1 W2]. rewrite <- IH; auto.
          rewrite vscale_zero, W1. apply widths_app in W2 as [_ W2]. apply widths_cons in W2 as [W2 _].
          now rewrite vplus_zero_l.
      - specialize (IHQ (pre ++ [a]) n). rewrite <- app_assoc in IHQ; simpl in IHQ.
        rewrite (IHQ W) at 1. replace (length (pre ++ [a])) with (S (length pre)) by (rewrite app_length; simpl; lia). reflexivity. }
    apply (H [] Q). exact WQ. }
  rewrite (U J), (U K); auto. apply map_ext_in. intros u Hu. apply E.
  exact (proj1 (Forall_forall _ _) (idmat_widths n) u Hu).
Qed.

Lemma inverse_basis n M J : inverse_of n M J -> basis n M.
Proof.
  intros (LM & WM & LJ & WJ & H1 & H2). repeat split; auto.
  intros c Lc E. rewrite <- (H1 c); [|congruence]. rewrite E, lincomb_vzero; auto; congruence.
Qed.

(** Lengths. *)
Lemma vdot_nonneg v : 0 <= vdot v v.
Proof. induction v; simpl; [lra|]. pose proof (Rle_0_sqr a). unfold Rsqr in *. lra. Qed.
Lemma vdot_scale k v : vdot (vscale k v) (vscale k v) = k * k * vdot v v.
Proof.
  induction v as [|x v IH]; [simpl; ring|]. change (vscale k (x :: v)) with (k * x :: vscale k v).
  simpl. rewrite IH. ring.
Qed.
Lemma vlength_nonneg v : 0 <= vlength v. Proof. apply sqrt_pos. Qed.
Lemma vlength_opp v : vlength (vscale (-1) v) = vlength v.
Proof. unfold vlength. rewrite vdot_scale. f_equal. ring. Qed.
Lemma vdot_vzero n : vdot (vzero n) (vzero n) = 0.
Proof. induction n; simpl; auto. unfold vzero in *. simpl. rewrite IHn. ring. Qed.
