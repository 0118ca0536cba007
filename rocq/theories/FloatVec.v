(** Vectors and axis-parallel matrices in binary64. *)
From Coq Require Import Reals Lra Psatz.
From Flocq Require Import Core BinarySingleNaN.
From Verif Require Import Prelude Arith RealArith FloatArith LatticeModel SpecFloat64 FloatFacts FloatCoord FloatGrid.
Local Open Scope R_scope.

Local Notation fz := (f_ofZ 0).

Lemma zipwith_length {A B C} (f : A -> B -> C) u : forall v, length u = length v -> length (zipwith f u v) = length u.
Proof. induction u as [|x u IH]; intros [|y v] E; try discriminate; simpl; auto. Qed.
Lemma nth_zipwith {A B C} (f : A -> B -> C) da db dc u : forall v a, length u = length v -> (a < length u)%nat ->
  nth a (zipwith f u v) dc = f (nth a u da) (nth a v db).
Proof. induction u as [|x u IH]; intros [|y v] [|a] E L; try discriminate; simpl in *; auto; try lia. apply IH; lia. Qed.
Lemma nth_map' {A B} (f : A -> B) da db u : forall a, (a < length u)%nat -> nth a (map f u) db = f (nth a u da).
Proof. induction u as [|x u IH]; intros [|a] L; simpl in *; auto; try lia. apply IH; lia. Qed.
Lemma nth_seq_map {B} (f : nat -> B) n a d : (a < n)%nat -> nth a (map f (seq 0 n)) d = f a.
Proof. intros L. rewrite (nth_map' f 0%nat) by (now rewrite seq_length). now rewrite seq_nth. Qed.
Lemma map_nth_seq {A} (d : A) l : map (fun p => nth p l d) (seq 0 (length l)) = l.
Proof.
  apply nth_ext with d d; [now rewrite map_length, seq_length|]. intros a La. rewrite map_length, seq_length in La.
  now rewrite nth_seq_map.
Qed.
Lemma nth_skipn' {A} (d : A) k : forall l a, nth a (skipn k l) d = nth (k + a) l d.
Proof. induction k as [|k IH]; intros [|x l] a; simpl; auto. destruct a; auto. Qed.

(** The float vector [v] of length [n] denotes [x]. *)
Definition dens (n : nat) (v : list b64) (x : nat -> R) : Prop :=
  length v = n /\ forall a, (a < n)%nat -> denotes (nth a v fz) (x a).

Lemma comb_length w v : forall M, (forall r, In r M -> length r = w) -> length (comb FA w v M) = w.
Proof.
  induction v as [|x v IH]; intros [|r M] H; cbn [comb]; try apply repeat_length.
  rewrite zipwith_length; rewrite map_length; [apply H; simpl; auto|]. rewrite IH; [apply H; simpl; auto|]. intros r' Hr. apply H. simpl; auto.
Qed.
Lemma comb_cons w x v r M a : length r = w -> (forall r, In r M -> length r = w) -> (a < w)%nat ->
  nth a (comb FA w (x :: v) (r :: M)) fz = f_add (f_mul x (nth a r fz)) (nth a (comb FA w v M) fz).
Proof.
  intros Er HM La. cbn [comb a_add a_mul FA]. rewrite (nth_zipwith _ fz fz); [|rewrite map_length, comb_length; auto|rewrite map_length; lia].
  rewrite (nth_map' _ fz) by lia. reflexivity.
Qed.
Lemma comb_zero w a : (a < w)%nat -> forall v M, length v = length M -> (forall r, In r M -> length r = w) ->
  (forall i, (i < length M)%nat -> (exists x, denotes (nth i v fz) x) /\ denotes (nth a (nth i M []) fz) 0) ->
  denotes (nth a (comb FA w v M) fz) 0.
Proof.
  intros La. induction v as [|x v IH]; intros [|r M] E W H; try discriminate.
  - cbn [comb zeros]. unfold zeros. cbn [a_ofZ FA]. rewrite nth_repeat. apply den_0.
  - rewrite comb_cons; auto; [|apply W; simpl; auto|intros; apply W; simpl; auto].
    destruct (H 0%nat ltac:(simpl; lia)) as ((y & Dy) & Dr). cbn [nth] in Dy, Dr.
    apply den_add0r; auto using rnd_0, zero_big; [apply (den_mul0r _ _ _ Dy Dr)|].
    apply IH; [simpl in E; lia|intros; apply W; simpl; auto|]. intros i Hi. apply (H (S i)). simpl; lia.
Qed.
Lemma comb_one w a : (a < w)%nat -> forall v M i0 x y, length v = length M -> (forall r, In r M -> length r = w) ->
  (i0 < length M)%nat -> denotes (nth i0 v fz) x -> denotes (nth a (nth i0 M []) fz) y -> Rabs (x * y) <= IZR (2 ^ 50) ->
  (forall i, (i < length M)%nat -> i <> i0 -> (exists x, denotes (nth i v fz) x) /\ denotes (nth a (nth i M []) fz) 0) ->
  denotes (nth a (comb FA w v M) fz) (rnd (x * y)).
Proof.
  intros La. induction v as [|x' v IH]; intros [|r M] i0 x y E W L0 Dx Dy B H; try discriminate; [simpl in L0; lia|].
  rewrite comb_cons; auto; [|apply W; simpl; auto|intros; apply W; simpl; auto].
  assert (B' : Rabs (rnd (x * y)) <= big) by (now apply rnd_big).
  assert (B2 : Rabs (x * y) <= big) by (apply small_big; eapply Rle_trans; [exact B|apply IZR_le; discriminate]).
  destruct i0 as [|i0]; cbn [nth] in Dx, Dy.
  - apply den_add0r; auto using rnd_idem; [now apply denotes_mul|].
    apply comb_zero; auto; [intros; apply W; simpl; auto|]. intros i Hi. apply (H (S i)); simpl; lia.
  - destruct (H 0%nat ltac:(simpl; lia) ltac:(lia)) as ((z & Dz) & Dr). cbn [nth] in Dz, Dr.
    apply den_add0l; auto using rnd_idem; [apply (den_mul0r _ _ _ Dz Dr)|].
    apply (IH M i0); auto; [intros; apply W; simpl; auto|simpl in L0; lia|]. intros i Hi Ni. apply (H (S i)); simpl; lia.
Qed.

(** * Gauss-Jordan elimination of an axis-parallel matrix *)

(** A row of the extended matrix: [val] in column [col] of the left half,
    [rval] in column [rcol] of the right half, zero elsewhere. *)
Record rowd := mkRowd { col : nat; val_ : R; rcol : nat; rval : R }.
Definition entry (n : nat) (d : rowd) (j : nat) : R :=
  if Nat.eqb j (col d) then val_ d else if Nat.eqb j (n + rcol d) then rval d else 0.
Definition rowden (n : nat) (r : list b64) (d : rowd) : Prop :=
  (col d < n)%nat /\ (rcol d < n)%nat /\ 1 <= val_ d <= 1048576 /\ rnd (val_ d) = val_ d /\ Rabs (rval d) <= 1 /\ rnd (rval d) = rval d /\
  dens (n + n) r (entry n d).
Definition dd : rowd := mkRowd 0 1 0 1.
Definition rowsden (n : nat) (rows : list (list b64)) (ds : nat -> rowd) : Prop :=
  length rows = n /\ forall i, (i < n)%nat -> rowden n (nth i rows []) (ds i).

Lemma entry_ok n d j : rowden n [] d \/ (exists r, rowden n r d) -> rnd (entry n d j) = entry n d j /\ Rabs (entry n d j) <= big.
Proof.
  assert (H : forall r, rowden n r d -> rnd (entry n d j) = entry n d j /\ Rabs (entry n d j) <= big).
  { intros r (_ & _ & V & RV & W & RW & _). unfold entry. destruct (Nat.eqb j (col d)).
    - split; auto. apply small_big. rewrite Rabs_pos_eq by lra. simpl. lra.
    - destruct (Nat.eqb j (n + rcol d)); split; auto using rnd_0, zero_big. apply small_big. simpl. lra. }
  intros [X|[r X]]; eauto.
Qed.

Lemma pivot_stay k rows : forall i best bv y, denotes bv y -> 0 <= y ->
  (forall p, (p < length rows)%nat -> denotes (nth k (nth p rows []) fz) 0) -> pivot k i best bv rows = best.
Proof.
  induction rows as [|r rows IH]; intros i best bv y Dy Hy H; auto. cbn [pivot].
  pose proof (H 0%nat ltac:(simpl; lia)) as D0. cbn [nth] in D0.
  rewrite (denotes_ltb _ _ y (Rabs 0) Dy (denotes_abs _ _ D0)), Rabs_R0, Rlt_bool_false by lra.
  apply (IH _ _ _ y); auto. intros p Hp. apply (H (S p)). simpl; lia.
Qed.
Lemma pivot_find k rows : forall i q y best, (q < length rows)%nat -> denotes (nth k (nth q rows []) fz) y -> 0 < y ->
  (forall p, (p < length rows)%nat -> p <> q -> denotes (nth k (nth p rows []) fz) 0) -> pivot k i best fz rows = (i + q)%nat.
Proof.
  induction rows as [|r rows IH]; intros i q y best Hq Dq Py H; [simpl in Hq; lia|]. cbn [pivot]. destruct q as [|q]; cbn [nth] in Dq.
  - rewrite (denotes_ltb _ _ 0 (Rabs y) den_0 (denotes_abs _ _ Dq)), Rlt_bool_true by (rewrite Rabs_pos_eq; lra).
    rewrite (pivot_stay k rows (S i) i _ (Rabs y)); [lia|now apply denotes_abs|apply Rabs_pos|]. intros p Hp. apply (H (S p)); simpl; lia.
  - pose proof (H 0%nat ltac:(simpl; lia) ltac:(lia)) as D0. cbn [nth] in D0.
    rewrite (denotes_ltb _ _ 0 (Rabs 0) den_0 (denotes_abs _ _ D0)), Rabs_R0, Rlt_bool_false by lra.
    rewrite (IH (S i) q y); auto; [lia|simpl in Hq; lia|]. intros p Hp Np. apply (H (S p)); simpl; lia.
Qed.

(** One step on descriptions: rows [k] and [p] change places, the new row [k]
    is divided by its entry. *)
Definition dswap (k p i : nat) : nat := if Nat.eqb i k then p else if Nat.eqb i p then k else i.
Definition dstep (k p : nat) (ds : nat -> rowd) (i : nat) : rowd :=
  let d := ds (dswap k p i) in
  if Nat.eqb i k then mkRowd (col d) 1 (rcol d) (rnd (rval d / val_ d)) else d.

Lemma elim_step n k p rows ds : rowsden n rows ds -> (k <= p < n)%nat -> col (ds p) = k ->
  (forall i, (i < n)%nat -> i <> p -> col (ds i) <> k) ->
  exists rows', eliminate k rows = Ok rows' /\ rowsden n rows' (dstep k p ds).
Proof.
  intros [Ln R] Hp Ek NK. unfold eliminate.
  assert (EP : pivot k k k fz (skipn k rows) = p).
  { destruct (R p ltac:(lia)) as (_ & _ & V & _ & _ & _ & Lr & D).
    replace p with (k + (p - k))%nat by lia. apply (pivot_find k (skipn k rows) k (p - k) (val_ (ds p))).
    - rewrite skipn_length. lia.
    - rewrite nth_skipn'. replace (k + (p - k))%nat with p by lia. specialize (D k ltac:(lia)). unfold entry in D. now rewrite Ek, Nat.eqb_refl in D.
    - lra.
    - intros q Hq Nq. rewrite skipn_length in Hq. rewrite nth_skipn'. destruct (R (k + q)%nat ltac:(lia)) as (_ & _ & _ & _ & _ & _ & _ & D').
      specialize (D' k ltac:(lia)). unfold entry in D'. specialize (NK (k + q)%nat ltac:(lia) ltac:(lia)).
      destruct (Nat.eqb_spec k (col (ds (k + q)%nat))); [congruence|]. destruct (Nat.eqb_spec k (n + rcol (ds (k + q)%nat))); [lia|]. exact D'. }
  rewrite EP. set (rows1 := swap k p rows).
  assert (L1 : length rows1 = n) by (unfold rows1, swap; rewrite map_length, seq_length; auto).
  assert (R1 : forall i, (i < n)%nat -> rowden n (nth i rows1 []) (ds (dswap k p i))).
  { intros i Hi. unfold rows1, swap. rewrite Ln, nth_seq_map by auto. unfold dswap.
    destruct (Nat.eqb i k); [apply R; lia|]. destruct (Nat.eqb i p); apply R; lia. }
  assert (Sk : dswap k p k = p) by (unfold dswap; now rewrite Nat.eqb_refl).
  assert (NK1 : forall i, (i < n)%nat -> i <> k -> col (ds (dswap k p i)) <> k).
  { intros i Hi Ni. unfold dswap. destruct (Nat.eqb_spec i k); [congruence|]. destruct (Nat.eqb_spec i p); apply NK; lia. }
  pose proof (R1 k ltac:(lia)) as Rk. rewrite Sk in Rk. pose proof Rk as (Ck & CRk & Vk & RVk & Wk & RWk & Lk & Dk).
  assert (Pk : denotes (nth k (nth k rows1 []) fz) (val_ (ds p))).
  { specialize (Dk k ltac:(lia)). unfold entry in Dk. now rewrite Ek, Nat.eqb_refl in Dk. }
  rewrite (denotes_eqb _ _ (val_ (ds p)) 0 Pk den_0), Req_bool_false by lra.
  eexists. split; [reflexivity|]. rewrite L1. split; [now rewrite map_length, seq_length|]. intros i Hi. rewrite nth_seq_map by auto.
  assert (INV : 0 < / val_ (ds p) <= 1).
  { split; [apply Rinv_0_lt_compat; lra|]. rewrite <- Rinv_1. apply Rinv_le_contravar; lra. }
  assert (NW : Rabs (rval (ds p) / val_ (ds p)) <= 1).
  { apply Rle_trans with (1 * 1); [|lra]. apply Rabs_prod; auto. rewrite Rabs_pos_eq; lra. }
  assert (BW : Rabs (rnd (rval (ds p) / val_ (ds p))) <= 1).
  { apply Rabs_bnd in NW. apply Rabs_le. pose proof (rnd_le _ _ (proj1 NW)) as A1. pose proof (rnd_le _ _ (proj2 NW)) as A2.
    assert (U1 : rnd 1 = 1) by (apply (rnd_IZR 1); reflexivity). assert (U2 : rnd (- (1)) = - (1)) by (replace (- (1)) with (IZR (-1)) by (simpl; lra); apply rnd_IZR; reflexivity).
    rewrite U2 in A1. rewrite U1 in A2. lra. }
  assert (PD : forall j, (j < n + n)%nat -> denotes (nth j (map (fun x => f_div x (nth k (nth k rows1 []) fz)) (nth k rows1 [])) fz)
      (entry n (mkRowd (col (ds p)) 1 (rcol (ds p)) (rnd (rval (ds p) / val_ (ds p)))) j)).
  { intros j Hj. rewrite (nth_map' _ fz) by lia. specialize (Dk j Hj). unfold entry in *. cbn [col val_ rcol rval].
    destruct (Nat.eqb j (col (ds p))); [apply (den_div_self _ _ (val_ (ds p))); auto; lra|].
    destruct (Nat.eqb j (n + rcol (ds p))); [|apply (den_div0 _ _ (val_ (ds p))); auto; lra].
    apply denotes_div; auto; [lra|]. apply small_big. simpl. lra. }
  unfold dstep. destruct (Nat.eqb_spec i k) as [->|Ni].
  - rewrite Sk. unfold rowden. cbn [col val_ rcol rval]. split; auto. split; auto. split; [lra|]. split; [apply (rnd_IZR 1); reflexivity|]. split; auto.
    split; [apply rnd_idem|]. split; [now rewrite map_length|]. exact PD.
  - pose proof (R1 i Hi) as Ri. pose proof Ri as (Ci & CRi & Vi & RVi & Wi & RWi & Li & Di). unfold rowden. do 6 (split; auto).
    split; [rewrite zipwith_length; rewrite ?map_length; lia|]. intros j Hj.
    rewrite (nth_zipwith _ fz fz); [|rewrite map_length; lia|lia].
    assert (Z0 : denotes (nth k (nth i rows1 []) fz) 0).
    { specialize (Di k ltac:(lia)). unfold entry in Di. specialize (NK1 i Hi Ni).
      destruct (Nat.eqb_spec k (col (ds (dswap k p i)))); [congruence|]. destruct (Nat.eqb_spec k (n + rcol (ds (dswap k p i)))); [lia|]. exact Di. }
    destruct (entry_ok n (ds (dswap k p i)) j) as [E1 E2]; [right; eauto|].
    apply den_sub0; auto. apply (den_mul0l _ _ _ Z0 (PD j Hj)).
Qed.

(** The matrix with [N a] in column [a] of row [s a]. *)
Definition axis_matrix (n : nat) (s : nat -> nat) (N : nat -> Z) (M : list (list b64)) : Prop :=
  length M = n /\ forall i, (i < n)%nat -> dens n (nth i M []) (fun a => if Nat.eqb i (s a) then IZR (N a) else 0).
(** Its inverse. *)
Definition axis_inverse (n : nat) (s : nat -> nat) (N : nat -> Z) (W : list (list b64)) : Prop :=
  length W = n /\ forall a, (a < n)%nat -> dens n (nth a W []) (fun i => if Nat.eqb i (s a) then rnd (1 / IZR (N a)) else 0).

Lemma extended n t N M : length M = n -> (forall i, (i < n)%nat -> (t i < n)%nat) -> (forall a, (a < n)%nat -> (1 <= N a <= M20)%Z) ->
  (forall i, (i < n)%nat -> dens n (nth i M []) (fun a => if Nat.eqb a (t i) then IZR (N a) else 0)) ->
  rowsden n (map (fun i => nth i M [] ++ map (fun j => f_ofZ (if Nat.eqb i j then 1 else 0)) (seq 0 n)) (seq 0 n))
    (fun i => mkRowd (t i) (IZR (N (t i))) i 1).
Proof.
  intros LM Ht HN HM. split; [now rewrite map_length, seq_length|]. intros i Hi. rewrite nth_seq_map by auto.
  destruct (HM i Hi) as [Li Di]. pose proof (HN (t i) (Ht i Hi)) as Hk. pose proof (N_bounds _ Hk) as B. destruct (big20 _ Hk) as (_ & RN & _).
  unfold rowden. cbn [col val_ rcol rval]. split; [now apply Ht|]. split; auto. split; auto. split; auto. split; [rewrite Rabs_pos_eq; lra|].
  split; [apply (rnd_IZR 1); reflexivity|]. split; [rewrite app_length, map_length, seq_length; lia|]. intros j Hj. unfold entry. cbn [col val_ rcol rval].
  destruct (Nat.lt_ge_cases j n) as [Lj|Lj].
  - rewrite app_nth1 by lia. specialize (Di j Lj). cbn beta in Di. destruct (Nat.eqb_spec j (t i)) as [Ej|]; [subst j; auto|].
    destruct (Nat.eqb_spec j (n + i)); [lia|auto].
  - rewrite app_nth2 by lia. rewrite Li, nth_seq_map by lia. specialize (Ht i Hi). destruct (Nat.eqb_spec j (t i)); [lia|].
    destruct (Nat.eqb_spec i (j - n)); destruct (Nat.eqb_spec j (n + i)); try lia; auto using den_0, den_1.
Qed.

Lemma finished n W ds : rowsden n W ds -> forall s N, (forall a, (a < n)%nat -> rcol (ds a) = s a /\ rval (ds a) = rnd (1 / IZR (N a)) /\ (col (ds a) < n)%nat) ->
  axis_inverse n s N (map (skipn n) W).
Proof.
  intros [LW R] s N H. split; [now rewrite map_length|]. intros a Ha. rewrite (nth_map' _ []) by lia.
  destruct (R a Ha) as (C & CR & _ & _ & _ & _ & L & D). split; [rewrite skipn_length; lia|]. intros i Hi. rewrite nth_skipn'.
  specialize (D (n + i)%nat ltac:(lia)). unfold entry in D. destruct (H a Ha) as (E1 & E2 & _). rewrite E1, E2 in D.
  destruct (Nat.eqb_spec (n + i) (col (ds a))); [lia|]. destruct (Nat.eqb_spec (n + i) (n + s a)); destruct (Nat.eqb_spec i (s a)); try lia; auto.
Qed.

(** Elimination once the rows are in order. *)
Definition st (s : nat -> nat) (N : nat -> Z) (k i : nat) : rowd :=
  if Nat.ltb i k then mkRowd i 1 (s i) (rnd (1 / IZR (N i))) else mkRowd i (IZR (N i)) (s i) 1.
Lemma in_order n s N : forall len k rows, (k + len = n)%nat -> rowsden n rows (st s N k) ->
    exists W, foldM (fun rows k => eliminate k rows) (seq k len) rows = Ok W /\ rowsden n W (st s N n).
Proof.
  induction len as [|len IH]; intros k rows E R.
  - replace k with n in R by lia. exists rows. auto.
  - cbn [seq foldM]. destruct (elim_step n k k rows (st s N k) R) as (rows' & E1 & R1); [lia|unfold st; rewrite Nat.ltb_irrefl; reflexivity| |].
    { intros i Hi Ni. unfold st. destruct (Nat.ltb i k); simpl; lia. }
    rewrite E1. cbn [bind]. apply (IH (S k)); [lia|]. destruct R1 as [L1 R1]. split; auto. intros i Hi. specialize (R1 i Hi).
    replace (st s N (S k) i) with (dstep k k (st s N k) i); auto. unfold dstep, dswap. destruct (Nat.eqb_spec i k) as [->|Ni].
    + unfold st. rewrite Nat.ltb_irrefl. replace (Nat.ltb k (S k)) with true by (symmetry; apply Nat.ltb_lt; lia). reflexivity.
    + unfold st. replace (Nat.ltb i (S k)) with (Nat.ltb i k); auto. destruct (Nat.ltb_spec i k); destruct (Nat.ltb_spec i (S k)); auto; lia.
Qed.
Lemma in_order_end n s N W : rowsden n W (st s N n) -> axis_inverse n s N (map (skipn n) W).
Proof.
  intros R. apply (finished n W (st s N n)); auto.
  intros a Ha. unfold st. replace (Nat.ltb a n) with true by (symmetry; now apply Nat.ltb_lt). auto.
Qed.

(** Diagonal matrices of any size. *)
Lemma diagonal_inverse n N M : (forall a, (a < n)%nat -> (1 <= N a <= M20)%Z) -> axis_matrix n (fun a => a) N M ->
  exists W, f_inv M = Ok W /\ axis_inverse n (fun a => a) N W.
Proof.
  intros HN [LM HM]. unfold f_inv. rewrite LM.
  pose proof (extended n (fun i => i) N M LM (fun i H => H) HN) as E0.
  set (aug := map _ (seq 0 n)) in *. destruct (in_order n (fun a => a) N n 0%nat aug) as (W & EW & RW); [lia| |].
  { apply E0. intros i Hi. destruct (HM i Hi) as [L D]. split; auto. intros a Ha. specialize (D a Ha). cbn beta in D. rewrite Nat.eqb_sym. exact D. }
  rewrite EW. cbn [bind]. eexists. split; [reflexivity|]. now apply in_order_end.
Qed.

(** The first two rows exchanged. *)
Definition sw (a : nat) : nat := match a with 0 => 1 | 1 => 0 | a => a end%nat.
Lemma sw_sw a : sw (sw a) = a. Proof. destruct a as [|[|a]]; reflexivity. Qed.
Lemma sw_lt n a : (2 <= n)%nat -> (a < n)%nat -> (sw a < n)%nat. Proof. destruct a as [|[|a]]; simpl; lia. Qed.
Lemma sw_eqb i a : Nat.eqb i (sw a) = Nat.eqb a (sw i).
Proof. apply Bool.eq_true_iff_eq. rewrite !Nat.eqb_eq. split; intros ->; now rewrite sw_sw. Qed.
Lemma swapped_inverse n N M : (2 <= n)%nat -> (forall a, (a < n)%nat -> (1 <= N a <= M20)%Z) -> axis_matrix n sw N M ->
  exists W, f_inv M = Ok W /\ axis_inverse n sw N W.
Proof.
  intros H2 HN [LM HM]. unfold f_inv. rewrite LM.
  pose proof (extended n sw N M LM (fun i => sw_lt n i H2) HN) as E0.
  set (aug := map _ (seq 0 n)) in *. assert (R0 : rowsden n aug (fun i => mkRowd (sw i) (IZR (N (sw i))) i 1)).
  { apply E0. intros i Hi. destruct (HM i Hi) as [L D]. split; auto. intros a Ha. specialize (D a Ha). cbn beta in D. rewrite sw_eqb in D. exact D. }
  destruct n as [|n]; [lia|]. cbn [seq foldM].
  destruct (elim_step (S n) 0 1 aug _ R0) as (rows & ER & RR); [lia|reflexivity| |].
  { intros i Hi Ni. destruct i as [|[|i]]; simpl; lia. }
  rewrite ER. cbn [bind].
  destruct (in_order (S n) sw N n 1%nat rows) as (W & EW & RW); [lia| |].
  { destruct RR as [L R]. split; auto. intros i Hi. specialize (R i Hi). destruct i as [|[|i]]; exact R. }
  rewrite EW. cbn [bind]. eexists. split; [reflexivity|]. now apply in_order_end.
Qed.
