(** Facts about square grids. *)
From Coq Require Import Reals Lra Permutation.
From Verif Require Import Prelude Dict Arith RVec RealArith LatticeModel JsonModel StructModel NbModel GridModel
  SpecGeom SpecNb SpecGrid LatticeFacts LatticeMore StructFacts StructMore StructBuild NbFacts NbMore NbDemo.
Local Open Scope Z_scope.

(** * A build as a history of calls *)
Lemma foldM_adds {F} (A : arith F) l : forall s s', foldM (add_site_or_raise A) l s = Ok s' ->
  exists outs, adds A s l = (s', outs) /\ accepted l outs = l.
Proof.
  induction l as [|[c p] l IH]; intros s s' E; cbn [foldM] in E.
  - injection E as <-. exists []. auto.
  - apply bind_Ok in E as (s1 & E1 & E). unfold add_site_or_raise in E1. destruct (add_site A s (fst (c, p)) (snd (c, p))) as [s2 [i|e]] eqn:EA; [|discriminate].
    injection E1 as ->. destruct (IH _ _ E) as (outs & E2 & E3). exists (Ok i :: outs). cbn [adds]. rewrite EA. cbn [fst snd].
    rewrite E2. split; auto. simpl. now rewrite E3.
Qed.

(** * Positions in the list of cells *)
Fixpoint rank (k c : list Z) : Z :=
  match k, c with
  | _ :: t, i :: c' => i * fold_right Z.mul 1 t + rank t c'
  | _, _ => 0
  end.
Definition wrap_to (k p : list Z) : list Z := zipwith (fun m a => a mod m) k p.

Lemma prod_pos k : Forall (fun a => 0 < a) k -> 0 < fold_right Z.mul 1 k.
Proof. induction 1; simpl; lia. Qed.
Lemma rank_bound k c : In c (cells k) -> 0 <= rank k c < fold_right Z.mul 1 k.
Proof.
  revert c; induction k as [|m t IH]; intros c H; simpl in H.
  - destruct H as [<-|[]]. simpl. lia.
  - apply in_flat_map in H as (i & Hi & H). apply in_map_iff in H as (c' & <- & H). apply zrange_In in Hi. apply IH in H. simpl. nia.
Qed.
Lemma nth_flat_map_const {B C} (f : B -> list C) (n : nat) l i j x y :
  (forall b, In b l -> length (f b) = n) -> nth_error l i = Some x -> nth_error (f x) j = Some y ->
  nth_error (flat_map f l) (i * n + j) = Some y.
Proof.
  revert i; induction l as [|b l IH]; intros [|i] HL Hx Hy; try discriminate; simpl in Hx.
  - injection Hx as ->. simpl. rewrite nth_error_app1; auto. apply nth_error_Some. congruence.
  - simpl. rewrite nth_error_app2; rewrite HL by (simpl; auto); [|lia].
    replace (n + i * n + j - n)%nat with (i * n + j)%nat by lia. apply IH; auto. intros; apply HL; simpl; auto.
Qed.
Lemma zrange_nth a b i : (i < Z.to_nat (b - a))%nat -> nth_error (zrange a b) i = Some (a + Z.of_nat i).
Proof.
  intros H. unfold zrange. rewrite nth_error_map. rewrite (nth_error_nth' _ 0%nat) by (rewrite seq_length; lia).
  rewrite seq_nth by lia. reflexivity.
Qed.
Lemma cells_nth k c : Forall (fun a => 0 < a) k -> In c (cells k) -> nth_error (cells k) (Z.to_nat (rank k c)) = Some c.
Proof.
  intros P; revert c; induction P as [|m t Pm Pt IH]; intros c H; simpl in H.
  - destruct H as [<-|[]]. reflexivity.
  - apply in_flat_map in H as (i & Hi & H). apply in_map_iff in H as (c' & <- & H). apply zrange_In in Hi.
    pose proof (rank_bound _ _ H) as RB. pose proof (cells_count t Pt) as CC. simpl.
    replace (Z.to_nat (i * fold_right Z.mul 1 t + rank t c')) with (Z.to_nat i * length (cells t) + Z.to_nat (rank t c'))%nat by nia.
    eapply nth_flat_map_const with (x := i).
    + intros; apply map_length.
    + rewrite zrange_nth by lia. f_equal. lia.
    + rewrite nth_error_map, (IH c' H). reflexivity.
Qed.
Lemma rank_inj k c c' : Forall (fun a => 0 < a) k -> In c (cells k) -> In c' (cells k) -> rank k c = rank k c' -> c = c'.
Proof. intros P H H' E. apply cells_nth in H, H'; auto. rewrite E in H. congruence. Qed.
Lemma wrap_cells k p : Forall (fun a => 0 < a) k -> length p = length k -> In (wrap_to k p) (cells k).
Proof.
  intros P; revert p; induction P as [|m t Pm Pt IH]; destruct p as [|a p]; intros L; try discriminate; [simpl; auto|].
  change (wrap_to (m :: t) (a :: p)) with (a mod m :: wrap_to t p). simpl. apply in_flat_map. exists (a mod m). split; [apply zrange_In; apply Z.mod_pos_bound; auto|]. apply in_map. apply IH. simpl in L. lia.
Qed.
Lemma wrap_fix k c : In c (cells k) -> wrap_to k c = c.
Proof.
  revert c; induction k as [|m t IH]; intros c H; simpl in H.
  - destruct H as [<-|[]]. auto.
  - apply in_flat_map in H as (i & Hi & H). apply in_map_iff in H as (c' & <- & H). apply zrange_In in Hi. unfold wrap_to in *. simpl.
    rewrite IH by auto. rewrite Z.mod_small by lia. auto.
Qed.
Lemma wrap_eq k p q : Forall (fun a => 0 < a) k -> length p = length k -> length q = length k ->
  (wrap_to k p = wrap_to k q <-> same_cell k p q).
Proof.
  intros P; revert p q; induction P as [|m t Pm Pt IH]; intros p q Lp Lq.
  - destruct p, q; try discriminate. split; auto. intros _. split; auto. split; auto. intros [|k]; discriminate.
  - destruct p as [|a p], q as [|b q]; try discriminate. simpl in Lp, Lq. unfold wrap_to in *. simpl.
    specialize (IH p q ltac:(lia) ltac:(lia)). split.
    + intros E. injection E as E1 E2. apply IH in E2 as (_ & _ & H). split; [simpl; auto|]. split; [simpl; auto|].
      intros [|k] m' a' b' H1 H2 H3; simpl in *; [|eauto]. injection H1 as <-. injection H2 as <-. injection H3 as <-.
      exists (a / m - b / m). pose proof (Z.div_mod a m). pose proof (Z.div_mod b m). lia.
    + intros (_ & _ & H). f_equal.
      * destruct (H 0%nat m a b eq_refl eq_refl eq_refl) as [z E]. replace a with (b + z * m) by lia. apply Z.mod_add. lia.
      * apply IH. split; [simpl in *; lia|]. split; [simpl in *; lia|]. intros k. apply (H (S k)).
Qed.

(** * What a square grid is *)
Record grid_facts (size : list Z) (s : structure R) (L : lattice R) : Prop := {
  gf_pos : Forall (fun a => 0 < a) size;
  gf_dim : length size = 2%nat \/ length size = 3%nat;
  gf_built : built RA L s;
  gf_on : exists vs, lattice_on (length size) vs (repeat true (length size)) L;
  gf_site : forall c, In c (cells size) ->
    get_site s (rank size c) = Some (mkSite "_A" (at_ (extents c)) (rank size c));
  gf_cell : forall p, length p = length size -> cell s p (rank size (wrap_to size (extents p)));
  gf_count : Z.of_nat (length (sites s None)) = fold_right Z.mul 1 size
}.

Lemma holds_nth n vs per s l m c p : holds_sites n vs per s l -> nth_error l m = Some (c, p) ->
  exists q, periodised n vs per p q /\ nth_error (sites s None) m = Some (mkSite c (map round3 q) (Z.of_nat m)).
Proof.
  unfold holds_sites, enumerate. intros H.
  assert (G : forall l i ss, Forall2 (fun (ip : Z * (string * vec)) x => exists q, periodised n vs per (snd (snd ip)) q /\
             x = mkSite (fst (snd ip)) (map round3 q) (fst ip)) (enumerate_from i l) ss ->
     forall m, nth_error l m = Some (c, p) -> exists q, periodised n vs per p q /\ nth_error ss m = Some (mkSite c (map round3 q) (i + Z.of_nat m))).
  { clear. induction l as [|x l IH]; intros i ss H m E; [destruct m; discriminate|]. simpl in H.
    inversion H as [|? y ? t Hx Ht]; subst. destruct m as [|m]; simpl in E.
    - injection E as ->. destruct Hx as (q & P & ->). exists q. split; auto. simpl. now rewrite Z.add_0_r.
    - destruct (IH _ _ Ht m E) as (q & P & E'). exists q. split; auto. simpl. rewrite E'. do 2 f_equal. lia. }
  intros E. destruct (G _ _ _ H m E) as (q & P & E'). eauto.
Qed.
Lemma round3_at p : map round3 (at_ p) = at_ p.
Proof. unfold at_. rewrite map_map. apply map_ext. intros. apply round3_IZR. Qed.
Lemma dense_nth {F} (s : structure F) m x : dense s -> nth_error (sites s None) m = Some x -> s_id x = Z.of_nat m.
Proof.
  intros D E. assert (X : nth_error (map s_id (sites s None)) m = Some (s_id x)) by (rewrite nth_error_map, E; auto).
  rewrite D in X. assert (m < length (sites s None))%nat by (apply nth_error_Some; congruence).
  rewrite zrange_nth in X by lia. injection X. lia.
Qed.

Lemma place_at p q : place (at_ p) = place (at_ q) -> p = q.
Proof.
  unfold place, at_. rewrite !map_map. revert q; induction p as [|a p IH]; destruct q as [|b q]; simpl; intros E; try discriminate; auto.
  injection E as E1 E2. f_equal; auto. rewrite !whole_milli in E1. apply eq_IZR. lra.
Qed.
Lemma cells_NoDup k : NoDup (cells k).
Proof.
  rewrite <- box_cells. destruct (C46_lemma (repeat 0 (length k)) k) as (_ & H); [apply repeat_length|]. apply H.
Qed.

(** From a tiling with one site per cell. *)
Lemma grid_from size vs L : let n := length size in
  Forall (fun a => 0 < a) size -> (n = 2%nat \/ n = 3%nat) ->
  lattice_on n vs (repeat true n) L -> symmetric n vs ->
  (forall c, length c = n -> lincomb n (map IZR c) vs = at_ (extents c)) ->
  (forall c, In c (cells size) -> in_cell n (scaled size vs) (repeat true n) (at_ (extents c))) ->
  (forall p, length p = n -> image n (scaled size vs) (repeat true n) (at_ (extents (wrap_to size (extents p)))) (at_ p)) ->
  exists s L', build_from RA L size (MDict [("_A"%string, [vzero n])]) false = Ok s /\ grid_facts size s L'.
Proof.
  intros n Pk Dn HL SY LC IC IM.
  set (m := MDict [("_A"%string, [vzero n])]) in *.
  set (t := tiling size (motif_dict m) (cart_place n vs)).
  assert (MO : motif_ok n m).
  { intros c l v [E|[]] Hv. injection E as <- <-. destruct Hv as [<-|[]]. apply vzero_length. }
  assert (ET : t = map (fun c => ("_A"%string, at_ (extents c))) (cells size)).
  { unfold t, tiling. simpl.
    assert (G : forall l, (forall c, In c l -> length c = n) ->
       flat_map (fun c => [("_A"%string, cart_place n vs c (vzero n))]) l = map (fun c => ("_A"%string, at_ (extents c))) l).
    { induction l as [|c l IH]; intros H; simpl; auto. rewrite IH by (intros; apply H; simpl; auto). do 2 f_equal.
      unfold cart_place. rewrite LC by (apply H; simpl; auto). unfold at_. rewrite vplus_zero_r; auto.
      rewrite map_length. assert (Lc : length c = n) by (apply H; simpl; auto). clear -Lc Dn.
      destruct c as [|x [|y c]]; simpl in *; auto. }
    apply G. intros c Hc. now apply cells_length. }
  destruct (C33_cartesian_lemma n vs (repeat true n) L size m HL SY eq_refl Pk MO) as [H1 H2]. fold t in H1, H2.
  destruct (build_tiling n vs (repeat true n) L size m false (rows_place vs) HL eq_refl Pk) as (L' & HL' & EF).
  { intros c v Hc Hv. assert (Lc : length c = n) by (now apply cells_length).
    apply motif_vec_in in Hv as (cl & l & Hl & Hv). pose proof (MO _ _ _ Hl Hv) as Lv.
    pose proof (on_length n vs _ L HL) as Lvs. unfold motif_loc, rows_place. change (map (a_ofZ RA) c) with (map IZR c). unfold matvec.
    rewrite (on_matrix n vs _ L HL).
    assert (WV : width vs = length (map IZR c)).
    { rewrite map_length, Lc. pose proof (on_widths n vs _ L HL) as W. pose proof (on_pos n vs _ L HL) as P.
      destruct vs as [|r u]; [simpl in Lvs; lia|]. simpl. apply widths_cons in W. apply W. }
    rewrite WV, Nat.eqb_refl. cbn [bind].
    rewrite (map_ext _ (fun r => vdot r (map IZR c)) (fun r => dot_RA r (map IZR c))). rewrite bcast_eq by (rewrite map_length; congruence). reflexivity. }
  assert (ER : tiling size (motif_dict m) (rows_place vs) = t).
  { unfold t. apply tiling_ext. intros c v Hc. unfold cart_place, rows_place. rewrite SY; auto.
    rewrite map_length. now apply cells_length. }
  rewrite ER in EF.
  assert (LE : forall c, In c (cells size) -> length (at_ (extents c)) = n).
  { intros c Hc. unfold at_. rewrite map_length. apply cells_length in Hc. fold n in Hc. destruct c as [|x [|y c]]; simpl in *; auto. }
  assert (PER : forall c, In c (cells size) -> periodised n (scaled size vs) (repeat true n) (at_ (extents c)) (at_ (extents c))).
  { intros c Hc. split; [|auto]. apply (image_refl n (scaled size vs) (repeat true n) L' HL'). auto. }
  assert (NC : no_collision n (scaled size vs) (repeat true n) t).
  { intros i j c d p q D Hi Hj (p' & q' & P & Q & E). rewrite ET, nth_error_map in Hi, Hj.
    destruct (nth_error (cells size) i) as [a|] eqn:Ea; [|discriminate]. destruct (nth_error (cells size) j) as [b|] eqn:Eb; [|discriminate].
    injection Hi as <- <-. injection Hj as <- <-. pose proof (nth_error_In _ _ Ea) as Ha. pose proof (nth_error_In _ _ Eb) as Hb.
    rewrite (periodised_unique n _ _ L' HL' _ p' _ (LE a Ha) P (PER a Ha)) in E.
    rewrite (periodised_unique n _ _ L' HL' _ q' _ (LE b Hb) Q (PER b Hb)) in E.
    apply place_at in E. assert (a = b).
    { apply cells_length in Ha, Hb. destruct a as [|? [|? ?]], b as [|? [|? ?]]; simpl in *; try lia; congruence. }
    subst b. apply D. eapply NoDup_nth_error; [|apply nth_error_Some; rewrite Ea; discriminate|congruence].
    apply (cells_NoDup size). }
  destruct (H1 NC) as (s & EB & HS & CNT). exists s, L'. split; auto.
  rewrite EF in EB. destruct (foldM_adds RA t _ _ EB) as (outs & EA & EACC).
  assert (HB : built RA L' s) by (exists t; now rewrite EA).
  assert (NTH : forall c, In c (cells size) -> nth_error t (Z.to_nat (rank size c)) = Some ("_A"%string, at_ (extents c))).
  { intros c Hc. rewrite ET, nth_error_map, (cells_nth size c Pk Hc). reflexivity. }
  constructor; auto.
  - exists (scaled size vs). exact HL'.
  - intros c Hc. destruct (holds_nth _ _ _ _ _ _ _ _ HS (NTH c Hc)) as (q & P & E).
    pose proof (rank_bound _ _ Hc) as RB. rewrite Z2Nat.id in E by lia.
    assert (q = at_ (extents c)).
    { eapply (periodised_unique n (scaled size vs) (repeat true n) L' HL'); eauto. }
    subst q. rewrite round3_at in E. apply (built_get L' s HB). split; [eapply nth_error_In; eauto|auto].
  - intros p Lp. unfold cell.
    assert (Le : length (extents p) = length size) by (rewrite <- Lp; destruct p as [|x [|y p]]; auto).
    pose proof (wrap_cells size (extents p) Pk Le) as HW. pose proof (rank_bound _ _ HW) as RB.
    destruct (C29_lemma n (scaled size vs) (repeat true n) L' t s outs HL' EA) as [H _]. rewrite EACC in H.
    destruct (H _ _ _ (at_ p) (NTH _ HW)) as (x & _ & _ & _ & _ & E & _).
    + now apply IM.
    + rewrite E. do 2 f_equal. lia.
  - rewrite CNT. simpl. lia.
Qed.
