(** Proofs about the heap model: in-place writes, copies, isolation. *)
From Verif Require Import Prelude Dict Val ValFacts StateModel ResultModel HeapModel SpecHeap.

(** * Heaps *)

Lemma put_length : forall h l o, length (put h l o) = length h.
Proof. induction h as [|x t IH]; intros [|l] o; cbn [put length]; auto. Qed.

Lemma put_same : forall h l o, (l < length h)%nat -> nth_error (put h l o) l = Some o.
Proof.
  induction h as [|x t IH]; intros [|l] o H; cbn [put nth_error length] in *; try lia; auto.
  apply IH; lia.
Qed.

Lemma put_other : forall h l o m, m <> l -> nth_error (put h l o) m = nth_error h m.
Proof.
  induction h as [|x t IH]; intros [|l] o [|m] H; cbn [put nth_error]; auto; try lia.
Qed.

Lemma put_inv : forall h l o m o', nth_error (put h l o) m = Some o' ->
  (m = l /\ o' = o) \/ (m <> l /\ nth_error h m = Some o').
Proof.
  intros h l o m o' H. destruct (Nat.eq_dec m l) as [->|D].
  - left; split; auto. assert (L : (l < length h)%nat).
    { rewrite <- (put_length h l o). apply nth_error_Some. rewrite H; discriminate. }
    rewrite put_same in H by auto. congruence.
  - right; split; auto. rewrite put_other in H by auto. exact H.
Qed.

Lemma nth_old : forall (h t : heap) l, (l < length h)%nat -> nth_error (h ++ t) l = nth_error h l.
Proof. intros; apply nth_error_app1; auto. Qed.

Lemma nth_lt : forall (h : heap) l o, nth_error h l = Some o -> (l < length h)%nat.
Proof. intros h l o H; apply nth_error_Some; rewrite H; discriminate. Qed.

Lemma nth_new : forall (h : heap) o, nth_error (h ++ [o]) (length h) = Some o.
Proof. intros; rewrite nth_error_app2, Nat.sub_diag by lia; auto. Qed.

(** * Reaching and editing *)

Lemma reach_trans : forall h x y z, reach h x y -> reach h y z -> reach h x z.
Proof. induction 1; auto. intros; eapply reach_next; eauto. Qed.

Lemma reach_last : forall h x y o m, reach h x y -> nth_error h y = Some o ->
  In (HRef m) (children o) -> reach h x m.
Proof.
  intros h x y o m R N I. apply (reach_trans h x y m R). eapply reach_next; eauto. apply reach_here.
Qed.

(** A set that contains the roots and is closed under look-ups contains all that is reached. *)
Lemma reach_closed : forall h (P : nat -> Prop) x y,
  (forall l o m, P l -> nth_error h l = Some o -> In (HRef m) (children o) -> P m) ->
  P x -> reach h x y -> P y.
Proof. intros h P x y CL Px R; induction R; auto. apply IHR. eapply CL; eauto. Qed.

Lemma edits_frame : forall R h R' h', edits R h R' h' ->
  forall x, (x < length h)%nat -> ~ reachable h R x ->
  nth_error h' x = nth_error h x /\ (length h <= length h')%nat /\ ~ reachable h' R' x.
Proof.
  induction 1 as [R h|R h m R' h' Hm E IH|R h o R' h' Ho E IH|R h l o R' h' Hl Ho E IH]; intros x Lx Nx.
  - auto.
  - apply IH; auto. intros (r & [<-|Ir] & Rr).
    + destruct Hm as (r & Ir & Rm). apply Nx. exists r; split; auto. eapply reach_trans; eauto.
    + apply Nx. exists r; auto.
  - destruct (IH x) as (Q1 & Q2 & Q3).
    + rewrite app_length; cbn; lia.
    + intros (r & [<-|Ir] & Rr).
      * assert (P : reachable h R x \/ x = length h).
        { apply (reach_closed (h ++ [o]) (fun p => reachable h R p \/ p = length h) (length h) x); auto.
          intros l o' m [Pl| ->] N I.
          - assert (L : (l < length h)%nat \/ l = length h).
            { apply nth_lt in N. rewrite app_length in N; cbn in N; lia. }
            destruct L as [L| ->].
            + rewrite nth_old in N by auto. left. destruct Pl as (r & Ir & Rr'). exists r; split; auto.
              eapply reach_last; eauto.
            + rewrite nth_new in N. injection N as <-. left; auto.
          - rewrite nth_new in N. injection N as <-. left; auto. }
        destruct P as [P| ->]; [auto|lia].
      * assert (P : reachable h R x \/ x = length h).
        { apply (reach_closed (h ++ [o]) (fun p => reachable h R p \/ p = length h) r x); auto.
          2:{ left; exists r; split; auto; apply reach_here. }
          intros l o' m [Pl| ->] N I.
          - assert (L : (l < length h)%nat \/ l = length h).
            { apply nth_lt in N. rewrite app_length in N; cbn in N; lia. }
            destruct L as [L| ->].
            + rewrite nth_old in N by auto. left. destruct Pl as (r' & Ir' & Rr'). exists r'; split; auto.
              eapply reach_last; eauto.
            + rewrite nth_new in N. injection N as <-. left; auto.
          - rewrite nth_new in N. injection N as <-. left; auto. }
        destruct P as [P| ->]; [auto|lia].
    + rewrite nth_old in Q1 by auto. rewrite app_length in Q2; cbn in Q2.
      repeat split; auto; lia.
  - destruct (IH x) as (Q1 & Q2 & Q3).
    + rewrite put_length; auto.
    + intros (r & Ir & Rr). apply Nx.
      apply (reach_closed (put h l o) (reachable h R) r x); auto.
      2:{ exists r; split; auto; apply reach_here. }
      intros y o' m Py N I. apply put_inv in N as [(-> & ->)|(D & N)]; auto.
      destruct Py as (r' & Ir' & Rr'). exists r'; split; auto. eapply reach_last; eauto.
    + rewrite put_length in Q2. rewrite put_other in Q1.
      * repeat split; auto.
      * intros ->. auto.
Qed.

Lemma edits_trans : forall R h R1 h1 R2 h2, edits R h R1 h1 -> edits R1 h1 R2 h2 -> edits R h R2 h2.
Proof.
  induction 1; auto; intros.
  - eapply edits_hold; eauto.
  - eapply edits_new; eauto.
  - eapply edits_write; eauto.
Qed.

(** * Observations *)

Lemma look_child : forall o k w, look_in o k = Some w -> In w (children o).
Proof.
  intros [d|l|l|v] [k|i|] w H; cbn in *; try discriminate.
  - apply dget_In in H. apply in_map_iff. exists (k, w); auto.
  - eapply nth_error_In; eauto.
  - eapply nth_error_In; eauto.
  - left; congruence.
Qed.

Definition sees (h : heap) (v : hval) (x : nat) : Prop :=
  match v with HRef l => reach h l x | _ => False end.

Lemma observe_local : forall path h h' v,
  (forall x, sees h v x -> nth_error h' x = nth_error h x) ->
  observe h' v path = observe h v path.
Proof.
  induction path as [|k rest IH]; intros h h' v H; destruct v; cbn [observe]; auto.
  - rewrite H; auto. apply reach_here.
  - rewrite H by apply reach_here. destruct (nth_error h l) as [o|] eqn:N; auto.
    destruct (look_in o k) as [w|] eqn:L; auto. apply IH. intros x S. apply H. cbn.
    destruct w as [| | | | |m]; cbn in S; try contradiction.
    eapply reach_next; eauto. eapply look_child; eauto.
Qed.

Lemma dget_map_snd : forall (f : hval -> hval) (d : dict key hval) k,
  dget k (map (fun kv => (fst kv, f (snd kv))) d) = option_map f (dget k d).
Proof.
  intros f d k. induction d as [|[k' v] t IH]; cbn [map dget]; auto. cbn [fst snd].
  destruct (eqb k k'); auto.
Qed.

Lemma look_shift : forall n o k, look_in (shift_obj n o) k = option_map (shift n) (look_in o k).
Proof.
  intros n [d|l|l|v] [k|i|]; cbn; auto.
  - apply dget_map_snd.
  - apply nth_error_map.
  - apply nth_error_map.
Qed.

Lemma shape_shift : forall n o, shape_of (shift_obj n o) = shape_of o.
Proof.
  intros n [d|l|l|v]; cbn; auto; try (rewrite map_length; auto).
  f_equal. rewrite map_map. apply map_ext; auto.
Qed.

Lemma observe_shift : forall path h h' n v,
  (forall l o, nth_error h l = Some o -> nth_error h' (n + l) = Some (shift_obj n o)) ->
  (forall l, sees h v l -> nth_error h l <> None) ->
  observe h' (shift n v) path = observe h v path.
Proof.
  induction path as [|k rest IH]; intros h h' n v H IN; destruct v; cbn [observe shift]; auto.
  - specialize (IN l (reach_here h l)). destruct (nth_error h l) as [o|] eqn:N; [|congruence].
    rewrite (H _ _ N). cbn. rewrite shape_shift; auto.
  - pose proof (IN l (reach_here h l)) as IN0. destruct (nth_error h l) as [o|] eqn:N; [|congruence].
    rewrite (H _ _ N), look_shift. destruct (look_in o k) as [w|] eqn:L; cbn; auto.
    apply IH; auto. intros x S. apply IN. destruct w as [| | | | |m]; cbn in S; try contradiction.
    cbn. eapply reach_next; eauto. eapply look_child; eauto.
Qed.

(** Without dangling references all that is reached exists. *)
Lemma reach_lt : forall h x y, heap_ok h -> (x < length h)%nat -> reach h x y -> (y < length h)%nat.
Proof.
  intros h x y OK Lx R. apply (reach_closed h (fun p => (p < length h)%nat) x y); auto.
  intros l o m _ N I. eapply OK; eauto.
Qed.

(** * Copies *)

Lemma copied_at : forall (h : heap) n l o, n = length h -> nth_error h l = Some o ->
  nth_error (h ++ map (shift_obj n) h) (n + l) = Some (shift_obj n o).
Proof.
  intros h n l o -> N. rewrite nth_error_app2 by lia. replace (length h + l - length h)%nat with l by lia.
  apply map_nth_error; auto.
Qed.

(** What [copy] makes of a state whose [_state] is an object. *)
Lemma copy_shape : forall h s m, nth_error h s = Some (OState (HRef m)) ->
  h_copy h s = Ok ((length h + length h)%nat,
                   (h ++ map (shift_obj (length h)) h) ++ [OState (HRef (length h + m))]).
Proof.
  intros h s m N. unfold h_copy, state_attr. rewrite N. cbn [bind h_state_of deepcopy shift].
  rewrite app_length, map_length. reflexivity.
Qed.

Lemma children_shift : forall n o r, In (HRef r) (children (shift_obj n o)) ->
  exists r0, r = (n + r0)%nat /\ In (HRef r0) (children o).
Proof.
  intros n o r H.
  assert (E : children (shift_obj n o) = map (shift n) (children o)).
  { destruct o; cbn; auto. rewrite !map_map; auto. }
  rewrite E in H. apply in_map_iff in H as (v & Ev & Iv). destruct v; cbn in Ev; try discriminate.
  injection Ev as <-. eauto.
Qed.

(** Objects from location [n] on only refer to objects from [n] on. *)
Definition closed_above (n : nat) (h : heap) : Prop :=
  forall l o r, (n <= l)%nat -> nth_error h l = Some o -> In (HRef r) (children o) -> (n <= r)%nat.

Lemma copy_closed : forall h s m, nth_error h s = Some (OState (HRef m)) ->
  closed_above (length h) ((h ++ map (shift_obj (length h)) h) ++ [OState (HRef (length h + m))]).
Proof.
  intros h s m N l o r L NE I. apply nth_error_split in NE as NE'.
  destruct (Nat.lt_ge_cases l (length h + length h)) as [L2|L2].
  - rewrite nth_old in NE by (rewrite app_length, map_length; lia).
    rewrite nth_error_app2, nth_error_map in NE by lia.
    destruct (nth_error h (l - length h)) as [o0|]; cbn in NE; [|discriminate].
    injection NE as <-. apply children_shift in I as (r0 & -> & _). lia.
  - assert (l = length (h ++ map (shift_obj (length h)) h)) as ->.
    { apply nth_lt in NE. rewrite !app_length, map_length in *. cbn in NE. lia. }
    rewrite nth_new in NE. injection NE as <-. cbn in I. destruct I as [I|[]]. injection I as <-. lia.
Qed.

Lemma reach_above : forall n h x y, closed_above n h -> (n <= x)%nat -> reach h x y -> (n <= y)%nat.
Proof.
  intros n h x y CL Lx R. apply (reach_closed h (fun p => (n <= p)%nat) x y); auto; eauto.
Qed.

(** Old objects keep referring to old objects while they are unchanged. *)
Lemma reach_below : forall h h' x y, heap_ok h ->
  (forall l, (l < length h)%nat -> nth_error h' l = nth_error h l) ->
  (x < length h)%nat -> reach h' x y -> (y < length h)%nat.
Proof.
  intros h h' x y OK SAME Lx R. apply (reach_closed h' (fun p => (p < length h)%nat) x y); auto.
  intros l o m Pl N I. rewrite SAME in N by auto. eapply OK; eauto.
Qed.

Lemma copy_old : forall h s c h1, h_copy h s = Ok (c, h1) ->
  forall l, (l < length h)%nat -> nth_error h1 l = nth_error h l.
Proof.
  intros h s c h1 E l L. unfold h_copy in E. destruct (state_attr h s) as [v|]; cbn [bind] in E; [|discriminate].
  unfold h_state_of, h_new_state, alloc, deepcopy in E.
  destruct v; injection E as <- <-; rewrite <- ?app_assoc; apply nth_old; auto.
Qed.


(** Right after the copy both look the same. *)
Lemma C05_equal_lemma : forall h s m c h1, heap_ok h -> nth_error h s = Some (OState (HRef m)) ->
  h_copy h s = Ok (c, h1) ->
  forall path, observe h1 (HRef c) path = observe h (HRef s) path /\
               observe h1 (HRef s) path = observe h (HRef s) path.
Proof.
  intros h s m c h1 OK N E path. rewrite (copy_shape _ _ _ N) in E. injection E as <- <-.
  pose proof (nth_lt _ _ _ N) as Ls.
  assert (Lm : (m < length h)%nat) by (eapply OK; [exact N|cbn; auto]).
  set (h1 := (h ++ map (shift_obj (length h)) h) ++ [OState (HRef (length h + m))]).
  assert (EQ : nth_error h1 (length h + length h) = Some (OState (HRef (length h + m)))).
  { unfold h1. replace (length h + length h)%nat with (length (h ++ map (shift_obj (length h)) h))
      by (rewrite app_length, map_length; auto). apply nth_new. }
  split.
  - destruct path as [|k rest]; cbn [observe]; rewrite EQ, N; cbn; auto.
    destruct k; auto.
    apply (observe_shift rest h h1 (length h) (HRef m)).
    + intros l o NE. unfold h1. rewrite nth_old.
      * apply copied_at; auto.
      * rewrite app_length, map_length. apply nth_lt in NE; lia.
    + intros l S. cbn in S. apply nth_error_Some. exact (reach_lt h m l OK Lm S).
  - apply observe_local. intros x S. unfold h1. rewrite <- app_assoc. apply nth_old.
    cbn in S. exact (reach_lt h s x OK Ls S).
Qed.

(** A client that holds the copy, and anything else that does not touch the original, never
    changes what the original shows; and the other way round. *)
Lemma C05_copy_lemma : forall h s m c h1 others R h2, heap_ok h ->
  nth_error h s = Some (OState (HRef m)) -> h_copy h s = Ok (c, h1) ->
  (forall r x, In r others -> reach h1 r x -> ~ reach h1 s x) ->
  edits (c :: others) h1 R h2 ->
  forall path, observe h2 (HRef s) path = observe h (HRef s) path.
Proof.
  intros h s m c h1 others R h2 OK N E SEP ED path.
  rewrite <- (proj2 (C05_equal_lemma h s m c h1 OK N E path)).
  apply observe_local. cbn. intros x Rx.
  pose proof (nth_lt _ _ _ N) as Ls.
  assert (Lx : (x < length h)%nat).
  { exact (reach_below h h1 s x OK (copy_old _ _ _ _ E) Ls Rx). }
  rewrite (copy_shape _ _ _ N) in E. injection E as <- <-.
  refine (proj1 (edits_frame _ _ _ _ ED x _ _)).
  - rewrite !app_length. lia.
  - intros (r & [<-|Ir] & Rr).
    + apply reach_above with (n := length h) in Rr; [lia|eapply copy_closed; eauto|lia].
    + apply (SEP r x Ir Rr Rx).
Qed.

Lemma C05_original_lemma : forall h s m c h1 others R h2, heap_ok h ->
  nth_error h s = Some (OState (HRef m)) -> h_copy h s = Ok (c, h1) ->
  (forall r x, In r others -> reach h1 r x -> ~ reach h1 c x) ->
  edits (s :: others) h1 R h2 ->
  forall path, observe h2 (HRef c) path = observe h (HRef s) path.
Proof.
  intros h s m c h1 others R h2 OK N E SEP ED path.
  rewrite <- (proj1 (C05_equal_lemma h s m c h1 OK N E path)).
  apply observe_local. cbn. intros x Rx.
  pose proof (nth_lt _ _ _ N) as Ls.
  assert (Lm : (m < length h)%nat) by (eapply OK; [exact N|cbn; auto]).
  pose proof (copy_old _ _ _ _ E) as OLD.
  pose proof (copy_shape _ _ _ N) as SH. rewrite SH in E. injection E as <- <-.
  set (h1 := (h ++ map (shift_obj (length h)) h) ++ [OState (HRef (length h + m))]) in *.
  assert (Lh : length h1 = (length h + length h + 1)%nat).
  { unfold h1. rewrite !app_length, map_length; cbn; lia. }
  assert (Ox : (length h <= x)%nat) by (eapply reach_above; [eapply copy_closed; eauto| |exact Rx]; lia).
  assert (OK1 : heap_ok h1).
  { intros l o r NE I. rewrite Lh. destruct (Nat.lt_ge_cases l (length h)) as [L|L].
    - rewrite OLD in NE by auto. pose proof (OK _ _ _ NE I). lia.
    - destruct (Nat.lt_ge_cases l (length h + length h)) as [L2|L2].
      + unfold h1 in NE. rewrite nth_old in NE by (rewrite app_length, map_length; lia).
        rewrite nth_error_app2, nth_error_map in NE by lia.
        destruct (nth_error h (l - length h)) as [o0|] eqn:N0; cbn in NE; [|discriminate].
        injection NE as <-. apply children_shift in I as (r0 & -> & I0).
        pose proof (OK _ _ _ N0 I0). lia.
      + assert (l = length (h ++ map (shift_obj (length h)) h)) as ->.
        { apply nth_lt in NE. rewrite Lh in NE. rewrite app_length, map_length. lia. }
        unfold h1 in NE. rewrite nth_new in NE. injection NE as <-. cbn in I. destruct I as [I|[]].
        injection I as <-. lia. }
  refine (proj1 (edits_frame _ _ _ _ ED x _ _)).
  - eapply reach_lt; [exact OK1| |exact Rx]. lia.
  - intros (r & [<-|Ir] & Rr).
    + assert (x < length h)%nat by exact (reach_below h h1 s x OK OLD Ls Rr). lia.
    + apply (SEP r x Ir Rr Rx).
Qed.

(** * The methods that modify a state are such edits *)

Lemma get_dict_inv : forall h v l d, get_dict h v = Ok (l, d) -> v = HRef l /\ nth_error h l = Some (ODict d).
Proof.
  intros h v l d H. destruct v as [| | | | |n]; cbn in H; try discriminate.
  destruct (nth_error h n) as [[d'|?|?|?]|] eqn:N; try discriminate. injection H as <- <-. auto.
Qed.

Ltac inv_bind H :=
  match type of H with
  | bind ?e _ = Ok _ => let x := fresh "x" in let E := fresh "E" in
      destruct e as [x|] eqn:E; cbn [bind] in H; [|discriminate H]
  end.

Lemma reach_dict : forall h R l d v m, reachable h R l -> nth_error h l = Some (ODict d) ->
  In v (map snd d) -> v = HRef m -> reachable h R m.
Proof.
  intros h R l d v m (r & Ir & Rr) N I ->. exists r; split; auto. eapply reach_last; eauto.
Qed.

Lemma dset_vals : forall (d : dict key hval) k v w, In w (map snd (dset k v d)) -> w = v \/ In w (map snd d).
Proof.
  intros d k v w. induction d as [|[k' v'] t IH]; cbn [dset map In]; intros H.
  - destruct H as [H|[]]; cbn in H; auto.
  - destruct (eqb k k'); cbn [map In snd] in H |- *; destruct H as [H|H]; auto.
    apply IH in H as [H|H]; auto.
Qed.

Lemma dmerge_vals : forall (d2 d1 : dict key hval) w, In w (map snd (dmerge d1 d2)) ->
  In w (map snd d1) \/ In w (map snd d2).
Proof.
  unfold dmerge. induction d2 as [|[k v] t IH]; intros d1 w H; cbn [fold_left] in H; auto.
  apply IH in H as [H|H]; cbn [map In snd fst] in *; auto.
  apply dset_vals in H as [->|H]; auto.
Qed.

Lemma dget_vals : forall (d : dict key hval) k v, dget k d = Some v -> In v (map snd d).
Proof. intros d k v H. apply dget_In in H. apply in_map_iff. exists (k, v); auto. Qed.

Lemma reach_mono_new : forall h R o x, reachable h R x -> reachable (h ++ [o]) (length h :: R) x.
Proof.
  intros h R o x (r & Ir & Rr). exists r; split; [right; auto|].
  clear Ir. induction Rr as [l|l o' m x N I Rr IH]; [apply reach_here|].
  apply (reach_next _ l o' m x); auto. rewrite nth_old; auto. exact (nth_lt _ _ _ N).
Qed.

Lemma sites_inv : forall h s v, h_sites h s = Ok v ->
  exists l d, nth_error h s = Some (OState (HRef l)) /\ nth_error h l = Some (ODict d) /\ dget SITES d = Some v.
Proof.
  intros h s v H. unfold h_sites, state_attr in H.
  destruct (nth_error h s) as [[?|?|?|w]|] eqn:N; cbn [bind] in H; try discriminate.
  inv_bind H. destruct x as [l d]. apply get_dict_inv in E as (-> & E). exists l, d.
  repeat split; auto. unfold dgetE in H. destruct (dget SITES d); congruence.
Qed.

Lemma sites_reach : forall h R s l d v m, reachable h R s -> nth_error h s = Some (OState (HRef l)) ->
  nth_error h l = Some (ODict d) -> In v (map snd d) -> v = HRef m -> reachable h R l /\ reachable h R m.
Proof.
  intros h R s l d v m (r & Ir & Rr) N1 N2 I ->.
  assert (L : reach h r l) by (eapply reach_last; [exact Rr|exact N1|cbn; auto]).
  split; exists r; split; auto. eapply reach_last; eauto.
Qed.

Lemma set_site_edits : forall h s id u h' R, reachable h R s -> (forall m, u = HRef m -> reachable h R m) ->
  h_set_site_state h s id u = Ok h' -> exists R', edits R h R' h' /\ forall x, In x R -> In x R'.
Proof.
  intros h s id u h' R Rs Ru H. unfold h_set_site_state in H.
  inv_bind H. inv_bind H. inv_bind H. destruct x1 as [lu upd]. inv_bind H. inv_bind H.
  destruct x2 as [a sd]. cbn in H. injection H as <-.
  apply get_dict_inv in E1 as (-> & Nu). apply get_dict_inv in E3 as (-> & Na).
  apply sites_inv in E2 as (l & d & Ns & Nl & Dl).
  destruct (sites_reach h R s l d _ a Rs Ns Nl (dget_vals _ _ _ Dl) eq_refl) as (Rl & Ra).
  assert (RO : forall m, In (HRef m) (map snd x0) -> reachable h R m).
  { assert (SS : h_sites h s = Ok (HRef a)).
    { unfold h_sites, state_attr. rewrite Ns. cbn [bind]. unfold get_dict. rewrite Nl. cbn [bind].
      unfold dgetE. rewrite Dl. auto. }
    unfold h_get_site_state in E. rewrite SS in E. cbn [bind] in E. unfold get_dict in E at 1. rewrite Na in E.
    cbn [bind] in E. injection E as <-.
    destruct (dget id sd) as [w|] eqn:G; cbn beta iota in E0.
    - intros m I. destruct w as [| | | | |n]; try discriminate.
      + injection E0 as <-. destruct id; cbn in I; destruct I as [I|[]]; discriminate.
      + destruct (get_dict h (HRef n)) as [[n' od]|] eqn:GD; cbn [bind] in E0; [|discriminate].
        apply get_dict_inv in GD as (En & Nn). injection En as <-. injection E0 as <-.
        eapply reach_dict; [|exact Nn|exact I|reflexivity].
        eapply reach_dict; [exact Ra|exact Na|eapply dget_vals; eauto|reflexivity].
    - injection E0 as <-. intros m I. destruct id; cbn in I; destruct I as [I|[]]; discriminate. }
  exists (length h :: R). split; [|intros; right; auto].
  apply edits_new with (o := ODict (dmerge x0 upd)).
  - intros m I. cbn in I. apply dmerge_vals in I as [I|I]; auto.
    eapply reach_dict; [apply Ru; reflexivity|exact Nu|exact I|reflexivity].
  - apply edits_write with (l := a) (o := ODict (dset id (HRef (length h)) sd)).
    + apply reach_mono_new; auto.
    + intros m I. cbn in I. apply dset_vals in I as [I|I].
      * injection I as ->. exists (length h); split; [left; auto|apply reach_here].
      * apply reach_mono_new. eapply reach_dict; [exact Ra|exact Na|exact I|reflexivity].
    + apply edits_none.
Qed.

Lemma set_general_edits : forall h s u h' R, reachable h R s -> (forall m, u = HRef m -> reachable h R m) ->
  h_set_general_state h s u = Ok h' -> exists R', edits R h R' h' /\ forall x, In x R -> In x R'.
Proof.
  intros h s u h' R Rs Ru H. unfold h_set_general_state in H.
  inv_bind H. inv_bind H. destruct x0 as [lo old]. inv_bind H. destruct x0 as [lu upd].
  inv_bind H. inv_bind H. destruct x1 as [st d]. cbn in H. injection H as <-.
  apply get_dict_inv in E0 as (-> & No). apply get_dict_inv in E1 as (-> & Nu).
  apply get_dict_inv in E3 as (-> & Nd).
  unfold h_get_general_state in E. rewrite E2 in E. cbn [bind] in E. unfold get_dict in E. rewrite Nd in E.
  cbn [bind] in E. injection E as E.
  unfold state_attr in E2. destruct (nth_error h s) as [[?|?|?|w]|] eqn:Ns; try discriminate. injection E2 as ->.
  assert (Ro : reachable h R lo).
  { destruct (dget GENERAL d) as [g|] eqn:G; [|discriminate]. subst g.
    eapply (proj2 (sites_reach h R s st d _ lo Rs Ns Nd (dget_vals _ _ _ G) eq_refl)). }
  assert (Rd : reachable h R st).
  { destruct Rs as (r & Ir & Rr). exists r; split; auto. eapply reach_last; [exact Rr|exact Ns|cbn; auto]. }
  exists (length h :: R). split; [|intros; right; auto].
  apply edits_new with (o := ODict (dmerge old upd)).
  - intros m I. cbn in I. apply dmerge_vals in I as [I|I].
    + eapply reach_dict; [exact Ro|exact No|exact I|reflexivity].
    + eapply reach_dict; [apply Ru; reflexivity|exact Nu|exact I|reflexivity].
  - apply edits_write with (l := st) (o := ODict (dset GENERAL (HRef (length h)) d)).
    + apply reach_mono_new; auto.
    + intros m I. cbn in I. apply dset_vals in I as [I|I].
      * injection I as ->. exists (length h); split; [left; auto|apply reach_here].
      * apply reach_mono_new. eapply reach_dict; [exact Rd|exact Nd|exact I|reflexivity].
    + apply edits_none.
Qed.

Lemma set_sites_edits : forall items h s h' R, reachable h R s ->
  (forall k m, In (k, HRef m) items -> reachable h R m) ->
  h_set_sites h s items = Ok h' -> exists R', edits R h R' h' /\ forall x, In x R -> In x R'.
Proof.
  unfold h_set_sites. induction items as [|[k v] t IH]; intros h s h' R Rs Ri H; cbn [foldM] in H.
  - injection H as <-. exists R; split; [apply edits_none|auto].
  - inv_bind H. cbn [fst snd] in E.
    (* keep hold of the state and of every remaining update *)
    assert (HOLD : exists R1, (forall R' h', edits R1 h R' h' -> edits R h R' h') /\
              (forall y, In y R -> In y R1) /\ In s R1 /\ (forall m, v = HRef m -> In m R1) /\
              (forall k m, In (k, HRef m) t -> In m R1)).
    { clear - Rs Ri.
      assert (G : forall l : list (key * hval), (forall k m, In (k, HRef m) l -> reachable h R m) ->
        exists R1, (forall R' h', edits R1 h R' h' -> edits R h R' h') /\
              (forall y, In y R -> In y R1) /\ (forall k m, In (k, HRef m) l -> In m R1)).
      { induction l as [|[k' w] l IHl]; intros HR.
        - exists R; repeat split; auto. intros ? ? [].
        - destruct IHl as (R1 & H1 & H2 & H3). { intros; eapply HR; right; eauto. }
          destruct w as [| | | | |m].
          1,2,3,4,5: exists R1; repeat split; auto; intros k0 m0 [I|I]; [discriminate|eauto].
          exists (m :: R1). repeat split.
          + intros R' h' ED. apply H1. apply edits_hold with (m := m); auto.
            destruct (HR k' m (or_introl eq_refl)) as (r & Ir & Rr). exists r; split; auto.
          + intros; right; auto.
          + intros k0 m0 [I|I]; [left; congruence|right; eauto]. }
      destruct (G ((k, v) :: t) Ri) as (R1 & H1 & H2 & H3).
      exists (s :: R1). repeat split.
      - intros R' h' ED. apply H1. apply edits_hold with (m := s); auto.
        destruct Rs as (r & Ir & Rr). exists r; split; auto.
      - intros; right; auto.
      - left; auto.
      - intros m ->. right. eapply H3. left; reflexivity.
      - intros k0 m I. right. eapply H3. right; eauto. }
    destruct HOLD as (R1 & H1 & H2 & H3 & H4 & H5).
    assert (HERE : forall y, In y R1 -> forall h, reachable h R1 y).
    { intros y Iy h0. exists y; split; auto. apply reach_here. }
    destruct (set_site_edits h s k v x R1) as (R2 & ED & SUB); auto.
    destruct (IH x s h' R2) as (R3 & ED3 & SUB3); auto.
    + exists s; split; auto. apply reach_here.
    + intros k0 m I. exists m; split; [|apply reach_here]. apply SUB. eapply H5; eauto.
    + exists R3. split; auto. apply H1. eapply edits_trans; eauto.
Qed.

(** Every update through the API is an edit of a client holding the state and the update. *)
Lemma C05_api_lemma : forall h s R, reachable h R s ->
  (forall id u h', (forall m, u = HRef m -> reachable h R m) -> h_set_site_state h s id u = Ok h' ->
     exists R', edits R h R' h') /\
  (forall u h', (forall m, u = HRef m -> reachable h R m) -> h_set_general_state h s u = Ok h' ->
     exists R', edits R h R' h') /\
  (forall b h', (forall m, b = HRef m -> reachable h R m) -> h_batch_update h s b = Ok h' ->
     exists R', edits R h R' h').
Proof.
  intros h s R Rs. split; [|split].
  - intros id u h' Ru H. destruct (set_site_edits _ _ _ _ _ _ Rs Ru H) as (R' & ED & _); eauto.
  - intros u h' Ru H. destruct (set_general_edits _ _ _ _ _ Rs Ru H) as (R' & ED & _); eauto.
  - intros b h' Rb H. unfold h_batch_update in H. inv_bind H. destruct x as [l d].
    apply get_dict_inv in E as (-> & Nl). specialize (Rb l eq_refl).
    destruct (dmem GENERAL d).
    + inv_bind H. rename x into items. inv_bind H. rename x into h1.
      assert (Ri : forall k m, In (k, HRef m) items -> reachable h R m).
      { destruct (dget SITES d) as [v|] eqn:G.
        - destruct (get_dict h v) as [[a ds]|] eqn:GD; [|discriminate]. injection E as <-.
          apply get_dict_inv in GD as (-> & Na). intros k m I.
          eapply reach_dict; [|exact Na|apply in_map_iff; exists (k, HRef m); eauto|reflexivity].
          eapply reach_dict; [exact Rb|exact Nl|eapply dget_vals; eauto|reflexivity].
        - injection E as <-. intros ? ? []. }
      assert (Rl' : reachable h (s :: l :: R) s) by (exists s; split; [left; auto|apply reach_here]).
      destruct (set_sites_edits items h s h1 (s :: l :: R) Rl') as (R1 & ED1 & SUB); auto.
      { intros k m I. destruct (Ri k m I) as (r & Ir & Rr). exists r; split; auto. right; right; auto. }
      inv_bind H. destruct x as [l' b1]. apply get_dict_inv in E1 as (El & Nl'). injection El as <-.
      inv_bind H. rename x into g.
      destruct (set_general_edits h1 s g h' R1) as (R2 & ED2 & _); auto.
      { exists s; split; [apply SUB; left; auto|apply reach_here]. }
      { intros m ->. exists l; split; [apply SUB; right; left; auto|].
        eapply reach_next; [exact Nl'| |apply reach_here]. cbn.
        unfold dgetE in E1. destruct (dget GENERAL b1) eqn:G; [|discriminate]. injection E1 as ->.
        eapply dget_vals; eauto. }
      exists R2. apply edits_hold with (m := l); auto. apply edits_hold with (m := s).
      { destruct Rs as (r & Ir & Rr). exists r; split; auto. right; auto. }
      eapply edits_trans; eauto.
    + destruct (set_sites_edits d h s h' R Rs) as (R1 & ED1 & _); eauto.
      intros k m I. eapply reach_dict; [exact Rb|exact Nl|apply in_map_iff; exists (k, HRef m); eauto|reflexivity].
Qed.
