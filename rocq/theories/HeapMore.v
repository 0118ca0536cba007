(** Proofs about the heap model: states and results as plain values, returned steps, runs. *)
From Verif Require Import Prelude Dict Val ValFacts StateModel ResultModel HeapModel SpecHeap HeapFacts.

(** * Representation *)

Lemma rep_list : forall bad h v l, rep bad h v (VList l) <->
  exists n vs, v = HRef n /\ ~ bad n /\ nth_error h n = Some (OList vs) /\ Forall2 (rep bad h) vs l.
Proof.
  intros bad h v l. cbn [rep].
  assert (G : forall vs, (fix go (vs : list hval) (l : list val) {struct l} : Prop :=
           match vs, l with
           | [], [] => True
           | w :: vs', y :: l' => rep bad h w y /\ go vs' l'
           | _, _ => False
           end) vs l <-> Forall2 (rep bad h) vs l).
  { induction l as [|y t IH]; intros [|w vs]; split; intros H; auto; try contradiction; try (inversion H; fail).
    - destruct H as (H1 & H2). constructor; auto. apply IH; auto.
    - inversion H; subst. split; auto. apply IH; auto. }
  split; intros (n & vs & H1 & H2 & H3 & H4); exists n, vs; repeat split; auto; apply G; auto.
Qed.

Lemma rep_tuple : forall bad h v l, rep bad h v (VTuple l) <->
  exists n vs, v = HRef n /\ ~ bad n /\ nth_error h n = Some (OTuple vs) /\ Forall2 (rep bad h) vs l.
Proof.
  intros bad h v l. cbn [rep].
  assert (G : forall vs, (fix go (vs : list hval) (l : list val) {struct l} : Prop :=
           match vs, l with
           | [], [] => True
           | w :: vs', y :: l' => rep bad h w y /\ go vs' l'
           | _, _ => False
           end) vs l <-> Forall2 (rep bad h) vs l).
  { induction l as [|y t IH]; intros [|w vs]; split; intros H; auto; try contradiction; try (inversion H; fail).
    - destruct H as (H1 & H2). constructor; auto. apply IH; auto.
    - inversion H; subst. split; auto. apply IH; auto. }
  split; intros (n & vs & H1 & H2 & H3 & H4); exists n, vs; repeat split; auto; apply G; auto.
Qed.

Lemma rep_dict : forall bad h v d, rep bad h v (VDict d) <->
  exists n hd, v = HRef n /\ ~ bad n /\ nth_error h n = Some (ODict hd) /\ rep_entries bad h hd d.
Proof.
  intros bad h v d. cbn [rep]. unfold rep_entries.
  assert (G : forall hd, (fix go (hd : dict key hval) (d : list (key * val)) {struct d} : Prop :=
           match hd, d with
           | [], [] => True
           | (k, w) :: hd', (k', y) :: d' => k = k' /\ rep bad h w y /\ go hd' d'
           | _, _ => False
           end) hd d <-> Forall2 (fun p q => fst p = fst q /\ rep bad h (snd p) (snd q)) hd d).
  { induction d as [|[k y] t IH]; intros [|[k' w] hd]; split; intros H; auto; try contradiction; try (inversion H; fail).
    - destruct H as (H1 & H2 & H3). constructor; auto. apply IH; auto.
    - inversion H; subst. cbn in *. repeat split; try tauto. apply IH; auto. }
  split; intros (n & vs & H1 & H2 & H3 & H4); exists n, vs; repeat split; auto; apply G; auto.
Qed.

Lemma Forall2_imp_In : forall A B (P Q : A -> B -> Prop) l1 l2,
  Forall (fun y => forall x, P x y -> Q x y) l2 -> Forall2 P l1 l2 -> Forall2 Q l1 l2.
Proof.
  intros A B P Q l1 l2 F H. induction H; constructor.
  - apply Forall_inv in F. auto.
  - apply Forall_inv_tail in F. auto.
Qed.

(** The representation only depends on the objects it visits; renaming locations. *)
Lemma rep_transport : forall (f : hval -> hval) (fo : hobj -> hobj) (fl : nat -> nat) bad bad' h h',
  (forall v, match v with HRef l => f v = HRef (fl l) | _ => f v = v end) ->
  (forall d, fo (ODict d) = ODict (map (fun kv => (fst kv, f (snd kv))) d)) ->
  (forall l, fo (OList l) = OList (map f l)) -> (forall l, fo (OTuple l) = OTuple (map f l)) ->
  (forall l o, ~ bad l -> nth_error h l = Some o -> nth_error h' (fl l) = Some (fo o) /\ ~ bad' (fl l)) ->
  forall x v, rep bad h v x -> rep bad' h' (f v) x.
Proof.
  intros f fo fl bad bad' h h' Hf Hd Hl Ht H.
  induction x as [| | | | |l IH|l IH|d IH] using val_ind'; intros v R.
  - cbn in *. subst. apply (Hf HNone).
  - cbn in *. subst. apply (Hf (HBool b)).
  - cbn in *. subst. apply (Hf (HInt z)).
  - cbn in *. subst. apply (Hf (HFloat m e)).
  - cbn in *. subst. apply (Hf (HStr s)).
  - apply rep_list in R as (n & vs & -> & Bn & N & F). apply rep_list.
    destruct (H n _ Bn N) as (N' & Bn'). exists (fl n), (map f vs). repeat split; auto.
    + apply (Hf (HRef n)).
    + rewrite N', Hl; auto.
    + clear N N' Bn. induction F; cbn [map]; constructor; [apply Forall_inv in IH|apply Forall_inv_tail in IH]; auto.
  - apply rep_tuple in R as (n & vs & -> & Bn & N & F). apply rep_tuple.
    destruct (H n _ Bn N) as (N' & Bn'). exists (fl n), (map f vs). repeat split; auto.
    + apply (Hf (HRef n)).
    + rewrite N', Ht; auto.
    + clear N N' Bn. induction F; cbn [map]; constructor; [apply Forall_inv in IH|apply Forall_inv_tail in IH]; auto.
  - apply rep_dict in R as (n & hd & -> & Bn & N & F). apply rep_dict.
    destruct (H n _ Bn N) as (N' & Bn'). exists (fl n), (map (fun kv => (fst kv, f (snd kv))) hd). repeat split; auto.
    + apply (Hf (HRef n)).
    + rewrite N', Hd; auto.
    + clear N N' Bn. unfold rep_entries in *.
      induction F as [|p q ? ? (K & R)]; cbn [map]; constructor; [apply Forall_inv in IH|apply Forall_inv_tail in IH]; auto.
      split; cbn [fst snd]; auto.
Qed.

Lemma rep_mono : forall bad bad' h h' x v,
  (forall l o, ~ bad l -> nth_error h l = Some o -> nth_error h' l = Some o /\ ~ bad' l) ->
  rep bad h v x -> rep bad' h' v x.
Proof.
  intros bad bad' h h' x v H R.
  apply (rep_transport (fun v => v) (fun o => o) (fun l => l) bad bad' h h'); auto.
  - intros []; auto.
  - intros d. f_equal. rewrite <- (map_id d) at 1. apply map_ext. intros []; auto.
  - intros; rewrite map_id; auto.
  - intros; rewrite map_id; auto.
Qed.

Lemma rep_shift : forall bad bad' h h' n x v,
  (forall l o, ~ bad l -> nth_error h l = Some o ->
     nth_error h' (n + l) = Some (shift_obj n o) /\ ~ bad' (n + l)%nat) ->
  rep bad h v x -> rep bad' h' (shift n v) x.
Proof.
  intros bad bad' h h' n x v H R.
  apply (rep_transport (shift n) (shift_obj n) (fun l => n + l)%nat bad bad' h h'); auto.
  intros []; auto.
Qed.

Lemma entries_mono : forall bad bad' h h' d hd,
  (forall l o, ~ bad l -> nth_error h l = Some o -> nth_error h' l = Some o /\ ~ bad' l) ->
  rep_entries bad h hd d -> rep_entries bad' h' hd d.
Proof.
  intros bad bad' h h' d hd H F. unfold rep_entries in *.
  induction F as [|p q ? ? (K & R)]; constructor; auto. split; auto. eapply rep_mono; eauto.
Qed.

(** Look-ups, assignments and merges in represented dictionaries. *)
Lemma entries_get : forall bad h hd d k, rep_entries bad h hd d ->
  match dget k hd, dget k d with
  | Some w, Some y => rep bad h w y
  | None, None => True
  | _, _ => False
  end.
Proof.
  intros bad h hd d k F. induction F as [|[k1 w] [k2 y] ? ? (K & R)]; cbn [dget]; auto.
  cbn in K, R. subst. destruct (eqb k k2); auto.
Qed.

Lemma entries_set : forall bad h hd d k w y, rep_entries bad h hd d -> rep bad h w y ->
  rep_entries bad h (dset k w hd) (dset k y d).
Proof.
  intros bad h hd d k w y F R. unfold rep_entries in *.
  induction F as [|[k1 w1] [k2 y1] ? ? (K & R1)]; cbn [dset].
  - constructor; auto.
  - cbn in K, R1. subst. destruct (eqb k k2); constructor; auto.
Qed.

Lemma entries_merge : forall bad h hu u hd d, rep_entries bad h hd d -> rep_entries bad h hu u ->
  rep_entries bad h (dmerge hd hu) (dmerge d u).
Proof.
  intros bad h hu u hd d F G. revert hd d F. unfold dmerge.
  induction G as [|[k1 w1] [k2 y1] ? ? (K & R1)]; intros hd d F; cbn [fold_left fst snd]; auto.
  cbn in K, R1. subst. apply IHG. apply entries_set; auto.
Qed.

Lemma entries_keys : forall bad h hd d, rep_entries bad h hd d -> dkeys hd = dkeys d.
Proof.
  intros bad h hd d F. induction F as [|p q ? ? (K & R)]; cbn [dkeys map]; auto. f_equal; auto.
Qed.

(** [stands h s top sites st]: [rep_state] with its two mutable objects named. *)
Definition stands (h : heap) (s top sites : nat) (st : sstate) : Prop :=
  exists d sd g,
    nth_error h s = Some (OState (HRef top)) /\ top <> sites /\
    nth_error h top = Some (ODict d) /\
    dget SITES d = Some (HRef sites) /\ nth_error h sites = Some (ODict sd) /\
    dget GENERAL d = Some g /\
    rep_entries (fun l => l = top \/ l = sites) h sd
                (map (fun kv => (fst kv, VDict (snd kv))) (s_sites st)) /\
    rep (fun l => l = top \/ l = sites) h g (VDict (s_general st)).

Lemma stands_rep : forall h s st, rep_state h s st <-> exists top sites, stands h s top sites st.
Proof. intros; reflexivity. Qed.

(** A value is a dictionary exactly when what it stands for is. *)
Lemma rep_get_dict : forall bad h v x, rep bad h v x ->
  match x with
  | VDict d => exists l hd, get_dict h v = Ok (l, hd) /\ v = HRef l /\ rep_entries bad h hd d
  | _ => get_dict h v = Err TypeError
  end.
Proof.
  intros bad h v x R. destruct x; try (cbn in R; subst; reflexivity).
  - apply rep_list in R as (n & vs & -> & _ & N & _). cbn. rewrite N; auto.
  - apply rep_tuple in R as (n & vs & -> & _ & N & _). cbn. rewrite N; auto.
  - apply rep_dict in R as (n & hd & -> & _ & N & F). exists n, hd. cbn. rewrite N; auto.
Qed.

(** What changed: nothing but the two mutable objects of the state; new objects appeared. *)
Definition only (top sites : nat) (h h' : heap) : Prop :=
  (length h <= length h')%nat /\
  forall l o, l <> top -> l <> sites -> nth_error h l = Some o -> nth_error h' l = Some o.

Lemma only_refl : forall t s h, only t s h h.
Proof. split; auto. Qed.
Lemma only_trans : forall t s h1 h2 h3, only t s h1 h2 -> only t s h2 h3 -> only t s h1 h3.
Proof. intros t s h1 h2 h3 (A1 & A2) (B1 & B2). split; [lia|auto]. Qed.

Lemma only_rep : forall t s h h' v x, only t s h h' ->
  rep (fun l => l = t \/ l = s) h v x -> rep (fun l => l = t \/ l = s) h' v x.
Proof.
  intros t s h h' v x (_ & O) R. eapply rep_mono; [|exact R]. intros l o B N.
  split; auto.
Qed.

Lemma only_entries : forall t s h h' hd d, only t s h h' ->
  rep_entries (fun l => l = t \/ l = s) h hd d -> rep_entries (fun l => l = t \/ l = s) h' hd d.
Proof.
  intros t s h h' hd d (_ & O) R. eapply entries_mono; [|exact R]. intros l o B N.
  split; auto.
Qed.

Lemma dget_states : forall (d : dict key pdict) k,
  dget k (map (fun kv => (fst kv, VDict (snd kv))) d) = option_map VDict (dget k d).
Proof.
  intros d k. induction d as [|[k' v] t IH]; cbn [map dget]; auto. cbn [fst snd].
  destruct (eqb k k'); auto.
Qed.

Lemma dset_states : forall (d : dict key pdict) k v,
  map (fun kv => (fst kv, VDict (snd kv))) (dset k v d) =
  dset k (VDict v) (map (fun kv => (fst kv, VDict (snd kv))) d).
Proof.
  intros d k v. induction d as [|[k' w] t IH]; cbn [map dset fst snd]; auto.
  destruct (eqb k k'); cbn [map fst snd]; f_equal; auto.
Qed.

Lemma rep_key : forall bad h k, rep bad h (key_hval k) (key_val k).
Proof. intros bad h []; reflexivity. Qed.

Lemma put_only : forall h o t s l o2, (l = t \/ l = s) -> only t s h (put (h ++ [o]) l o2).
Proof.
  intros h o t s l o2 L. split.
  - rewrite put_length, app_length; lia.
  - intros m o' M1 M2 N. rewrite put_other by (destruct L; congruence). rewrite nth_old; auto.
    eapply nth_lt; eauto.
Qed.

(** set_site_state *)
Lemma set_site_stands : forall h s t a st id u x,
  stands h s t a st -> rep (fun l => l = t \/ l = a) h u x ->
  match as_mapping x with
  | Ok d => exists h', h_set_site_state h s id u = Ok h' /\ stands h' s t a (set_site_state st id d) /\ only t a h h'
  | Err e => h_set_site_state h s id u = Err e
  end.
Proof.
  intros h s t a st id u x (d & sd & g & Ns & Dta & Nt & Ds & Na & Dg & Fs & Rg) Ru.
  assert (SS : h_sites h s = Ok (HRef a)).
  { unfold h_sites, state_attr. rewrite Ns. cbn [bind get_dict]. rewrite Nt. cbn [bind]. unfold dgetE. rewrite Ds. auto. }
  assert (OLD : exists old, (do old_state <- h_get_site_state h s id;
                 match old_state with
                 | HNone => Ok [(SITE_ID, key_hval id)]
                 | _ => do (_, od) <- get_dict h old_state; Ok od
                 end) = Ok old /\
     rep_entries (fun l => l = t \/ l = a) h old
       (match dget id (s_sites st) with None => [(SITE_ID, key_val id)] | Some o => o end)).
  { unfold h_get_site_state. rewrite SS. cbn [bind]. unfold get_dict at 1. rewrite Na. cbn [bind].
    pose proof (entries_get _ _ _ _ id Fs) as G. rewrite dget_states in G.
    destruct (dget id sd) as [w|], (dget id (s_sites st)) as [o|]; cbn in G; try contradiction.
    - apply (rep_get_dict _ _ _ (VDict o)) in G as (l & hd & GD & -> & F). exists hd. rewrite GD. split; auto.
    - exists [(SITE_ID, key_hval id)]. split; auto. constructor; [|constructor]. split; auto. apply rep_key. }
  destruct OLD as (old & OLD & FO).
  unfold h_set_site_state.
  destruct (h_get_site_state h s id) as [os|] eqn:GS; cbn [bind] in OLD |- *; [|discriminate].
  rewrite OLD. cbn [bind].
  pose proof (rep_get_dict _ _ _ _ Ru) as GU. destruct x; cbn [as_mapping]; try (rewrite GU; reflexivity).
  destruct GU as (lu & hu & GU & -> & FU). rewrite GU. cbn [bind]. rewrite SS. cbn [bind].
  unfold get_dict. rewrite Na. cbn [bind]. unfold alloc.
  eexists; split; [reflexivity|]. set (h1 := h ++ [ODict (dmerge old hu)]).
  assert (La : (a < length h)%nat) by (eapply nth_lt; eauto).
  assert (ON : only t a h (put h1 a (ODict (dset id (HRef (length h)) sd)))) by (apply put_only; auto).
  split; auto.
  assert (La1 : (a < length h1)%nat) by (unfold h1; rewrite app_length; lia).
  exists d, (dset id (HRef (length h)) sd), g. repeat split; auto.
  - apply (proj2 ON); auto; intros ->; congruence.
  - rewrite put_other by auto. unfold h1. rewrite nth_old; auto. eapply nth_lt; eauto.
  - apply put_same; auto.
  - cbn [set_site_state s_sites]. rewrite dset_states. apply entries_set.
    + eapply only_entries; eauto.
    + apply rep_dict. exists (length h), (dmerge old hu). repeat split; auto.
      * intros [E|E]; [apply nth_lt in Nt; lia|lia].
      * rewrite put_other by lia. apply nth_new.
      * apply entries_merge; eapply only_entries; eauto.
  - cbn [set_site_state s_general]. eapply only_rep; eauto.
Qed.

(** set_general_state *)
Lemma set_general_stands : forall h s t a st u x,
  stands h s t a st -> rep (fun l => l = t \/ l = a) h u x ->
  match as_mapping x with
  | Ok d => exists h', h_set_general_state h s u = Ok h' /\ stands h' s t a (set_general_state st d) /\ only t a h h'
  | Err e => h_set_general_state h s u = Err e
  end.
Proof.
  intros h s t a st u x (d & sd & g & Ns & Dta & Nt & Ds & Na & Dg & Fs & Rg) Ru.
  unfold h_set_general_state.
  assert (SA : state_attr h s = Ok (HRef t)) by (unfold state_attr; rewrite Ns; auto).
  assert (GG : h_get_general_state h s = Ok g).
  { unfold h_get_general_state. rewrite SA. cbn [bind get_dict]. rewrite Nt. cbn [bind]. rewrite Dg; auto. }
  rewrite GG. cbn [bind].
  pose proof (rep_get_dict _ _ _ _ Rg) as (lg & hg & GD & -> & FG). rewrite GD. cbn [bind].
  pose proof (rep_get_dict _ _ _ _ Ru) as GU. destruct x; cbn [as_mapping]; try (rewrite GU; reflexivity).
  destruct GU as (lu & hu & GU & -> & FU). rewrite GU. cbn [bind]. rewrite SA. cbn [bind].
  unfold get_dict. rewrite Nt. cbn [bind]. unfold alloc.
  eexists; split; [reflexivity|]. set (h1 := h ++ [ODict (dmerge hg hu)]).
  assert (Lt : (t < length h)%nat) by (eapply nth_lt; eauto).
  assert (La : (a < length h)%nat) by (eapply nth_lt; eauto).
  assert (ON : only t a h (put h1 t (ODict (dset GENERAL (HRef (length h)) d)))) by (apply put_only; auto).
  split; auto.
  exists (dset GENERAL (HRef (length h)) d), sd, (HRef (length h)). repeat split; auto.
  - apply (proj2 ON); auto; intros ->; congruence.
  - apply put_same. unfold h1. rewrite app_length; lia.
  - rewrite dget_dset_other by discriminate; auto.
  - rewrite put_other by auto. unfold h1. rewrite nth_old; auto.
  - apply dget_dset_same.
  - eapply only_entries; eauto.
  - apply rep_dict. exists (length h), (dmerge hg hu). repeat split; auto.
    + intros [E|E]; lia.
    + rewrite put_other by lia. apply nth_new.
    + apply entries_merge; eapply only_entries; eauto.
Qed.

Lemma set_sites_stands : forall hd d h s t a st,
  stands h s t a st -> rep_entries (fun l => l = t \/ l = a) h hd d ->
  match set_sites st d with
  | Ok st' => exists h', h_set_sites h s hd = Ok h' /\ stands h' s t a st' /\ only t a h h'
  | Err e => h_set_sites h s hd = Err e
  end.
Proof.
  unfold set_sites, h_set_sites.
  induction hd as [|[k v] hd IH]; intros d h s t a st S F; inversion F as [|p q ? d' (K & R) F']; subst; cbn [foldM].
  - exists h. repeat split; auto.
  - destruct q as [k' x]. cbn in K, R. subst k'. cbn [fst snd].
    pose proof (set_site_stands h s t a st k v x S R) as H.
    destruct (as_mapping x) as [u|e]; cbn [bind].
    + destruct H as (h1 & -> & S1 & O1). cbn [bind].
      specialize (IH d' h1 s t a _ S1 (only_entries _ _ _ _ _ _ O1 F')).
      destruct (foldM _ d' _) as [st'|e]; auto.
      destruct IH as (h2 & -> & S2 & O2). exists h2. repeat split; auto; try apply S2; eapply only_trans; eauto.
    + rewrite H. auto.
Qed.

(** batch_update on objects does what batch_update on plain states does. *)
Lemma batch_stands : forall h s t a st b x,
  stands h s t a st -> rep (fun l => l = t \/ l = a) h b x ->
  match batch_update st x with
  | Ok st' => exists h', h_batch_update h s b = Ok h' /\ stands h' s t a st' /\ only t a h h'
  | Err e => h_batch_update h s b = Err e
  end.
Proof.
  intros h s t a st b x S R. unfold batch_update, h_batch_update.
  pose proof (rep_get_dict _ _ _ _ R) as GB. destruct x; try (rewrite GB; reflexivity).
  destruct GB as (lb & hb & GB & -> & FB). rewrite GB. cbn [bind].
  pose proof (entries_get _ _ _ _ GENERAL FB) as GG. unfold dmem.
  destruct (dget GENERAL hb) as [hg|] eqn:HG, (dget GENERAL d) as [g|] eqn:DG; try contradiction.
  - pose proof (entries_get _ _ _ _ SITES FB) as GS.
    destruct (dget SITES hb) as [hs|], (dget SITES d) as [sv|]; try contradiction.
    + pose proof (rep_get_dict _ _ _ _ GS) as GD. destruct sv; try (rewrite GD; reflexivity).
      destruct GD as (ls & hsd & GD & -> & FS). rewrite GD. cbn [bind].
      pose proof (set_sites_stands hsd d0 h s t a st S FS) as H.
      destruct (set_sites st d0) as [st1|e]; cbn [bind]; [|rewrite H; auto].
      destruct H as (h1 & -> & S1 & O1). cbn [bind].
      pose proof (rep_get_dict _ _ _ _ (only_rep _ _ _ _ _ _ O1 R)) as (lb' & hb' & GB' & E & FB').
      injection E as <-. rewrite GB'. cbn [bind].
      assert (hb' = hb) as ->.
      { apply get_dict_inv in GB as (_ & NB). apply get_dict_inv in GB' as (_ & NB').
        apply rep_dict in R as (n & ? & E & B & _). injection E as <-.
        rewrite (proj2 O1 lb (ODict hb)) in NB'; auto. congruence. }
      unfold dgetE. rewrite HG. cbn [bind].
      pose proof (set_general_stands h1 s t a st1 hg g S1 (only_rep _ _ _ _ _ _ O1 GG)) as H2.
      destruct (as_mapping g) as [gd|e]; cbn [bind]; auto.
      destruct H2 as (h2 & -> & S2 & O2). exists h2. repeat split; auto; try apply S2; eapply only_trans; eauto.
    + cbn [bind]. unfold h_set_sites, set_sites. cbn [foldM bind]. rewrite GB. cbn [bind].
      unfold dgetE. rewrite HG. cbn [bind].
      pose proof (set_general_stands h s t a st hg g S GG) as H2.
      destruct (as_mapping g) as [gd|e]; cbn [bind]; auto.
  - apply set_sites_stands; auto.
Qed.

(** * Copies and results *)

Lemma copy_stands : forall h s t a st, stands h s t a st ->
  exists h1, h_copy h s = Ok ((length h + length h)%nat, h1) /\
    stands h1 (length h + length h) (length h + t) (length h + a) st /\
    (length h + length h < length h1)%nat /\
    (forall l, (l < length h)%nat -> nth_error h1 l = nth_error h l).
Proof.
  intros h s t a st S. pose proof S as (d & sd & g & Ns & Dta & Nt & Ds & Na & Dg & Fs & Rg).
  pose proof (copy_shape h s t Ns) as E. eexists; split; [exact E|].
  split; [|split; [rewrite !app_length, map_length; cbn; lia|intros l L; exact (copy_old _ _ _ _ E l L)]].
  set (n := length h) in *. set (h1 := (h ++ map (shift_obj n) h) ++ [OState (HRef (n + t))]).
  assert (CP : forall l o, nth_error h l = Some o -> nth_error h1 (n + l) = Some (shift_obj n o)).
  { intros l o N. unfold h1. rewrite nth_old; [apply copied_at; auto|].
    rewrite app_length, map_length. apply nth_lt in N. fold n in N |- *. lia. }
  exists (map (fun kv => (fst kv, shift n (snd kv))) d), (map (fun kv => (fst kv, shift n (snd kv))) sd), (shift n g).
  repeat split.
  - unfold h1. replace (n + n)%nat with (length (h ++ map (shift_obj n) h))
      by (rewrite app_length, map_length; auto). apply nth_new.
  - lia.
  - apply (CP _ _ Nt).
  - rewrite dget_map_snd, Ds. reflexivity.
  - apply (CP _ _ Na).
  - rewrite dget_map_snd, Dg. reflexivity.
  - assert (R1 : forall x v, rep (fun l => l = t \/ l = a) h v x ->
              rep (fun l => l = (n + t)%nat \/ l = (n + a)%nat) h1 (shift n v) x).
    { intros x v R. eapply rep_shift; [|exact R]. intros l o B N. split; auto. intros [E1|E1]; apply B; [left|right]; lia. }
    clear Na. unfold rep_entries in *. induction Fs as [|p q ? ? (K & R)]; cbn [map]; constructor; auto.
    split; cbn [fst snd]; auto.
  - eapply rep_shift; [|exact Rg]. intros l o B N. split; auto. intros [E1|E1]; apply B; [left|right]; lia.
Qed.

Lemma stands_only_frame : forall h h' t a n, only t a h h' -> (n <= t)%nat -> (n <= a)%nat -> (n <= length h)%nat ->
  forall l, (l < n)%nat -> nth_error h' l = nth_error h l.
Proof.
  intros h h' t a n (_ & O) Lt La Ln l L. destruct (nth_error h l) as [o|] eqn:N.
  - apply O; auto; lia.
  - apply nth_error_None in N. lia.
Qed.

Lemma list_getE_Forall2 : forall A B (P : A -> B -> Prop) l1 l2 i, Forall2 P l1 l2 ->
  match list_getE l1 i, list_getE l2 i with
  | Ok x, Ok y => P x y
  | Err e, Err e' => e = e'
  | _, _ => False
  end.
Proof.
  intros A B P l1 l2 i F. unfold list_getE.
  assert (L : length l1 = length l2) by (induction F; cbn; congruence). rewrite L.
  destruct ((_ <? 0) || _); auto. set (j := Z.to_nat _). clearbody j. clear L.
  revert j. induction F; intros [|j]; cbn [nth_error]; auto. apply IHF.
Qed.

(** Bringing a state up to date, over any list of update numbers. *)
Lemma replay_stands : forall ds DS idx h s t a st,
  (forall i, match list_getE ds i, list_getE DS i with
             | Ok v, Ok x => rep (fun l => l = t \/ l = a) h v x
             | Err e, Err e' => e = e'
             | _, _ => False
             end) ->
  stands h s t a st ->
  match foldM (fun state ud_idx => do d <- list_getE DS ud_idx; batch_update state d) idx st with
  | Ok st' => exists h', foldM (fun h ud_idx => do d <- list_getE ds ud_idx; h_batch_update h s d) idx h = Ok h' /\
                         stands h' s t a st' /\ only t a h h'
  | Err e => foldM (fun h ud_idx => do d <- list_getE ds ud_idx; h_batch_update h s d) idx h = Err e
  end.
Proof.
  intros ds DS. induction idx as [|i idx IH]; intros h s t a st G S; cbn [foldM].
  - exists h. repeat split; auto.
  - pose proof (G i) as Gi. destruct (list_getE ds i) as [v|e], (list_getE DS i) as [x|e']; try contradiction; cbn [bind].
    + pose proof (batch_stands h s t a st v x S Gi) as B.
      destruct (batch_update st x) as [st1|e]; cbn [bind]; [|rewrite B; auto].
      destruct B as (h1 & -> & S1 & O1). cbn [bind].
      assert (G1 : forall i, match list_getE ds i, list_getE DS i with
             | Ok v, Ok x => rep (fun l => l = t \/ l = a) h1 v x
             | Err e, Err e' => e = e'
             | _, _ => False
             end).
      { intros j. specialize (G j). destruct (list_getE ds j), (list_getE DS j); auto. eapply only_rep; eauto. }
      specialize (IH h1 s t a st1 G1 S1). destruct (foldM _ idx st1) as [st'|e]; auto.
      destruct IH as (h2 & -> & S2 & O2). exists h2. repeat split; auto; try apply S2; eapply only_trans; eauto.
    + subst. auto.
Qed.

Lemma stored_get : forall h (l : dict Z nat) (L : dict Z sstate) k,
  Forall2 (fun p q => fst p = fst q /\ rep_state h (snd p) (snd q)) l L ->
  match dget k l, dget k L with
  | Some s, Some st => rep_state h s st
  | None, None => True
  | _, _ => False
  end.
Proof.
  intros h l L k F. induction F as [|[k1 s] [k2 st] ? ? (K & R)]; cbn [dget]; auto.
  cbn in K, R. subst. destruct (eqb k k2); auto.
Qed.

(** The updates of a result, seen from a fresh copy of its initial state. *)
Lemma diffs_from_copy : forall h r R t a h1, rep_result h r R ->
  (forall l, (l < length h)%nat -> nth_error h1 l = nth_error h l) ->
  (length h <= t)%nat -> (length h <= a)%nat ->
  forall i, match list_getE (hr_diffs r) i, list_getE (r_diffs R) i with
            | Ok v, Ok x => rep (fun l => l = t \/ l = a) h1 v x
            | Err e, Err e' => e = e'
            | _, _ => False
            end.
Proof.
  intros h r R t a h1 (RI & RD & RS) OLD Lt La i.
  pose proof (list_getE_Forall2 _ _ _ _ _ i RD) as G.
  destruct (list_getE (hr_diffs r) i), (list_getE (r_diffs R) i); auto.
  eapply rep_mono; [|exact G]. intros l o B N. pose proof (nth_lt _ _ _ N). rewrite OLD by auto.
  split; auto. lia.
Qed.

(** get_step on objects gives what get_step gives on plain values, and leaves every
    existing object alone. *)
Lemma C72_get_step_lemma : forall h r R n, rep_result h r R ->
  match get_step R n with
  | Ok st => exists s h', h_get_step h r n = Ok (s, h') /\ rep_state h' s st /\
               (forall l, (l < length h)%nat -> nth_error h' l = nth_error h l)
  | Err e => h_get_step h r n = Err e
  end.
Proof.
  intros h r R n RR. pose proof RR as (RI & RD & RS).
  unfold get_step, h_get_step. pose proof (stored_get _ _ _ n RS) as G.
  destruct (dget n (hr_stored r)) as [s|], (dget n (r_stored R)) as [st|]; try contradiction.
  - exists s, h. auto.
  - apply stands_rep in RI as (t & a & S).
    destruct (copy_stands _ _ _ _ _ S) as (h1 & -> & S1 & L1 & OLD). cbn [bind].
    assert (Gd := diffs_from_copy h r R (length h + t) (length h + a) h1 RR OLD ltac:(lia) ltac:(lia)).
    pose proof (replay_stands (hr_diffs r) (r_diffs R) (zrange 0 n) h1 _ _ _ (r_init R) Gd S1) as H.
    destruct (foldM _ _ (r_init R)) as [st|e].
    + destruct H as (h2 & -> & S2 & O2). cbn [bind]. eexists _, h2. split; [reflexivity|].
      split; [apply stands_rep; eauto|].
      intros l L. rewrite <- (OLD l L). exact (stands_only_frame _ _ _ _ (length h) O2 ltac:(lia) ltac:(lia) ltac:(lia) l L).
    + rewrite H. auto.
Qed.

(** * Editing a returned step *)

Definition noref (hd : dict key hval) : Prop := forall m, ~ In (HRef m) (map snd hd).

Lemma scalar_rep : forall bad h v x m, scalar x -> rep bad h v x -> v <> HRef m.
Proof. intros bad h v x m S R. destruct x; cbn in *; try contradiction; subst; discriminate. Qed.

Lemma scalars_noref : forall bad h v d l hd, scalars (VDict d) -> rep bad h v (VDict d) ->
  get_dict h v = Ok (l, hd) -> noref hd.
Proof.
  intros bad h v d l hd S R G. apply rep_get_dict in R as (l' & hd' & G' & _ & F).
  rewrite G' in G. injection G as -> ->. intros m I. cbn in S. unfold rep_entries in F.
  clear G'. induction F as [|p q ? ? (K & R)]; cbn in I; auto.
  destruct I as [I|I].
  - eapply scalar_rep; [apply (Forall_inv S)|exact R|exact I].
  - apply Forall_inv_tail in S. auto.
Qed.

Lemma closed_put_new : forall n h l o o2, closed_above n h -> (n <= length h)%nat ->
  (forall r, In (HRef r) (children o) -> (n <= r)%nat) ->
  (forall r, In (HRef r) (children o2) -> (n <= r)%nat) ->
  closed_above n (put (h ++ [o]) l o2).
Proof.
  intros n h l o o2 CL Ln Ho Ho2 x ob r Lx N I. apply put_inv in N as [(-> & ->)|(D & N)]; auto.
  destruct (Nat.lt_ge_cases x (length h)) as [L|L].
  - rewrite nth_old in N by auto. eapply CL; eauto.
  - assert (x = length h) as -> by (apply nth_lt in N; rewrite app_length in N; cbn in N; lia).
    rewrite nth_new in N. injection N as <-. auto.
Qed.

Lemma set_site_closed : forall n h s t a st id u d h', stands h s t a st -> closed_above n h ->
  (n <= length h)%nat -> (n <= a)%nat ->
  rep (fun l => l = t \/ l = a) h u (VDict d) -> scalars (VDict d) ->
  h_set_site_state h s id u = Ok h' -> closed_above n h'.
Proof.
  intros n h s t a st id u d h' (dt & sd & g & Ns & Dta & Nt & Ds & Na & Dg & Fs & Rg) CL Ln La R SC H.
  unfold h_set_site_state in H.
  assert (SS : h_sites h s = Ok (HRef a)).
  { unfold h_sites, state_attr. rewrite Ns. cbn [bind get_dict]. rewrite Nt. cbn [bind]. unfold dgetE. rewrite Ds. auto. }
  inv_bind H. inv_bind H. inv_bind H. destruct x1 as [lu upd]. rewrite SS in H. cbn [bind] in H.
  unfold get_dict in H at 1. rewrite Na in H. cbn [bind] in H. cbn in H. injection H as <-.
  pose proof (scalars_noref _ _ _ _ _ _ SC R E1) as NR.
  unfold h_get_site_state in E. rewrite SS in E. cbn [bind] in E. unfold get_dict in E. rewrite Na in E.
  cbn [bind] in E. injection E as <-.
  apply closed_put_new; auto.
  - intros r I. cbn in I. apply dmerge_vals in I as [I|I]; [|exfalso; eapply NR; eauto].
    destruct (dget id sd) as [w|] eqn:G.
    + assert (W : match w with HRef m => (n <= m)%nat | _ => True end).
      { destruct w; auto. eapply CL; [exact La|exact Na|]. cbn. eapply dget_vals; eauto. }
      destruct w as [| | | | |m]; try (cbn in E0; discriminate).
      * injection E0 as <-. destruct id; cbn in I; destruct I as [I|[]]; discriminate.
      * destruct (get_dict h (HRef m)) as [[n' od]|] eqn:GD; cbn [bind] in E0; [|discriminate].
        apply get_dict_inv in GD as (En & Nn). injection En as <-. injection E0 as <-. eapply CL; eauto.
    + injection E0 as <-. destruct id; cbn in I; destruct I as [I|[]]; discriminate.
  - intros r I. cbn in I. apply dset_vals in I as [I|I]; [injection I as ->; auto|]. eapply CL; eauto.
Qed.

Lemma set_general_closed : forall n h s t a st u d h', stands h s t a st -> closed_above n h ->
  (n <= length h)%nat -> (n <= t)%nat ->
  rep (fun l => l = t \/ l = a) h u (VDict d) -> scalars (VDict d) ->
  h_set_general_state h s u = Ok h' -> closed_above n h'.
Proof.
  intros n h s t a st u d h' (dt & sd & g & Ns & Dta & Nt & Ds & Na & Dg & Fs & Rg) CL Ln Lt R SC H.
  unfold h_set_general_state in H.
  assert (SA : state_attr h s = Ok (HRef t)) by (unfold state_attr; rewrite Ns; auto).
  inv_bind H. inv_bind H. destruct x0 as [lo old]. inv_bind H. destruct x0 as [lu upd].
  rewrite SA in H. cbn [bind] in H. unfold get_dict in H at 1. rewrite Nt in H. cbn in H. injection H as <-.
  pose proof (scalars_noref _ _ _ _ _ _ SC R E1) as NR.
  unfold h_get_general_state in E. rewrite SA in E. cbn [bind] in E. unfold get_dict in E. rewrite Nt in E.
  cbn [bind] in E. rewrite Dg in E. injection E as <-.
  apply get_dict_inv in E0 as (-> & No).
  assert (Lo : (n <= lo)%nat).
  { eapply CL; [exact Lt|exact Nt|]. cbn. eapply dget_vals; eauto. }
  apply closed_put_new; auto.
  - intros r I. cbn in I. apply dmerge_vals in I as [I|I]; [|exfalso; eapply NR; eauto]. exact (CL _ _ _ Lo No I).
  - intros r I. cbn in I. apply dset_vals in I as [I|I]; [injection I as ->; auto|]. exact (CL _ _ _ Lt Nt I).
Qed.

Lemma set_sites_closed : forall n hd d h s t a st h', stands h s t a st -> closed_above n h ->
  (n <= length h)%nat -> (n <= a)%nat ->
  rep_entries (fun l => l = t \/ l = a) h hd d -> Forall (fun kv => scalars (snd kv)) d ->
  h_set_sites h s hd = Ok h' ->
  closed_above n h' /\ only t a h h' /\ exists st', stands h' s t a st'.
Proof.
  intros n. unfold h_set_sites.
  induction hd as [|[k v] hd IH]; intros d h s t a st h' S CL Ln La F SC H; inversion F as [|p q ? d' (K & R) F']; subst; cbn [foldM] in H.
  - injection H as <-. split; auto. split; [apply only_refl|eauto].
  - destruct q as [k' x]. cbn in K, R. subst k'. cbn [fst snd] in H.
    pose proof (set_site_stands h s t a st k v x S R) as B.
    pose proof (Forall_inv SC) as SX. cbn in SX.
    destruct x; cbn [as_mapping] in B; try (rewrite B in H; discriminate).
    destruct B as (h1 & E1 & S1 & O1). rewrite E1 in H. cbn [bind] in H.
    assert (CL1 : closed_above n h1) by exact (set_site_closed n h s t a st k v _ h1 S CL Ln La R SX E1).
    pose proof (proj1 O1).
    destruct (IH d' h1 s t a _ h' S1 CL1 ltac:(lia) La (only_entries _ _ _ _ _ _ O1 F') (Forall_inv_tail SC) H)
      as (C2 & O2 & S2).
    split; auto. split; auto. eapply only_trans; eauto.
Qed.

Lemma batch_closed : forall n h s t a st b x h', stands h s t a st -> closed_above n h ->
  (n <= length h)%nat -> (n <= a)%nat -> (n <= t)%nat ->
  rep (fun l => l = t \/ l = a) h b x -> flat x ->
  h_batch_update h s b = Ok h' -> closed_above n h'.
Proof.
  intros n h s t a st b x h' S CL Ln La Lt R FL H. unfold h_batch_update in H.
  pose proof (rep_get_dict _ _ _ _ R) as GB. destruct x; try (rewrite GB in H; discriminate).
  destruct GB as (lb & hb & GB & -> & FB). rewrite GB in H. cbn [bind] in H.
  pose proof (entries_get _ _ _ _ GENERAL FB) as GG. unfold dmem in H.
  destruct (dget GENERAL hb) as [hg|] eqn:HG, (dget GENERAL d) as [g|] eqn:DG; try contradiction.
  - pose proof (entries_get _ _ _ _ SITES FB) as GS.
    assert (FG : scalars g /\ match dget SITES d with
         | Some (VDict d) => Forall (fun kv => scalars (snd kv)) d
         | _ => True
         end).
    { cbn in FL. destruct FL as [FL|(g' & E & SG & SS)].
      - rewrite Forall_forall in FL. split.
        + apply dget_In in DG. apply (FL _ DG).
        + destruct (dget SITES d) as [[| | | | | | |ds]|] eqn:DS; auto. apply dget_In in DS. pose proof (FL _ DS) as F0.
          cbn in F0. eapply Forall_impl; [|exact F0]. intros [k v] SV. cbn in SV |- *. destruct v; cbn in SV |- *; tauto.
      - replace g' with g in * by congruence. auto. }
    destruct FG as (SG & SSs).
    inv_bind H. inv_bind H. rename x into items, x0 into h1.
    assert (FI : exists ds, rep_entries (fun l => l = t \/ l = a) h items ds /\ Forall (fun kv => scalars (snd kv)) ds).
    { destruct (dget SITES hb) as [hs|], (dget SITES d) as [sv|]; try contradiction.
      - pose proof (rep_get_dict _ _ _ _ GS) as GD. destruct sv; try (rewrite GD in E; discriminate).
        destruct GD as (ls & hsd & GD & -> & FS). rewrite GD in E. injection E as <-. eauto.
      - injection E as <-. exists []. split; constructor. }
    destruct FI as (ds & FI & SI).
    destruct (set_sites_closed n items ds h s t a st h1 S CL Ln La FI SI E0) as (C1 & O1 & st1 & S1).
    pose proof (only_rep _ _ _ _ _ _ O1 R) as R1.
    inv_bind H. destruct x as [lb' hb']. inv_bind H.
    apply get_dict_inv in GB as (_ & NB). apply get_dict_inv in E1 as (El & NB'). injection El as <-.
    assert (hb' = hb) as ->.
    { apply rep_dict in R as (n0 & ? & En & B & _). injection En as <-.
      rewrite (proj2 O1 lb (ODict hb)) in NB'; auto. congruence. }
    unfold dgetE in E2. rewrite HG in E2. injection E2 as <-.
    pose proof (only_rep _ _ _ _ _ _ O1 GG) as RG1.
    pose proof (set_general_stands h1 s t a st1 hg g S1 RG1) as B.
    destruct g; cbn [as_mapping] in B; try (rewrite B in H; discriminate).
    pose proof (proj1 O1). eapply set_general_closed; [exact S1|exact C1| |exact Lt|exact RG1|exact SG|exact H]. lia.
  - assert (FD : Forall (fun kv => scalars (snd kv)) d).
    { cbn in FL. destruct FL as [FL|(g' & E & _)]; [auto|congruence]. }
    exact (proj1 (set_sites_closed n hb d h s t a st h' S CL Ln La FB FD H)).
Qed.

Lemma replay_closed : forall n ds DS idx h s t a st h',
  (forall i, match list_getE ds i, list_getE DS i with
             | Ok v, Ok x => rep (fun l => l = t \/ l = a) h v x
             | Err e, Err e' => e = e'
             | _, _ => False
             end) ->
  Forall flat DS -> stands h s t a st -> closed_above n h ->
  (n <= length h)%nat -> (n <= a)%nat -> (n <= t)%nat ->
  foldM (fun h ud_idx => do d <- list_getE ds ud_idx; h_batch_update h s d) idx h = Ok h' ->
  closed_above n h'.
Proof.
  intros n ds DS. induction idx as [|i idx IH]; intros h s t a st h' G FL S CL Ln La Lt H; cbn [foldM] in H.
  - injection H as <-. auto.
  - inv_bind H. inv_bind E. rename x0 into v.
    pose proof (G i) as Gi. rewrite E0 in Gi. destruct (list_getE DS i) as [y|e'] eqn:EY; [|contradiction].
    pose proof (batch_stands h s t a st v y S Gi) as B.
    assert (FY : flat y).
    { rewrite Forall_forall in FL. apply FL. unfold list_getE in EY.
      destruct ((_ <? 0) || _); [discriminate|]. destruct (nth_error DS _) eqn:NE; [|discriminate].
      injection EY as <-. eapply nth_error_In; eauto. }
    assert (C1 : closed_above n x) by exact (batch_closed n h s t a st v y x S CL Ln La Lt Gi FY E).
    destruct (batch_update st y) as [st1|e]; [|congruence].
    destruct B as (h1 & E1 & S1 & O1). assert (h1 = x) as -> by congruence.
    pose proof (proj1 O1).
    eapply (IH x s t a st1 h'); eauto; try lia.
    intros j. specialize (G j). destruct (list_getE ds j), (list_getE DS j); auto. eapply only_rep; eauto.
Qed.

Lemma rep_seen : forall bad h h' x v, (forall l, sees h v l -> nth_error h' l = nth_error h l) ->
  rep bad h v x -> rep bad h' v x.
Proof.
  intros bad h h' x v SAME R.
  assert (G : forall x v, (forall l, sees h v l -> nth_error h' l = nth_error h l) -> rep bad h v x -> rep bad h' v x).
  { clear. induction x as [| | | | |l IH|l IH|d IH] using val_ind'; intros v SAME R; auto.
    - apply rep_list in R as (n & vs & -> & Bn & N & F). apply rep_list. exists n, vs.
      repeat split; auto. { rewrite SAME; auto. apply reach_here. }
      assert (SV : forall w, In w vs -> forall l, sees h w l -> nth_error h' l = nth_error h l).
      { intros w I l0 S. apply SAME. destruct w; cbn in S; try contradiction. cbn. eapply reach_next; eauto. }
      clear N SAME. induction F; constructor.
      + apply Forall_inv in IH. apply IH; auto. apply SV; left; auto.
      + apply Forall_inv_tail in IH. apply IHF; auto. intros w I. apply SV; right; auto.
    - apply rep_tuple in R as (n & vs & -> & Bn & N & F). apply rep_tuple. exists n, vs.
      repeat split; auto. { rewrite SAME; auto. apply reach_here. }
      assert (SV : forall w, In w vs -> forall l, sees h w l -> nth_error h' l = nth_error h l).
      { intros w I l0 S. apply SAME. destruct w; cbn in S; try contradiction. cbn. eapply reach_next; eauto. }
      clear N SAME. induction F; constructor.
      + apply Forall_inv in IH. apply IH; auto. apply SV; left; auto.
      + apply Forall_inv_tail in IH. apply IHF; auto. intros w I. apply SV; right; auto.
    - apply rep_dict in R as (n & vs & -> & Bn & N & F). apply rep_dict. exists n, vs.
      repeat split; auto. { rewrite SAME; auto. apply reach_here. }
      assert (SV : forall w, In w (map snd vs) -> forall l, sees h w l -> nth_error h' l = nth_error h l).
      { intros w I l0 S. apply SAME. destruct w; cbn in S; try contradiction. cbn. eapply reach_next; eauto. }
      clear N SAME. unfold rep_entries in *. induction F as [|p q ? ? (K & R)]; constructor.
      + apply Forall_inv in IH. split; auto. apply IH; auto. apply SV; left; auto.
      + apply Forall_inv_tail in IH. apply IHF; auto. intros w I. apply SV; right; auto. }
  eauto.
Qed.

Lemma state_seen : forall h h' s st, (forall l, reach h s l -> nth_error h' l = nth_error h l) ->
  rep_state h s st -> rep_state h' s st.
Proof.
  intros h h' s st SAME (t & a & d & sd & g & Ns & Dta & Nt & Ds & Na & Dg & Fs & Rg).
  assert (Rt : reach h s t) by (eapply reach_next; [exact Ns|cbn; auto|apply reach_here]).
  assert (Ra : reach h s a) by (eapply reach_last; [exact Rt|exact Nt|cbn; eapply dget_vals; eauto]).
  exists t, a, d, sd, g. repeat split; auto.
  - rewrite SAME; auto. apply reach_here.
  - rewrite SAME; auto.
  - rewrite SAME; auto.
  - assert (SV : forall w, In w (map snd sd) -> forall l, sees h w l -> nth_error h' l = nth_error h l).
    { intros w I l0 S. apply SAME. destruct w; cbn in S; try contradiction.
      eapply reach_trans; [exact Ra|]. eapply reach_next; [exact Na|exact I|exact S]. }
    clear Na. unfold rep_entries in *. induction Fs as [|p q ? ? (K & R)]; constructor.
    + split; auto. eapply rep_seen; [|exact R]. apply SV; left; auto.
    + apply IHFs. intros w I. apply SV; right; auto.
  - eapply rep_seen; [|exact Rg]. intros l S. apply SAME. destruct g; cbn in S; try contradiction.
    eapply reach_trans; [exact Rt|]. eapply reach_next; [exact Nt|eapply dget_vals; eauto|exact S].
Qed.

Lemma result_seen : forall h h' r R, (forall l, reachable h (roots_of r) l -> nth_error h' l = nth_error h l) ->
  rep_result h r R -> rep_result h' r R.
Proof.
  intros h h' r R SAME (RI & RD & RS). split; [|split].
  - eapply state_seen; [|exact RI]. intros l Rl. apply SAME. exists (hr_init r). split; auto. left; auto.
  - assert (SV : forall v, In v (hr_diffs r) -> forall l, sees h v l -> nth_error h' l = nth_error h l).
    { intros v I l S. apply SAME. destruct v; cbn in S; try contradiction. exists l0. split; auto.
      right. apply in_or_app. left. apply in_flat_map. exists (HRef l0). split; auto. left; auto. }
    revert SV RD. generalize (hr_diffs r) (r_diffs R). intros l1 l2 SV F.
    induction F; constructor.
    + eapply rep_seen; [|exact H]. apply SV. left; auto.
    + apply IHF. intros w I. apply SV. right; auto.
  - assert (SV : forall k s, In (k, s) (hr_stored r) -> forall l, reach h s l -> nth_error h' l = nth_error h l).
    { intros k s I l S. apply SAME. exists s. split; auto. right. apply in_or_app. right.
      apply in_map_iff. exists (k, s); auto. }
    revert SV RS. generalize (hr_stored r) (r_stored R). intros l1 l2 SV F.
    induction F as [|[k s] q ? ? (K & RR)]; constructor.
    + split; auto. eapply state_seen; [|exact RR]. eapply SV. left; reflexivity.
    + apply IHF. intros k0 s0 I. eapply SV. right; eauto.
Qed.

Lemma diffs_bound : forall h vs xs l, Forall2 (rep (fun _ => False) h) vs xs ->
  In l (refs_of vs) -> (l < length h)%nat.
Proof.
  intros h vs xs l F I. unfold refs_of in I. apply in_flat_map in I as (v & Iv & Il).
  destruct v as [| | | | |m]; cbn in Il; try contradiction. destruct Il as [<-|[]].
  assert (EX : exists x, rep (fun _ => False) h (HRef m) x).
  { clear - F Iv. induction F as [|v x vs xs R F IH]; [contradiction|]. destruct Iv as [->|Iv]; eauto. }
  destruct EX as (x & R). destruct x; cbn [rep] in R; try discriminate;
    destruct R as (n & ? & E & _ & N & _); injection E as <-; eapply nth_lt; eauto.
Qed.

Lemma roots_bound : forall h r R l, rep_result h r R -> In l (roots_of r) -> (l < length h)%nat.
Proof.
  intros h r R l (RI & RD & RS) [<-|I].
  - destruct RI as (t & a & d & sd & g & Ns & _). eapply nth_lt; eauto.
  - apply in_app_or in I as [I|I].
    + eapply diffs_bound; eauto.
    + apply in_map_iff in I as ([k s] & <- & I). cbn. clear - RS I.
      induction RS as [|[k1 s1] q ? ? (K & RR)]; [contradiction|]. destruct I as [E|I]; auto.
      injection E as <- <-. destruct RR as (t & a & d & sd & g & Ns & _). eapply nth_lt; eauto.
Qed.

(** Editing a step that was not taken from the cache, in a result whose updates hold no
    mutable values, changes nothing about the result. *)
Lemma C11_partial_lemma : forall h r R n s h1 others E h2,
  heap_ok h -> rep_result h r R -> Forall flat (r_diffs R) ->
  dget n (hr_stored r) = None -> h_get_step h r n = Ok (s, h1) ->
  (forall x y, In x others -> reach h1 x y -> ~ reachable h1 (roots_of r) y) ->
  edits (s :: others) h1 E h2 ->
  forall m, match get_step R m with
            | Ok st => exists s' h3, h_get_step h2 r m = Ok (s', h3) /\ rep_state h3 s' st
            | Err e => h_get_step h2 r m = Err e
            end.
Proof.
  intros h r R n s h1 others E h2 OK RR FL NC G SEP ED m.
  assert (RR2 : rep_result h2 r R).
  { pose proof RR as (RI & RD & RS). unfold h_get_step in G. rewrite NC in G.
    apply stands_rep in RI as (t & a & S).
    destruct (copy_stands _ _ _ _ _ S) as (hc & EC & S1 & L1 & OLD).
    assert (CL0 : closed_above (length h) hc).
    { destruct S as (d & sd & g & Ns & _). rewrite (copy_shape _ _ _ Ns) in EC. injection EC as <-.
      eapply copy_closed; eauto. }
    rewrite EC in G. cbn [bind] in G. inv_bind G. injection G as <- <-. rename x into h1, E0 into FD.
    assert (Gd := diffs_from_copy h r R (length h + t) (length h + a) hc RR OLD ltac:(lia) ltac:(lia)).
    pose proof (replay_closed (length h) (hr_diffs r) (r_diffs R) (zrange 0 n) hc _ _ _ (r_init R) h1
                  Gd FL S1 CL0 ltac:(lia) ltac:(lia) ltac:(lia) FD) as CL1.
    pose proof (replay_stands (hr_diffs r) (r_diffs R) (zrange 0 n) hc _ _ _ (r_init R) Gd S1) as H.
    destruct (foldM _ _ (r_init R)) as [st|e]; [|congruence].
    destruct H as (h1' & E' & S2 & O2). assert (h1' = h1) as -> by congruence.
    assert (OLD1 : forall l, (l < length h)%nat -> nth_error h1 l = nth_error h l).
    { intros l L. rewrite <- (OLD l L). exact (stands_only_frame _ _ _ _ (length h) O2 ltac:(lia) ltac:(lia) ltac:(lia) l L). }
    assert (LEN : (length h <= length h1)%nat) by (pose proof (proj1 O2); lia).
    assert (BEL : forall y, reachable h1 (roots_of r) y -> (y < length h)%nat).
    { intros y (x & Ix & Rx). eapply reach_below; [exact OK|exact OLD1| |exact Rx].
      eapply roots_bound; eauto. }
    assert (RR1 : rep_result h1 r R).
    { apply (result_seen h); auto. intros l (x & Ix & Rx). apply OLD1.
      eapply reach_lt; [exact OK| |exact Rx]. eapply roots_bound; eauto. }
    apply (result_seen h1); auto. intros l Rl.
    refine (proj1 (edits_frame _ _ _ _ ED l _ _)).
    - pose proof (BEL l Rl). lia.
    - intros (x & [<-|Ix] & Rx).
      + apply reach_above with (n := length h) in Rx; auto; [|lia]. pose proof (BEL l Rl). lia.
      + apply (SEP x l Ix Rx Rl). }
  pose proof (C72_get_step_lemma h2 r R m RR2) as H. destruct (get_step R m); auto.
  destruct H as (s' & h3 & H1 & H2 & _). eauto.
Qed.
