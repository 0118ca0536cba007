(** Proofs about the heap model: updates, cached and kept steps, whole runs. *)
From Verif Require Import Prelude Dict Val ValFacts StateModel ResultModel HeapModel SpecHeap HeapFacts HeapMore.

(** * Updates *)

(** Updating an object does what updating the plain state does, however the update and the
    state share values, as long as the update does not hold the state's own dictionaries. *)
Lemma C72_batch_lemma : forall h s st b x, rep_state h s st -> rep (own_dict h s) h b x ->
  match batch_update st x with
  | Ok st' => exists h', h_batch_update h s b = Ok h' /\ rep_state h' s st' /\
                (forall l o, ~ own_dict h s l -> nth_error h l = Some o -> nth_error h' l = Some o)
  | Err e => h_batch_update h s b = Err e
  end.
Proof.
  intros h s st b x RS RB. apply stands_rep in RS as (t & a & S).
  assert (OWN : forall l, own_dict h s l <-> l = t \/ l = a).
  { destruct S as (d & sd & g & Ns & Dta & Nt & Ds & _). intros l. split.
    - intros (t' & d' & Ns' & Nt' & E). rewrite Ns in Ns'. injection Ns' as <-. rewrite Nt in Nt'. injection Nt' as <-.
      destruct E as [E|E]; auto. right. congruence.
    - intros [->| ->]; exists t, d; auto. }
  assert (RB' : rep (fun l => l = t \/ l = a) h b x).
  { eapply rep_mono; [|exact RB]. intros l o B N. split; auto. rewrite <- OWN; auto. }
  pose proof (batch_stands h s t a st b x S RB') as H. destruct (batch_update st x) as [st'|e]; auto.
  destruct H as (h' & -> & S' & O). exists h'. split; auto. split; [apply stands_rep; eauto|].
  intros l o NO N. rewrite OWN in NO. apply (proj2 O); auto.
Qed.

(** * Cached and kept steps *)

Lemma only_reach : forall t a h h' x y, only t a h h' ->
  (forall l, reach h x l -> l <> t /\ l <> a /\ (l < length h)%nat) -> reach h' x y -> reach h x y.
Proof.
  intros t a h h' x y (_ & O) AV R.
  apply (reach_closed h' (reach h x) x y); [|apply reach_here|exact R].
  intros l o m Rl N I. destruct (AV l Rl) as (A1 & A2 & A3).
  apply nth_error_Some in A3. destruct (nth_error h l) as [o'|] eqn:N'; [|congruence].
  rewrite (O l o' A1 A2 N') in N. injection N as <-. eapply reach_last; eauto.
Qed.

(** [apart h n t a s]: nothing reached from [s] is one of [t], [a]; all of it exists. *)
Definition apart (h : heap) (t a s : nat) : Prop :=
  forall l, reach h s l -> l <> t /\ l <> a /\ (l < length h)%nat.

Lemma apart_only : forall t a h h' s st, only t a h h' -> apart h t a s -> rep_state h s st ->
  apart h' t a s /\ rep_state h' s st.
Proof.
  intros t a h h' s st O AP RS. split.
  - intros l R. apply (only_reach t a h h' s l O AP) in R. destruct (AP l R) as (A & B & C).
    pose proof (proj1 O). repeat split; auto; lia.
  - apply (state_seen h); auto. intros l R. destruct (AP l R) as (A & B & C).
    apply nth_error_Some in C. destruct (nth_error h l) as [o|] eqn:N; [|congruence].
    apply (proj2 O); auto.
Qed.

Lemma only_of_old : forall t a h h1, (length h <= length h1)%nat ->
  (forall l, (l < length h)%nat -> nth_error h1 l = nth_error h l) -> only t a h h1.
Proof.
  intros t a h h1 L OLD. split; auto. intros l o _ _ N. rewrite OLD; auto. eapply nth_lt; eauto.
Qed.

Definition stored_ok (h : heap) (t a : nat) (l : dict Z nat) (L : dict Z sstate) : Prop :=
  Forall2 (fun p q => fst p = fst q /\ rep_state h (snd p) (snd q) /\ apart h t a (snd p)) l L.

Lemma stored_only : forall t a h h' l L, only t a h h' -> stored_ok h t a l L -> stored_ok h' t a l L.
Proof.
  intros t a h h' l L O F. unfold stored_ok in *. induction F as [|p q ? ? (K & R & A)]; constructor; auto.
  destruct (apart_only t a h h' _ _ O A R). auto.
Qed.

Lemma stored_set : forall h t a l L k s st, stored_ok h t a l L -> rep_state h s st -> apart h t a s ->
  stored_ok h t a (dset k s l) (dset k st L).
Proof.
  intros h t a l L k s st F R A. unfold stored_ok in *.
  induction F as [|[k1 s1] [k2 st1] ? ? (K & R1 & A1)]; cbn [dset].
  - constructor; auto.
  - cbn in K, R1, A1. subst. destruct (eqb k k2); constructor; auto.
Qed.

Lemma stored_dget : forall h t a l L k, stored_ok h t a l L ->
  match dget k l, dget k L with Some _, Some _ => True | None, None => True | _, _ => False end.
Proof.
  intros h t a l L k F. induction F as [|[k1 s1] [k2 st1] ? ? (K & R1 & A1)]; cbn [dget]; auto.
  cbn in K. subst. destruct (eqb k k2); auto.
Qed.

(** A copy has nothing in common with anything that existed before. *)
Lemma heap_ok_copy : forall h s t c h1, heap_ok h -> nth_error h s = Some (OState (HRef t)) ->
  h_copy h s = Ok (c, h1) -> heap_ok h1.
Proof.
  intros h s m c h1 OK N E.
  assert (Lm : (m < length h)%nat) by (eapply OK; [exact N|cbn; auto]).
  pose proof (copy_old _ _ _ _ E) as OLD. rewrite (copy_shape _ _ _ N) in E. injection E as <- <-.
  set (h1 := (h ++ map (shift_obj (length h)) h) ++ [OState (HRef (length h + m))]) in *.
  assert (Lh : length h1 = (length h + length h + 1)%nat).
  { unfold h1. rewrite !app_length, map_length; cbn; lia. }
  intros l o r NE I. rewrite Lh. destruct (Nat.lt_ge_cases l (length h)) as [L|L].
  - rewrite OLD in NE by auto. pose proof (OK _ _ _ NE I). lia.
  - destruct (Nat.lt_ge_cases l (length h + length h)) as [L2|L2].
    + unfold h1 in NE. rewrite nth_old in NE by (rewrite app_length, map_length; lia).
      rewrite nth_error_app2, nth_error_map in NE by lia.
      destruct (nth_error h (l - length h)) as [o0|] eqn:N0; cbn in NE; [|discriminate].
      injection NE as <-. apply children_shift in I as (r0 & -> & I0).
      pose proof (OK _ _ _ N0 I0). lia.
    + assert (l = length (h ++ map (shift_obj (length h)) h)) as ->.
      { apply nth_lt in NE. rewrite Lh in NE. rewrite app_length, map_length. lia. }
      unfold h1 in NE. rewrite nth_new in NE. injection NE as <-. cbn in I. destruct I as [I|[]].
      injection I as <-. lia.
Qed.

Lemma copy_apart : forall h s t a st c h1 t2 a2, heap_ok h -> stands h s t a st -> h_copy h s = Ok (c, h1) ->
  (t2 < length h)%nat -> (a2 < length h)%nat -> apart h1 t2 a2 c /\ rep_state h1 c st /\ only t2 a2 h h1 /\ heap_ok h1.
Proof.
  intros h s t a st c h1 t2 a2 OK S E L1 L2.
  destruct (copy_stands _ _ _ _ _ S) as (h1' & E' & S1 & Lh & OLD). rewrite E in E'. injection E' as -> ->.
  destruct S as (d & sd & g & Ns & _). pose proof (heap_ok_copy _ _ _ _ _ OK Ns E) as OK1.
  split; [|split; [apply stands_rep; eauto|split; [apply only_of_old; auto; lia|auto]]].
  intros l R. pose proof (reach_lt _ _ _ OK1 Lh R).
  rewrite (copy_shape _ _ _ Ns) in E. injection E as <-.
  apply reach_above with (n := length h) in R; [lia|eapply copy_closed; eauto|lia].
Qed.

(** Updates keep the heap free of dangling references. *)
Lemma ok_put_new : forall h l o o2, heap_ok h ->
  (forall r, In (HRef r) (children o) -> (r < length h)%nat) ->
  (forall r, In (HRef r) (children o2) -> (r <= length h)%nat) ->
  heap_ok (put (h ++ [o]) l o2).
Proof.
  intros h l o o2 OK Ho Ho2 x ob r N I. rewrite put_length, app_length. cbn.
  apply put_inv in N as [(-> & ->)|(D & N)].
  - apply Ho2 in I. lia.
  - destruct (Nat.lt_ge_cases x (length h)) as [L|L].
    + rewrite nth_old in N by auto. pose proof (OK _ _ _ N I). lia.
    + assert (x = length h) as -> by (apply nth_lt in N; rewrite app_length in N; cbn in N; lia).
      rewrite nth_new in N. injection N as <-. apply Ho in I. lia.
Qed.

Lemma ok_set_site : forall h s id u h', heap_ok h -> h_set_site_state h s id u = Ok h' -> heap_ok h'.
Proof.
  intros h s id u h' OK H. unfold h_set_site_state in H.
  inv_bind H. inv_bind H. inv_bind H. destruct x1 as [lu upd]. inv_bind H. inv_bind H.
  destruct x2 as [a sd]. cbn in H. injection H as <-.
  apply get_dict_inv in E1 as (-> & Nu). apply get_dict_inv in E3 as (-> & Na).
  apply ok_put_new; auto.
  - intros r I. cbn in I. apply dmerge_vals in I as [I|I]; [|exact (OK _ _ _ Nu I)].
    assert (K : forall w, In w (map snd [(SITE_ID, key_hval id)]) -> w <> HRef r).
    { intros w [<-|[]]. destruct id; discriminate. }
    destruct x as [| | | | |m]; try (cbn in E0; discriminate).
    + injection E0 as <-. exfalso. eapply K; eauto.
    + destruct (get_dict h (HRef m)) as [[n' od]|] eqn:GD; cbn [bind] in E0; [|discriminate].
      apply get_dict_inv in GD as (_ & Nn). injection E0 as <-. exact (OK _ _ _ Nn I).
  - intros r I. cbn in I. apply dset_vals in I as [I|I]; [injection I as ->; auto|].
    pose proof (OK _ _ _ Na I). lia.
Qed.

Lemma ok_set_general : forall h s u h', heap_ok h -> h_set_general_state h s u = Ok h' -> heap_ok h'.
Proof.
  intros h s u h' OK H. unfold h_set_general_state in H.
  inv_bind H. inv_bind H. destruct x0 as [lo old]. inv_bind H. destruct x0 as [lu upd].
  inv_bind H. inv_bind H. destruct x1 as [st d]. cbn in H. injection H as <-.
  apply get_dict_inv in E0 as (-> & No). apply get_dict_inv in E1 as (-> & Nu).
  apply get_dict_inv in E3 as (-> & Nd).
  apply ok_put_new; auto.
  - intros r I. cbn in I. apply dmerge_vals in I as [I|I]; [exact (OK _ _ _ No I)|exact (OK _ _ _ Nu I)].
  - intros r I. cbn in I. apply dset_vals in I as [I|I]; [injection I as ->; auto|].
    pose proof (OK _ _ _ Nd I). lia.
Qed.

Lemma ok_set_sites : forall items h s h', heap_ok h -> h_set_sites h s items = Ok h' -> heap_ok h'.
Proof.
  unfold h_set_sites. induction items as [|[k v] t IH]; intros h s h' OK H; cbn [foldM] in H.
  - injection H as <-; auto.
  - inv_bind H. eapply IH; [|exact H]. eapply ok_set_site; eauto.
Qed.

Lemma ok_batch : forall h s b h', heap_ok h -> h_batch_update h s b = Ok h' -> heap_ok h'.
Proof.
  intros h s b h' OK H. unfold h_batch_update in H. inv_bind H. destruct x as [l d].
  destruct (dmem GENERAL d).
  - inv_bind H. inv_bind H. inv_bind H. destruct x1. inv_bind H.
    eapply ok_set_general; [|exact H]. eapply ok_set_sites; eauto.
  - eapply ok_set_sites; eauto.
Qed.

Lemma load_loop_stands : forall ds DS interval live t a st stored STORED i h out S',
  heap_ok h -> stands h live t a st -> stored_ok h t a stored STORED ->
  Forall2 (rep (fun l => l = t \/ l = a) h) ds DS ->
  load_loop interval st STORED i DS = (S', out) ->
  match out with
  | Ok _ => exists stored' h', h_load_loop interval live stored i ds h = Ok (stored', h') /\
              stored_ok h' t a stored' S' /\ only t a h h'
  | Err e => h_load_loop interval live stored i ds h = Err e
  end.
Proof.
  induction ds as [|v ds IH]; intros DS interval live t a st stored STORED i h out S' OK S SO F H;
    inversion F as [|? x ? DS' RX F']; subst; cbn [load_loop h_load_loop] in *.
  - injection H as <- <-. exists stored, h. split; auto. split; auto. apply only_refl.
  - pose proof (batch_stands h live t a st v x S RX) as B.
    destruct (batch_update st x) as [st1|e]; [|injection H as <- <-; rewrite B; auto].
    destruct B as (h1 & E1 & S1 & O1). rewrite E1. cbn [bind].
    destruct (interval =? 0); [injection H as <- <-; auto|].
    pose proof (ok_batch _ _ _ _ OK E1) as OK1.
    pose proof (stored_only _ _ _ _ _ _ O1 SO) as SO1.
    assert (F1 : Forall2 (rep (fun l => l = t \/ l = a) h1) ds DS').
    { clear - F' O1. induction F'; constructor; auto. eapply only_rep; eauto. }
    assert (C : (((i + 1) mod interval =? 0) && negb (dmem (i + 1) stored)) =
                ((i + 1) mod interval =? 0) && match dget (i + 1) STORED with None => true | Some _ => false end).
    { f_equal. unfold dmem. pose proof (stored_dget _ _ _ _ _ (i + 1) SO) as G.
      destruct (dget (i + 1) stored), (dget (i + 1) STORED); try contradiction; auto. }
    rewrite C. destruct (_ && _).
    + destruct (copy_stands _ _ _ _ _ S1) as (h2 & E2 & _). rewrite E2. cbn [bind].
      assert (Lt : (t < length h1)%nat) by (destruct S1 as (? & ? & ? & _ & _ & N & _); eapply nth_lt; eauto).
      assert (La : (a < length h1)%nat) by (destruct S1 as (? & ? & ? & _ & _ & _ & _ & N & _); eapply nth_lt; eauto).
      destruct (copy_apart h1 live t a st1 _ h2 t a OK1 S1 E2 Lt La) as (A2 & R2 & O2 & OK2).
      assert (S2 : stands h2 live t a st1).
      { destruct S1 as (d & sd & g & Ns & Dta & Nt & Ds & Na & Dg & Fs & Rg).
        pose proof (copy_old _ _ _ _ E2) as OLD.
        exists d, sd, g. repeat split; auto.
        - rewrite OLD; auto. eapply nth_lt; eauto.
        - rewrite OLD; auto.
        - rewrite OLD; auto.
        - eapply only_entries; eauto.
        - eapply only_rep; eauto. }
      specialize (IH DS' interval live t a st1 (dset (i + 1) (length h1 + length h1)%nat stored)
                    (dset (i + 1) st1 STORED) (i + 1) h2 out S' OK2 S2).
      assert (IHc := IH (stored_set _ _ _ _ _ _ _ _ (stored_only _ _ _ _ _ _ O2 SO1) R2 A2)).
      assert (F2 : Forall2 (rep (fun l => l = t \/ l = a) h2) ds DS').
      { clear - F1 O2. induction F1; constructor; auto. eapply only_rep; eauto. }
      specialize (IHc F2 H). destruct out; auto.
      destruct IHc as (stored' & h' & E & SO' & O'). exists stored', h'. split; auto. split; auto.
      apply (only_trans _ _ h h1 h'); auto. apply (only_trans _ _ h1 h2 h'); auto.
    + specialize (IH DS' interval live t a st1 stored STORED (i + 1) h1 out S' OK1 S1 SO1 F1 H).
      destruct out; auto.
      destruct IH as (stored' & h' & E & SO' & O'). exists stored', h'. split; auto. split; auto.
      apply (only_trans _ _ h h1 h'); auto.
Qed.

Lemma rep_state_lt : forall h s st, rep_state h s st -> (s < length h)%nat.
Proof. intros h s st (t & a & d & sd & g & N & _). eapply nth_lt; eauto. Qed.

Lemma rep_state_old : forall h h1 s st, heap_ok h ->
  (forall l, (l < length h)%nat -> nth_error h1 l = nth_error h l) -> rep_state h s st -> rep_state h1 s st.
Proof.
  intros h h1 s st OK OLD R. apply (state_seen h); auto. intros l Rl. apply OLD.
  apply (reach_lt h s l OK (rep_state_lt _ _ _ R) Rl).
Qed.

(** load_steps on objects caches what load_steps caches on plain values; it changes no
    object that existed. *)
Lemma C72_load_lemma : forall h r R k R' out, heap_ok h -> rep_result h r R -> load_steps R k = (R', out) ->
  match out with
  | Ok _ => exists r' h', h_load_steps h r k = Ok (r', h') /\ rep_result h' r' R' /\
              (forall l, (l < length h)%nat -> nth_error h' l = nth_error h l)
  | Err e => h_load_steps h r k = Err e
  end.
Proof.
  intros h r R k R' out OK RR H. pose proof RR as (RI & RD & RS).
  unfold load_steps in H. destruct (load_loop k (r_init R) (dset 0 (r_init R) (r_stored R)) 0 (r_diffs R)) as [S' out'] eqn:LL.
  injection H as <- <-. unfold h_load_steps.
  apply stands_rep in RI as (t & a & S).
  destruct (copy_stands _ _ _ _ _ S) as (h1 & E1 & S1 & L1 & OLD1). rewrite E1. cbn [bind].
  set (live := (length h + length h)%nat) in *. set (t1 := (length h + t)%nat) in *. set (a1 := (length h + a)%nat) in *.
  assert (OK1 : heap_ok h1).
  { destruct S as (d & sd & g & Ns & _). exact (heap_ok_copy _ _ _ _ _ OK Ns E1). }
  assert (RI1 : rep_state h1 (hr_init r) (r_init R)).
  { apply (rep_state_old h h1 _ _ OK OLD1). apply stands_rep; eauto. }
  apply stands_rep in RI1 as (t' & a' & S1').
  destruct (copy_stands _ _ _ _ _ S1') as (h2 & E2 & _ & L2 & OLD2). rewrite E2. cbn [bind].
  assert (Lt : (t1 < length h1)%nat) by (destruct S1 as (? & ? & ? & _ & _ & N & _); eapply nth_lt; eauto).
  assert (La : (a1 < length h1)%nat) by (destruct S1 as (? & ? & ? & _ & _ & _ & _ & N & _); eapply nth_lt; eauto).
  destruct (copy_apart h1 _ t' a' _ _ h2 t1 a1 OK1 S1' E2 Lt La) as (A2 & R2 & O2 & OK2).
  assert (S2 : stands h2 live t1 a1 (r_init R)).
  { destruct S1 as (d & sd & g & Ns & Dta & Nt & Ds & Na & Dg & Fs & Rg).
    exists d, sd, g. repeat split; auto.
    - rewrite OLD2; auto.
    - rewrite OLD2; auto.
    - rewrite OLD2; auto.
    - eapply only_entries; eauto.
    - eapply only_rep; eauto. }
  assert (OLD : forall l, (l < length h)%nat -> nth_error h2 l = nth_error h l).
  { intros l L. rewrite OLD2 by lia. apply OLD1; auto. }
  assert (SO : stored_ok h2 t1 a1 (hr_stored r) (r_stored R)).
  { clear - RS OLD OK L1 L2. unfold stored_ok. induction RS as [|p q ? ? (K & RQ)]; constructor; auto.
    repeat split; auto.
    - exact (rep_state_old _ _ _ _ OK OLD RQ).
    - intros E0. assert (l0 < length h)%nat; [|subst l0 t1; lia].
      eapply reach_below; [exact OK|exact OLD| |exact H]. eapply rep_state_lt; eauto.
    - intros E0. assert (l0 < length h)%nat; [|subst l0 a1; lia].
      eapply reach_below; [exact OK|exact OLD| |exact H]. eapply rep_state_lt; eauto.
    - assert (l0 < length h)%nat; [|lia].
      eapply reach_below; [exact OK|exact OLD| |exact H]. eapply rep_state_lt; eauto. }
  assert (FD : Forall2 (rep (fun l => l = t1 \/ l = a1) h2) (hr_diffs r) (r_diffs R)).
  { clear - RD OLD. induction RD; constructor; auto. eapply rep_mono; [|exact H]. intros l0 o B N.
    pose proof (nth_lt _ _ _ N). rewrite OLD by auto. split; auto. subst t1 a1. lia. }
  pose proof (load_loop_stands _ _ k live t1 a1 _ (dset 0 (length h1 + length h1)%nat (hr_stored r))
     (dset 0 (r_init R) (r_stored R)) 0 h2 out' S' OK2 S2 (stored_set _ _ _ _ _ _ _ _ SO R2 A2) FD LL) as H.
  destruct out' as [u|e]; [|rewrite H; auto].
  destruct H as (stored' & h3 & -> & SO3 & O3). cbn [bind]. eexists _, h3. split; [reflexivity|].
  assert (OLD3 : forall l, (l < length h)%nat -> nth_error h3 l = nth_error h l).
  { intros l L. rewrite <- (OLD l L). exact (stands_only_frame _ _ _ _ (length h) O3 ltac:(lia) ltac:(lia) ltac:(lia) l L). }
  split; auto. split; [|split].
  - cbn [hr_init r_init]. apply (rep_state_old h h3 _ _ OK OLD3). apply stands_rep; eauto.
  - cbn [hr_diffs r_diffs]. clear - RD OLD3. induction RD; constructor; auto. eapply rep_mono; [|exact H]. intros l0 o B N.
    pose proof (nth_lt _ _ _ N). rewrite OLD3 by auto. split; auto.
  - cbn [hr_stored r_stored]. clear - SO3. unfold stored_ok in SO3. induction SO3 as [|p q ? ? (K & R1 & A)]; constructor; auto.
Qed.

(** [list(result.steps())]: as many references to one object as there are updates; the
    object shows the last step. *)
Lemma steps_loop_same : forall ds live h l h', h_steps_loop live ds h = Ok (l, h') -> l = repeat live (length ds).
Proof.
  induction ds as [|d ds IH]; intros live h l h' H; cbn [h_steps_loop] in H.
  - injection H as <- <-. auto.
  - inv_bind H. inv_bind H. destruct x0 as [l2 h2]. injection H as <- <-. cbn. f_equal. eapply IH; eauto.
Qed.

Lemma steps_loop_stands : forall ds DS live t a st h,
  stands h live t a st -> Forall2 (rep (fun l => l = t \/ l = a) h) ds DS ->
  match foldM batch_update DS st with
  | Ok st' => exists l h', h_steps_loop live ds h = Ok (l, h') /\ stands h' live t a st'
  | Err e => h_steps_loop live ds h = Err e
  end.
Proof.
  induction ds as [|v ds IH]; intros DS live t a st h S F; inversion F as [|? x ? DS' RX F']; subst; cbn [foldM h_steps_loop].
  - exists [], h. auto.
  - pose proof (batch_stands h live t a st v x S RX) as B.
    destruct (batch_update st x) as [st1|e]; cbn [bind]; [|rewrite B; auto].
    destruct B as (h1 & -> & S1 & O1). cbn [bind].
    assert (F1 : Forall2 (rep (fun l => l = t \/ l = a) h1) ds DS').
    { clear - F' O1. induction F'; constructor; auto. eapply only_rep; eauto. }
    specialize (IH DS' live t a st1 h1 S1 F1). destruct (foldM _ DS' st1) as [st'|e]; [|rewrite IH; auto].
    destruct IH as (l & h' & -> & S'). cbn [bind]. eauto.
Qed.

Lemma C09_kept_lemma : forall h r R l h', rep_result h r R -> h_steps h r = Ok (l, h') ->
  exists live st, l = repeat live (length (r_diffs R)) /\
    foldM batch_update (r_diffs R) (r_init R) = Ok st /\ rep_state h' live st.
Proof.
  intros h r R l h' RR H. pose proof RR as (RI & RD & RS). unfold h_steps in H.
  apply stands_rep in RI as (t & a & S).
  destruct (copy_stands _ _ _ _ _ S) as (h1 & E1 & S1 & L1 & OLD). rewrite E1 in H. cbn [bind] in H.
  assert (FD : Forall2 (rep (fun l => l = length h + t \/ l = length h + a)%nat h1) (hr_diffs r) (r_diffs R)).
  { clear - RD OLD. induction RD; constructor; auto. eapply rep_mono; [|exact H]. intros l0 o B N.
    pose proof (nth_lt _ _ _ N). rewrite OLD by auto. split; auto. lia. }
  pose proof (steps_loop_stands _ _ _ _ _ _ h1 S1 FD) as G. rewrite H in G.
  exists (length h + length h)%nat. destruct (foldM batch_update (r_diffs R) (r_init R)) as [st|e]; [|discriminate].
  destruct G as (l' & h2 & E & S2). injection E as <- <-. exists st. split; [|split; auto; apply stands_rep; eauto].
  rewrite (steps_loop_same _ _ _ _ _ H). f_equal. clear - RD. induction RD; cbn; congruence.
Qed.

(** * Runs *)

(** [keeps n h h']: nothing below [n] changed, nothing disappeared. *)
Definition keeps (n : nat) (h h' : heap) : Prop :=
  (length h <= length h')%nat /\ forall l, (l < n)%nat -> nth_error h' l = nth_error h l.

Lemma keeps_refl : forall n h, keeps n h h.
Proof. split; auto. Qed.
Lemma keeps_trans : forall n h1 h2 h3, keeps n h1 h2 -> keeps n h2 h3 -> keeps n h1 h3.
Proof. intros n h1 h2 h3 (A & B) (A' & B'). split; [lia|]. intros l L. rewrite B', B; auto. Qed.
Lemma keeps_weaken : forall n m h h', (m <= n)%nat -> keeps n h h' -> keeps m h h'.
Proof. intros n m h h' L (A & B). split; auto. intros l Ll. apply B; lia. Qed.
Lemma keeps_put : forall n h l o, (n <= l)%nat -> keeps n h (put h l o).
Proof. intros n h l o L. split; [rewrite put_length; auto|]. intros m Lm. apply put_other; lia. Qed.
Lemma keeps_app : forall n h t, (n <= length h)%nat -> keeps n h (h ++ t).
Proof. intros n h t L. split; [rewrite app_length; lia|]. intros m Lm. apply nth_old; lia. Qed.
Lemma extends_keeps : forall n h h', extends h h' -> (n <= length h)%nat -> keeps n h h'.
Proof. intros n h h' (t & ->) L. apply keeps_app; auto. Qed.

(** The parts of the live state that updates write to. *)
Definition live_ok (h : heap) (s t a : nat) : Prop :=
  exists d sd, nth_error h s = Some (OState (HRef t)) /\ t <> a /\ nth_error h t = Some (ODict d) /\
    dget SITES d = Some (HRef a) /\ nth_error h a = Some (ODict sd).

Lemma stands_live : forall h s t a st, stands h s t a st -> live_ok h s t a.
Proof. intros h s t a st (d & sd & g & Ns & Dta & Nt & Ds & Na & _). exists d, sd. auto. Qed.

Lemma live_keeps : forall n h h' s t a, live_ok h s t a -> keeps n h h' ->
  (s < n)%nat -> (t < n)%nat -> (a < n)%nat -> live_ok h' s t a.
Proof.
  intros n h h' s t a (d & sd & Ns & D & Nt & Ds & Na) (_ & K) Ls Lt La. exists d, sd. repeat split; auto; rewrite K; auto.
Qed.

Lemma set_site_live : forall h s t a id u h', live_ok h s t a -> h_set_site_state h s id u = Ok h' ->
  live_ok h' s t a /\ only t a h h'.
Proof.
  intros h s t a id u h' (d & sd & Ns & D & Nt & Ds & Na) H. unfold h_set_site_state in H.
  assert (SS : h_sites h s = Ok (HRef a)).
  { unfold h_sites, state_attr. rewrite Ns. cbn [bind get_dict]. rewrite Nt. cbn [bind]. unfold dgetE. rewrite Ds. auto. }
  inv_bind H. inv_bind H. inv_bind H. destruct x1 as [lu upd]. rewrite SS in H. cbn [bind] in H.
  unfold get_dict in H at 1. rewrite Na in H. cbn in H. injection H as <-.
  assert (O : only t a h (put (h ++ [ODict (dmerge x0 upd)]) a (ODict (dset id (HRef (length h)) sd)))) by (apply put_only; auto).
  split; auto. exists d, (dset id (HRef (length h)) sd). repeat split; auto.
  - apply (proj2 O); auto; intros ->; congruence.
  - rewrite put_other by auto. rewrite nth_old; auto. eapply nth_lt; eauto.
  - apply put_same. rewrite app_length. apply nth_lt in Na. lia.
Qed.

Lemma set_general_live : forall h s t a u h', live_ok h s t a -> h_set_general_state h s u = Ok h' ->
  live_ok h' s t a /\ only t a h h'.
Proof.
  intros h s t a u h' (d & sd & Ns & D & Nt & Ds & Na) H. unfold h_set_general_state in H.
  assert (SA : state_attr h s = Ok (HRef t)) by (unfold state_attr; rewrite Ns; auto).
  inv_bind H. inv_bind H. destruct x0 as [lo old]. inv_bind H. destruct x0 as [lu upd].
  rewrite SA in H. cbn [bind] in H. unfold get_dict in H at 1. rewrite Nt in H. cbn in H. injection H as <-.
  assert (O : only t a h (put (h ++ [ODict (dmerge old upd)]) t (ODict (dset GENERAL (HRef (length h)) d)))) by (apply put_only; auto).
  split; auto. exists (dset GENERAL (HRef (length h)) d), sd. repeat split; auto.
  - apply (proj2 O); auto; intros ->; congruence.
  - apply put_same. rewrite app_length. apply nth_lt in Nt. lia.
  - rewrite dget_dset_other by discriminate; auto.
  - rewrite put_other by auto. rewrite nth_old; auto. eapply nth_lt; eauto.
Qed.

Lemma set_sites_live : forall items h s t a h', live_ok h s t a -> h_set_sites h s items = Ok h' ->
  live_ok h' s t a /\ only t a h h'.
Proof.
  unfold h_set_sites. induction items as [|[k v] tl IH]; intros h s t a h' L H; cbn [foldM] in H.
  - injection H as <-. split; auto. apply only_refl.
  - inv_bind H. destruct (set_site_live _ _ _ _ _ _ _ L E) as (L1 & O1).
    destruct (IH _ _ _ _ _ L1 H) as (L2 & O2). split; auto. eapply only_trans; eauto.
Qed.

Lemma batch_live : forall h s t a b h', live_ok h s t a -> h_batch_update h s b = Ok h' ->
  live_ok h' s t a /\ only t a h h'.
Proof.
  intros h s t a b h' L H. unfold h_batch_update in H. inv_bind H. destruct x as [l d].
  destruct (dmem GENERAL d).
  - inv_bind H. inv_bind H. inv_bind H. destruct x1. inv_bind H.
    destruct (set_sites_live _ _ _ _ _ _ L E1) as (L1 & O1).
    destruct (set_general_live _ _ _ _ _ _ L1 H) as (L2 & O2). split; auto. eapply only_trans; eauto.
  - eapply set_sites_live; eauto.
Qed.

Lemma only_keeps : forall n h h' t a, only t a h h' -> (n <= t)%nat -> (n <= a)%nat -> (n <= length h)%nat -> keeps n h h'.
Proof.
  intros n h h' t a O Lt La Ln. split; [apply O|]. apply (stands_only_frame h h' t a n O Lt La Ln).
Qed.

(** Merged updates are new objects. *)
Definition cur_ok (n : nat) (h : heap) (b : hval) : Prop :=
  b = HNone \/ exists c d x y, b = HRef c /\ (n <= c)%nat /\ nth_error h c = Some (ODict d) /\
    dget SITES d = Some (HRef x) /\ dget GENERAL d = Some (HRef y) /\
    (n <= x)%nat /\ (n <= y)%nat /\ x <> c /\ y <> c.

Lemma update_in_keeps : forall n h k d b h', k = SITES \/ k = GENERAL -> cur_ok n h b ->
  h_update_in h k d b = Ok h' -> cur_ok n h' b /\ keeps n h h'.
Proof.
  intros n h k d b h' HK CO H. unfold h_update_in in H. inv_bind H. destruct x as [l cd]. inv_bind H. inv_bind H.
  destruct x0 as [m old]. injection H as <-. apply get_dict_inv in E as (-> & N). apply get_dict_inv in E1 as (-> & M).
  destruct CO as [CO|(c & d' & x & y & EQ & L & N' & DS & DG & Lx & Ly & Dx & Dy)]; [discriminate|].
  injection EQ as <-. rewrite N in N'. injection N' as <-.
  assert (m = x \/ m = y).
  { unfold dgetE in E0. destruct HK as [-> | ->].
    - rewrite DS in E0. left; congruence.
    - rewrite DG in E0. right; congruence. }
  assert (Lm : (n <= m)%nat) by (destruct H; subst; auto).
  assert (Dm : m <> l) by (destruct H; subst; auto).
  split; [|apply keeps_put; auto]. right. exists l, cd, x, y. repeat split; auto.
  rewrite put_other; auto.
Qed.

Lemma cur_keeps : forall n h h' b, cur_ok n h b -> extends h h' -> cur_ok n h' b.
Proof.
  intros n h h' b [->|(c & d & x & y & -> & L & N & H)] (t & ->); [left; auto|right].
  exists c, d, x, y. split; auto. split; auto. split; auto. rewrite nth_old; auto. eapply nth_lt; eauto.
Qed.

Lemma merge_keeps : forall n h u b id b' h', (n <= length h)%nat -> cur_ok n h b ->
  h_merge_updates h u b id = Ok (b', h') -> cur_ok n h' b' /\ keeps n h h'.
Proof.
  intros n h u b id b' h' Ln CO H. unfold h_merge_updates in H.
  destruct (match u with HNone => true | _ => false end) eqn:UN.
  { destruct u; try discriminate. injection H as <- <-. split; auto. apply keeps_refl. }
  set (start := match b with
        | HNone =>
            let '(a, h1) := alloc h (ODict []) in
            let '(g, h2) := alloc h1 (ODict []) in
            alloc h2 (ODict [(SITES, a); (GENERAL, g)])
        | _ => (b, h)
        end) in H.
  assert (ST : cur_ok n (snd start) (fst start) /\ keeps n h (snd start)).
  { unfold start. destruct b; cbn [fst snd]; try (split; [exact CO|apply keeps_refl]).
    unfold alloc. cbn [fst snd]. split.
    - right. exists (length ((h ++ [ODict []]) ++ [ODict []])),
        [(SITES, HRef (length h)); (GENERAL, HRef (length (h ++ [ODict []])))], (length h), (length (h ++ [ODict []])).
      rewrite !app_length; cbn [length]. repeat split; auto; try lia.
      replace (length h + 1 + 1)%nat with (length ((h ++ [ODict []]) ++ [ODict []])) by (rewrite !app_length; auto).
      rewrite nth_new. rewrite ?app_length; reflexivity.
    - rewrite <- !app_assoc. apply keeps_app; auto. }
  destruct start as [curr h0]. cbn [fst snd] in ST. destruct ST as (C0 & K0).
  assert (H' : (do (_, nu) <- get_dict h0 u;
      if dmem SITES nu || dmem GENERAL nu then
        do ns <- h_upd_arg h0 (dget SITES nu);
        do h3 <- h_update_in h0 SITES ns curr;
        do ng <- h_upd_arg h3 (dget GENERAL nu);
        do h4 <- h_update_in h3 GENERAL ng curr;
        Ok (curr, h4)
      else if match nu with
              | [] => false
              | _ => forallb (fun kv => match fst kv with KInt _ => true | KStr _ => false end) nu
              end
      then do h3 <- h_update_in h0 SITES nu curr; Ok (curr, h3)
      else
        match id with
        | Some id => do h3 <- h_update_in h0 SITES [(id, u)] curr; Ok (curr, h3)
        | None => Err ValueError
        end) = Ok (b', h')) by (destruct u; try exact H; discriminate).
  clear H. inv_bind H'. destruct x as [l nu].
  destruct (dmem SITES nu || dmem GENERAL nu).
  - inv_bind H'. inv_bind H'. inv_bind H'. inv_bind H'. injection H' as <- <-.
    destruct (update_in_keeps n h0 SITES _ curr _ (or_introl eq_refl) C0 E1) as (C1 & K1).
    destruct (update_in_keeps n _ GENERAL _ curr _ (or_intror eq_refl) C1 E3) as (C2 & K2).
    split; auto. eapply keeps_trans; [exact K0|]. eapply keeps_trans; eauto.
  - destruct (match nu with [] => false | _ => _ end).
    + inv_bind H'. injection H' as <- <-.
      destruct (update_in_keeps n h0 SITES _ curr _ (or_introl eq_refl) C0 E0) as (C1 & K1).
      split; auto. eapply keeps_trans; eauto.
    + destruct id; [|discriminate]. inv_bind H'. injection H' as <- <-.
      destruct (update_in_keeps n h0 SITES _ curr _ (or_introl eq_refl) C0 E0) as (C1 & K1).
      split; auto. eapply keeps_trans; eauto.
Qed.

Section Runs.
  Context {C : Type} (ctl : hcontroller C).
  Hypothesis HANDS : hands_off ctl.

  (** [M]: length of the heap before the live state was made; [N]: after. *)
  Lemma async_keeps : forall n M N live t a r q c h r' h',
    live_ok h live t a -> (M <= t)%nat -> (M <= a)%nat -> (live < N)%nat -> (t < N)%nat -> (a < N)%nat ->
    (M <= N)%nat -> (N <= length h)%nat ->
    h_async_loop ctl n live r q c h = Ok (r', h') ->
    keeps M h h' /\ hr_init r' = hr_init r /\ hr_stored r' = hr_stored r.
  Proof.
    induction n as [|n IH]; intros M N live t a r q c h r' h' L Mt Ma Nl Nt Na MN Ln H; cbn [h_async_loop] in H.
    - injection H as <- <-. split; auto. apply keeps_refl.
    - destruct q as [|id q1]; [discriminate|].
      inv_bind H. destruct x as [[resp c1] h1]. inv_bind H. destruct x as [ups next].
      inv_bind H. destruct x as [su h2]. inv_bind H. rename x into h3. inv_bind H. rename x into ks.
      destruct HANDS as (_ & HR & HU).
      pose proof (extends_keeps N _ _ (HU _ _ _ _ _ _ _ E) Ln) as K1.
      pose proof (live_keeps N _ _ _ _ _ L K1 Nl Nt Na) as L1.
      assert (Ln1 : (N <= length h1)%nat) by (pose proof (proj1 K1); lia).
      destruct (merge_keeps N h1 ups HNone (Some id) su h2 Ln1 (or_introl eq_refl) E1) as (_ & K2).
      pose proof (live_keeps N _ _ _ _ _ L1 K2 Nl Nt Na) as L2.
      assert (Ln2 : (N <= length h2)%nat) by (pose proof (proj1 K2); lia).
      destruct (batch_live _ _ _ _ _ _ L2 E2) as (L3 & O3).
      assert (K3 : keeps M h2 h3) by (eapply only_keeps; eauto; lia).
      assert (Ln3 : (N <= length h3)%nat) by (pose proof (proj1 K3); lia).
      assert (K : keeps M h h3).
      { eapply keeps_trans; [eapply keeps_weaken; [|exact K1]; lia|].
        eapply keeps_trans; [eapply keeps_weaken; [|exact K2]; lia|exact K3]. }
      destruct (q1 ++ ks) as [|k0 q2].
      + inv_bind H. destruct x as [[q3 c2] h4].
        assert (K4 : keeps N h3 h4).
        { unfold h_add_sites in E4. inv_bind E4. destruct x as [[nx c'] h5].
          pose proof (extends_keeps N _ _ (HR _ _ _ _ _ _ E5) Ln3) as K5.
          destruct nx as [| |z| | |l]; cbn [bind hval_key] in E4; try (injection E4 as <- <- <-; exact K5).
          destruct (nth_error h5 l) as [[?|vs|?|?]|]; try (injection E4 as <- <- <-; exact K5).
          inv_bind E4. injection E4 as <- <- <-. exact K5. }
        pose proof (live_keeps N _ _ _ _ _ L3 K4 Nl Nt Na) as L4.
        assert (Ln4 : (N <= length h4)%nat) by (pose proof (proj1 K4); lia).
        assert (K' : keeps M h h4) by (eapply keeps_trans; [exact K|eapply keeps_weaken; [|exact K4]; lia]).
        destruct q3 as [|k3 q3].
        * injection H as <- <-. split; auto.
        * destruct (IH M N live t a _ _ _ h4 r' h' L4 Mt Ma Nl Nt Na MN Ln4 H) as (K5 & I5 & S5).
          split; [eapply keeps_trans; eauto|]. rewrite I5, S5. auto.
      + destruct (IH M N live t a _ _ _ h3 r' h' L3 Mt Ma Nl Nt Na MN Ln3 H) as (K5 & I5 & S5).
        split; [eapply keeps_trans; eauto|]. rewrite I5, S5. auto.
  Qed.

  Lemma step_batch_keeps : forall ids N live c h b c' h' b0, (N <= length h)%nat -> cur_ok N h b0 ->
    foldM (fun '(batch_updates, c, h) site_id =>
             do (site_updates, c', h1) <- hc_update ctl c site_id live h;
             do (b, h2) <- h_merge_updates h1 site_updates batch_updates (Some site_id);
             Ok (b, c', h2)) ids (b0, c, h) = Ok (b, c', h') ->
    keeps N h h'.
  Proof.
    induction ids as [|id ids IH]; intros N live c h b c' h' b0 Ln CO H; cbn [foldM] in H.
    - injection H as <- <- <-. apply keeps_refl.
    - inv_bind H. destruct x as [[b1 c1] h2]. inv_bind E. destruct x as [[su c2] h1]. inv_bind E. destruct x as [b2 h3].
      injection E as <- <- <-.
      destruct HANDS as (_ & _ & HU). pose proof (HU _ _ _ _ _ _ _ E0) as EX.
      pose proof (extends_keeps N _ _ EX Ln) as K1.
      assert (Ln1 : (N <= length h1)%nat) by (pose proof (proj1 K1); lia).
      destruct (merge_keeps N h1 su b0 (Some id) b2 h3 Ln1 (cur_keeps _ _ _ _ CO EX) E1) as (C2 & K2).
      assert (Ln2 : (N <= length h3)%nat) by (pose proof (proj1 K2); lia).
      pose proof (IH N live c2 h3 b c' h' b2 Ln2 C2 H) as K3.
      eapply keeps_trans; [exact K1|]. eapply keeps_trans; eauto.
  Qed.

  Lemma sync_keeps : forall n M N live t a r c h r' h',
    live_ok h live t a -> (M <= t)%nat -> (M <= a)%nat -> (live < N)%nat -> (t < N)%nat -> (a < N)%nat ->
    (M <= N)%nat -> (N <= length h)%nat ->
    h_sync_loop ctl n live r c h = Ok (r', h') ->
    keeps M h h' /\ hr_init r' = hr_init r /\ hr_stored r' = hr_stored r.
  Proof.
    induction n as [|n IH]; intros M N live t a r c h r' h' L Mt Ma Nl Nt Na MN Ln H; cbn [h_sync_loop] in H.
    - injection H as <- <-. split; auto. apply keeps_refl.
    - inv_bind H. inv_bind H. destruct x0 as [[up c'] h1]. inv_bind H. rename x0 into h2.
      pose proof (step_batch_keeps _ N _ _ _ _ _ _ HNone Ln (or_introl eq_refl) E0) as K1.
      pose proof (live_keeps N _ _ _ _ _ L K1 Nl Nt Na) as L1.
      assert (Ln1 : (N <= length h1)%nat) by (pose proof (proj1 K1); lia).
      destruct (batch_live _ _ _ _ _ _ L1 E1) as (L2 & O2).
      assert (K2 : keeps M h1 h2) by (eapply only_keeps; eauto; lia).
      assert (Ln2 : (N <= length h2)%nat) by (pose proof (proj1 K2); lia).
      destruct (IH M N live t a _ _ h2 r' h' L2 Mt Ma Nl Nt Na MN Ln2 H) as (K5 & I5 & S5).
      split; [|rewrite I5, S5; auto].
      eapply keeps_trans; [eapply keeps_weaken; [|exact K1]; lia|]. eapply keeps_trans; eauto.
  Qed.

  (** What both kinds of run do around their loop. *)
  Lemma run_keeps : forall h s st h1 c0 c1 h2 live h3,
    rep_state h s st -> heap_ok h -> h_copy h s = Ok ((length h + length h)%nat, h1) ->
    hc_pre_run ctl c0 s h1 = Ok (c1, h2) -> h_copy h2 s = Ok (live, h3) ->
    exists t a, live_ok h3 live t a /\ (length h2 <= t)%nat /\ (length h2 <= a)%nat /\
      (live < length h3)%nat /\ (t < length h3)%nat /\ (a < length h3)%nat /\ (length h2 <= length h3)%nat /\
      keeps (length h) h h2 /\ keeps (length h2) h2 h3 /\ (length h1 <= length h2)%nat /\
      rep_state h2 (length h + length h) st /\
      (forall l, reach h2 (length h + length h) l -> (length h <= l < length h2)%nat).
  Proof.
    intros h s st h1 c0 c1 h2 live h3 RS OK E1 EP E2.
    apply stands_rep in RS as (t & a & S).
    destruct (copy_stands _ _ _ _ _ S) as (h1' & E1' & S1 & L1 & OLD1). rewrite E1 in E1'. injection E1' as <-.
    destruct HANDS as (HP & _ & _). pose proof (HP _ _ _ _ _ EP) as EX.
    pose proof (extends_keeps (length h1) _ _ EX (Nat.le_refl _)) as K2.
    assert (S2 : stands h2 s t a st).
    { destruct S as (d & sd & g & Ns & Dta & Nt & Ds & Na & Dg & Fs & Rg).
      assert (OLD2 : forall l o, nth_error h l = Some o -> nth_error h2 l = Some o).
      { intros l o N. pose proof (nth_lt _ _ _ N). rewrite (proj2 K2) by lia. rewrite OLD1; auto. }
      exists d, sd, g. repeat split; auto.
      - eapply entries_mono; [|exact Fs]. auto.
      - eapply rep_mono; [|exact Rg]. auto. }
    destruct (copy_stands _ _ _ _ _ S2) as (h3' & E2' & S3 & L3 & OLD3). rewrite E2 in E2'. injection E2' as -> <-.
    assert (OK1 : heap_ok h1).
    { destruct S as (d & sd & g & Ns & _). exact (heap_ok_copy _ _ _ _ _ OK Ns E1). }
    exists (length h2 + t)%nat, (length h2 + a)%nat. repeat split; try lia.
    - eapply stands_live; eauto.
    - destruct S3 as (? & ? & ? & _ & _ & N & _). apply nth_lt in N. auto.
    - destruct S3 as (? & ? & ? & _ & _ & _ & _ & N & _). apply nth_lt in N. auto.
    - pose proof (proj1 K2). lia.
    - intros l L. rewrite (proj2 K2) by lia. apply OLD1; auto.
    - intros l L. auto.
    - apply K2.
    - apply (rep_state_old h1); auto. { apply K2. } apply stands_rep; eauto.
    - assert (R1 : reach h1 (length h + length h) l).
      { apply (reach_closed h2 (reach h1 (length h + length h)) (length h + length h)); [|apply reach_here|exact H].
        intros x o m Rx N I. assert (x < length h1)%nat by exact (reach_lt _ _ _ OK1 L1 Rx).
        rewrite (proj2 K2) in N by auto. eapply reach_last; eauto. }
      destruct S as (d & sd & g & Ns & _). rewrite (copy_shape _ _ _ Ns) in E1. injection E1 as <-.
      apply reach_above with (n := length h) in R1; [lia|eapply copy_closed; eauto|lia].
    - assert (R1 : reach h1 (length h + length h) l).
      { apply (reach_closed h2 (reach h1 (length h + length h)) (length h + length h)); [|apply reach_here|exact H].
        intros x o m Rx N I. assert (x < length h1)%nat by exact (reach_lt _ _ _ OK1 L1 Rx).
        rewrite (proj2 K2) in N by auto. eapply reach_last; eauto. }
      pose proof (reach_lt _ _ _ OK1 L1 R1). pose proof (proj1 K2). lia.
  Qed.

  Lemma after_run : forall h st h2 h5 i0 diffs E h6, heap_ok h ->
    keeps (length h) h h2 -> keeps (length h2) h2 h5 -> (length h <= length h2)%nat ->
    rep_state h2 i0 st -> (forall l, reach h2 i0 l -> (length h <= l < length h2)%nat) ->
    edits (seq 0 (length h)) h5 E h6 ->
    exists s0 h7, h_get_step h6 (mkHR i0 diffs []) 0 = Ok (s0, h7) /\ rep_state h7 s0 st.
  Proof.
    intros h st h2 h5 i0 diffs E h6 OK K1 K2 L RS BND ED.
    assert (RS6 : rep_state h6 i0 st).
    { apply (state_seen h2); auto. intros l Rl. pose proof (BND l Rl) as B.
      rewrite <- (proj2 K2) by lia.
      refine (proj1 (edits_frame _ _ _ _ ED l _ _)).
      - pose proof (proj1 K2). lia.
      - intros (r & Ir & Rr). apply in_seq in Ir.
        assert (l < length h)%nat; [|lia].
        apply (reach_below h h5 r l OK); auto; try lia.
        intros x Lx. rewrite (proj2 K2) by lia. apply (proj2 K1); auto. }
    unfold h_get_step. cbn [hr_stored dget hr_init hr_diffs].
    apply stands_rep in RS6 as (t & a & S). destruct (copy_stands _ _ _ _ _ S) as (h7 & E7 & S7 & _).
    rewrite E7. cbn [bind]. change (zrange 0 0) with (@nil Z). cbn [foldM bind].
    eexists _, h7. split; [reflexivity|]. apply stands_rep; eauto.
  Qed.

  Lemma run_async_init : forall c0 s n h out st, rep_state h s st -> heap_ok h ->
    h_run_async ctl c0 s n h = Ok out ->
    (forall l, (l < length h)%nat -> nth_error (ho_heap out) l = nth_error h l) /\
    (forall E h6, edits (seq 0 (length h)) (ho_heap out) E h6 ->
       exists s0 h7, h_get_step h6 (ho_result out) 0 = Ok (s0, h7) /\ rep_state h7 s0 st).
  Proof.
    intros c0 s n h out st RS OK H. unfold h_run_async in H.
    inv_bind H. destruct x as [i0 h1]. inv_bind H. destruct x as [c1 h2]. inv_bind H. destruct x as [live h3].
    inv_bind H. destruct x as [[q c2] h4].
    assert (i0 = (length h + length h)%nat) as ->.
    { apply stands_rep in RS as (t & a & S). destruct (copy_stands _ _ _ _ _ S) as (h1' & E' & _). congruence. }
    destruct (run_keeps h s st h1 c0 c1 h2 live h3 RS OK E E0 E1)
      as (t & a & L & Lt & La & L1 & L2 & L3 & L4 & K2 & K3 & L5 & RI & BND).
    assert (K4 : keeps (length h3) h3 h4).
    { unfold h_add_sites in E2. inv_bind E2. destruct x as [[nx c'] h5].
      destruct HANDS as (_ & HR & _).
      pose proof (extends_keeps (length h3) _ _ (HR _ _ _ _ _ _ E3) (Nat.le_refl _)) as K5.
      destruct nx as [| |z| | |l]; cbn [bind hval_key] in E2; try (injection E2 as <- <- <-; exact K5).
      destruct (nth_error h5 l) as [[?|vs|?|?]|]; try (injection E2 as <- <- <-; exact K5).
      inv_bind E2. injection E2 as <- <- <-. exact K5. }
    destruct q as [|k q]; [discriminate|]. inv_bind H. destruct x as [r h5]. injection H as <-.
    pose proof (proj1 K4) as G4.
    pose proof (live_keeps _ _ _ _ _ _ L K4 L1 L2 L3) as LL.
    destruct (async_keeps _ (length h2) (length h3) live t a _ _ _ _ _ _ LL Lt La L1 L2 L3 L4 G4 E3) as (K5 & I5 & S5).
    cbn [hr_init hr_stored] in I5, S5.
    assert (K : keeps (length h2) h2 h5).
    { eapply keeps_trans; [exact K3|]. eapply keeps_trans; [|exact K5]. eapply keeps_weaken; [|exact K4]; auto. }
    assert (Lhh : (length h <= length h2)%nat) by (apply K2).
    cbn [ho_heap ho_result]. split.
    - intros l Ll. rewrite (proj2 K) by lia. apply (proj2 K2); auto.
    - intros Ed h6 ED. destruct r as [ri rd rs]. cbn [hr_init hr_stored] in I5, S5. subst ri rs.
      exact (after_run h st h2 h5 _ rd Ed h6 OK K2 K Lhh RI BND ED).
  Qed.

  Lemma run_sync_init : forall c0 s n h out st, rep_state h s st -> heap_ok h ->
    h_run_sync ctl c0 s n h = Ok out ->
    (forall l, (l < length h)%nat -> nth_error (ho_heap out) l = nth_error h l) /\
    (forall E h6, edits (seq 0 (length h)) (ho_heap out) E h6 ->
       exists s0 h7, h_get_step h6 (ho_result out) 0 = Ok (s0, h7) /\ rep_state h7 s0 st).
  Proof.
    intros c0 s n h out st RS OK H. unfold h_run_sync in H.
    inv_bind H. destruct x as [i0 h1]. inv_bind H. destruct x as [c1 h2]. inv_bind H. destruct x as [live h3].
    assert (i0 = (length h + length h)%nat) as ->.
    { apply stands_rep in RS as (t & a & S). destruct (copy_stands _ _ _ _ _ S) as (h1' & E' & _). congruence. }
    destruct (run_keeps h s st h1 c0 c1 h2 live h3 RS OK E E0 E1)
      as (t & a & L & Lt & La & L1 & L2 & L3 & L4 & K2 & K3 & L5 & RI & BND).
    inv_bind H. destruct x as [r h5]. injection H as <-.
    destruct (sync_keeps _ (length h2) (length h3) live t a _ _ _ _ _ L Lt La L1 L2 L3 L4 (Nat.le_refl _) E2) as (K5 & I5 & S5).
    cbn [hr_init hr_stored] in I5, S5.
    assert (K : keeps (length h2) h2 h5) by (eapply keeps_trans; eauto).
    assert (Lhh : (length h <= length h2)%nat) by (apply K2).
    cbn [ho_heap ho_result]. split.
    - intros l Ll. rewrite (proj2 K) by lia. apply (proj2 K2); auto.
    - intros Ed h6 ED. destruct r as [ri rd rs]. cbn [hr_init hr_stored] in I5, S5. subst ri rs.
      exact (after_run h st h2 h5 _ rd Ed h6 OK K2 K Lhh RI BND ED).
  Qed.
End Runs.

Lemma C21_lemma : forall C (ctl : hcontroller C) c0 s st n h out,
  hands_off ctl -> heap_ok h -> rep_state h s st ->
  h_run_sync ctl c0 s n h = Ok out \/ h_run_async ctl c0 s n h = Ok out ->
  (forall path, observe (ho_heap out) (HRef s) path = observe h (HRef s) path) /\
  (forall l, (l < length h)%nat -> nth_error (ho_heap out) l = nth_error h l) /\
  (forall R h', edits (seq 0 (length h)) (ho_heap out) R h' ->
     exists s0 h'', h_get_step h' (ho_result out) 0 = Ok (s0, h'') /\ rep_state h'' s0 st).
Proof.
  intros C ctl c0 s st n h out HO OK RS H.
  assert (G : (forall l, (l < length h)%nat -> nth_error (ho_heap out) l = nth_error h l) /\
    (forall E h6, edits (seq 0 (length h)) (ho_heap out) E h6 ->
       exists s0 h7, h_get_step h6 (ho_result out) 0 = Ok (s0, h7) /\ rep_state h7 s0 st)).
  { destruct H as [H|H]; [eapply run_sync_init; eauto|eapply run_async_init; eauto]. }
  destruct G as (G1 & G2). split; auto.
  intros path. apply observe_local. cbn. intros x Rx. apply G1.
  exact (reach_lt h s x OK (rep_state_lt _ _ _ RS) Rx).
Qed.
