(** Proofs for C108: what calls that raise leave behind. *)
From Verif Require Import Prelude Dict Val ValFacts StateModel ResultModel HeapModel ExnModel SpecHeap SpecExn HeapFacts HeapMore HeapRun.

(** * The same calls without the heap after exceptions *)

Definition quiet (p : heap * res unit) : res heap := match p with (h, Ok _) => Ok h | (_, Err e) => Err e end.

Lemma set_site_x : forall s id u h,
  x_set_site_state s id u h = match h_set_site_state h s id u with Ok h' => (h', Ok tt) | Err e => (h, Err e) end.
Proof.
  intros s id u h. unfold x_set_site_state, h_set_site_state, next, reads.
  destruct (h_get_site_state h s id) as [o|e]; cbn [bind]; auto.
  assert (G : forall old, (run (_, upd) <- reads (fun h0 => get_dict h0 u);
     run v <- reads (fun h0 => h_sites h0 s);
     run (a, sd) <- reads (fun h0 => get_dict h0 v);
     run n <- makes (ODict (dmerge old upd));
     writes a (ODict (dset id n sd))) h =
     match (do (_, upd) <- get_dict h u; do v <- h_sites h s; do (a, sd) <- get_dict h v;
       let '(n, h1) := alloc h (ODict (dmerge old upd)) in Ok (put h1 a (ODict (dset id n sd)))) with
     | Ok h' => (h', Ok tt) | Err e => (h, Err e) end).
  { intros old. unfold next, reads. destruct (get_dict h u) as [[lu upd]|e]; cbn [bind]; auto.
    destruct (h_sites h s) as [v|e]; cbn [bind]; auto.
    destruct (get_dict h v) as [[a sd]|e]; cbn [bind]; auto. }
  unfold next, reads in G.
  destruct o; try (cbn [get_dict bind]; reflexivity).
  - unfold ret. rewrite G. reflexivity.
  - destruct (get_dict h (HRef l)) as [[lo old]|e]; cbn [bind]; auto.
Qed.

Lemma set_general_x : forall s u h,
  x_set_general_state s u h = match h_set_general_state h s u with Ok h' => (h', Ok tt) | Err e => (h, Err e) end.
Proof.
  intros s u h. unfold x_set_general_state, h_set_general_state, next, reads.
  destruct (h_get_general_state h s) as [o|e]; cbn [bind]; auto.
  destruct (get_dict h o) as [[lo old]|e]; cbn [bind]; auto.
  destruct (get_dict h u) as [[lu upd]|e]; cbn [bind]; auto.
  destruct (state_attr h s) as [v|e]; cbn [bind]; auto.
  destruct (get_dict h v) as [[a sd]|e]; cbn [bind]; auto.
Qed.

(** Which entries of a loop over updates took effect. *)
Lemma set_sites_x : forall items s h, exists p rest, items = p ++ rest /\
  h_set_sites h s p = Ok (fst (x_set_sites s items h)) /\
  match snd (x_set_sites s items h) with
  | Ok _ => rest = []
  | Err e => exists kv rest', rest = kv :: rest' /\ h_set_site_state (fst (x_set_sites s items h)) s (fst kv) (snd kv) = Err e
  end.
Proof.
  unfold x_set_sites, h_set_sites. induction items as [|[k v] items IH]; intros s h; cbn [loop].
  - exists [], []. repeat split.
  - unfold next. rewrite set_site_x. cbn [fst snd]. destruct (h_set_site_state h s k v) as [h1|e] eqn:E; cbn [fst snd].
    + destruct (IH s h1) as (p & rest & -> & EP & R). exists ((k, v) :: p), rest. split; auto. cbn [foldM fst snd]. rewrite E. cbn [bind]. auto.
    + exists [], ((k, v) :: items). repeat split; auto. exists (k, v), items. auto.
Qed.

Lemma set_sites_quiet : forall items s h, h_set_sites h s items = quiet (x_set_sites s items h).
Proof.
  unfold x_set_sites, h_set_sites. induction items as [|[k v] items IH]; intros s h; cbn [loop foldM]; auto.
  unfold next. rewrite set_site_x. cbn [fst snd]. destruct (h_set_site_state h s k v) as [h1|e]; cbn [bind quiet]; auto.
Qed.

Lemma batch_quiet : forall s b h, h_batch_update h s b = quiet (x_batch_update s b h).
Proof.
  intros s b h. unfold h_batch_update, x_batch_update, next, reads.
  destruct (get_dict h b) as [[lb d]|e]; cbn [bind quiet]; auto.
  destruct (dmem GENERAL d); [|apply set_sites_quiet].
  assert (G : forall items, (do h1 <- h_set_sites h s items; do (_, b1) <- get_dict h1 b; do g <- dgetE GENERAL b1; h_set_general_state h1 s g) =
     quiet ((run _ <- x_set_sites s items; run (_, b1) <- reads (fun h => get_dict h b); run g <- reads (fun _ => dgetE GENERAL b1); x_set_general_state s g) h)).
  { intros items. rewrite set_sites_quiet. unfold next, reads. destruct (x_set_sites s items h) as [h1 [[]|e]]; cbn [bind quiet]; auto.
    destruct (get_dict h1 b) as [[l1 b1]|e]; cbn [bind quiet]; auto.
    destruct (dgetE GENERAL b1) as [g|e]; cbn [bind quiet]; auto.
    rewrite set_general_x. destruct (h_set_general_state h1 s g); auto. }
  unfold next, reads in G. destruct (dget SITES d) as [v|]; [|apply G].
  destruct (get_dict h v) as [[lv items]|e]; cbn [bind quiet]; auto.
Qed.

(** * batch_update *)

Lemma foldM_app : forall A B (f : A -> B -> res A) l1 l2 a, foldM f (l1 ++ l2) a = do x <- foldM f l1 a; foldM f l2 x.
Proof. intros A B f l1. induction l1 as [|x l1 IH]; intros l2 a; cbn [app foldM bind]; auto. destruct (f a x); cbn [bind]; auto. Qed.

Lemma applied_sites : forall st p st', applied st p st' <-> set_sites st p = Ok st'.
Proof.
  intros st p st'. unfold applied, batch_update. change (dget GENERAL [(SITES, VDict p); (GENERAL, VDict [])]) with (Some (VDict [])).
  change (dget SITES [(SITES, VDict p); (GENERAL, VDict [])]) with (Some (VDict p)). cbn [bind as_mapping].
  assert (G : forall s1, set_general_state s1 [] = s1) by (intros [si ge]; reflexivity).
  destruct (set_sites st p) as [s1|e]; cbn [bind as_mapping]; [rewrite G|]; split; congruence.
Qed.

Lemma set_sites_x_stands : forall hd d h s t a st,
  stands h s t a st -> rep_entries (fun l => l = t \/ l = a) h hd d ->
  exists p rest st', d = p ++ rest /\ set_sites st p = Ok st' /\
    stands (fst (x_set_sites s hd h)) s t a st' /\ only t a h (fst (x_set_sites s hd h)) /\
    match snd (x_set_sites s hd h) with
    | Ok _ => rest = []
    | Err e => exists k v rest', rest = (k, v) :: rest' /\ as_mapping v = Err e
    end.
Proof.
  intros hd d h s t a st S F. destruct (set_sites_x hd s h) as (hp & hrest & -> & EP & R).
  apply Forall2_app_inv_l in F as (p & rest & FP & FR & ->).
  pose proof (set_sites_stands hp p h s t a st S FP) as H.
  destruct (set_sites st p) as [st'|e] eqn:ES; [|congruence]. destruct H as (h' & E' & S' & O').
  rewrite EP in E'. injection E' as E'. rewrite E' in R |- *. clear E' EP.
  exists p, rest, st'. split; auto. split; auto. split; [exact S'|]. split; [exact O'|].
  destruct (snd (x_set_sites s (hp ++ hrest) h)) as [u|e].
  - subst hrest. inversion FR. auto.
  - destruct R as ([k v] & hr' & -> & ER). inversion FR as [|? [k' x] ? rest' (K & RX) FR']; subst. cbn [fst snd] in *. subst k'.
    exists k, x, rest'. split; auto.
    pose proof (set_site_stands h' s t a st' k v x S' (only_rep _ _ _ _ _ _ O' RX)) as H.
    destruct (as_mapping x); [|congruence]. destruct H as (? & ? & _). congruence.
Qed.

Lemma batch_x_stands : forall h s t a st b x, stands h s t a st -> rep (fun l => l = t \/ l = a) h b x ->
  only t a h (fst (x_batch_update s b h)) /\
  match snd (x_batch_update s b h) with
  | Ok _ => exists st', batch_update st x = Ok st' /\ stands (fst (x_batch_update s b h)) s t a st'
  | Err e => batch_update st x = Err e /\
      match x with
      | VDict B => exists p rest st', site_entries B = p ++ rest /\ set_sites st p = Ok st' /\ stands (fst (x_batch_update s b h)) s t a st' /\
          match rest with
          | (k, v) :: _ => not_dict v
          | [] => exists g, dget GENERAL B = Some g /\ (not_dict g \/ exists v, dget SITES B = Some v /\ not_dict v)
          end
      | _ => fst (x_batch_update s b h) = h
      end
  end.
Proof.
  intros h s t a st b x S R.
  assert (BQ := batch_quiet s b h). assert (BS := batch_stands h s t a st b x S R).
  assert (AGREE : match snd (x_batch_update s b h) with
     | Ok _ => exists st', batch_update st x = Ok st' /\ stands (fst (x_batch_update s b h)) s t a st'
     | Err e => batch_update st x = Err e end).
  { rewrite BQ in BS. destruct (x_batch_update s b h) as [h' [[]|e]]; cbn [fst snd quiet] in *.
    - destruct (batch_update st x) as [st'|e]; [|discriminate]. destruct BS as (h2 & E & S' & _). injection E as ->. eauto.
    - destruct (batch_update st x) as [st'|e']; [destruct BS as (? & ? & _); discriminate|congruence]. }
  assert (ND : forall v e, as_mapping v = Err e -> not_dict v) by (intros v e E d ->; discriminate).
  pose proof (rep_get_dict _ _ _ _ R) as GB.
  destruct x as [| | | | |lx|lx|B].
  1-7: assert (EX : x_batch_update s b h = (h, Err TypeError)) by (unfold x_batch_update, next, reads; rewrite GB; reflexivity);
       rewrite EX in *; cbn [fst snd] in *; (split; [apply only_refl|auto]).
  destruct GB as (lb & hb & GB & -> & FB). pose proof (entries_get _ _ _ _ GENERAL FB) as GG.
  unfold site_entries in *.
  destruct (dget GENERAL hb) as [hg|] eqn:HG, (dget GENERAL B) as [g|] eqn:DG; try contradiction.
  - (* a batch with a general part *)
    pose proof (entries_get _ _ _ _ SITES FB) as GS.
    assert (EX : x_batch_update s (HRef lb) h =
       (run items <- match dget SITES hb with
                 | None => ret []
                 | Some v => reads (fun h => match get_dict h v with Ok (_, d) => Ok d | Err _ => Err AttributeError end)
                 end;
        run _ <- x_set_sites s items;
        run (_, b1) <- reads (fun h => get_dict h (HRef lb));
        run g <- reads (fun _ => dgetE GENERAL b1);
        x_set_general_state s g) h).
    { unfold x_batch_update. unfold next at 1. unfold reads at 1. rewrite GB. unfold dmem. rewrite HG. reflexivity. }
    assert (GO : forall hsd sd, rep_entries (fun l => l = t \/ l = a) h hsd sd ->
       match dget SITES B with Some (VDict d) => d | _ => [] end = sd ->
       x_batch_update s (HRef lb) h = (run _ <- x_set_sites s hsd;
        run (_, b1) <- reads (fun h => get_dict h (HRef lb));
        run g <- reads (fun _ => dgetE GENERAL b1);
        x_set_general_state s g) h ->
       only t a h (fst (x_batch_update s (HRef lb) h)) /\
       match snd (x_batch_update s (HRef lb) h) with
       | Ok _ => True
       | Err e => exists p rest st', sd = p ++ rest /\ set_sites st p = Ok st' /\ stands (fst (x_batch_update s (HRef lb) h)) s t a st' /\
          match rest with
          | (k, v) :: _ => not_dict v
          | [] => exists g', Some g = Some g' /\ (not_dict g' \/ exists v, dget SITES B = Some v /\ not_dict v)
          end
       end).
    { intros hsd sd FS _ EQ. destruct (set_sites_x_stands hsd sd h s t a st S FS) as (p & rest & st1 & EP & ES & S1 & O1 & R1).
      unfold next at 1 in EQ. destruct (x_set_sites s hsd h) as [h1 [[]|e]]; cbn [fst snd] in *.
      - subst rest. unfold next, reads in EQ.
        pose proof (rep_get_dict _ _ _ _ (only_rep _ _ _ _ _ _ O1 R)) as (lb' & hb' & GB' & E & FB'). injection E as <-. rewrite GB' in EQ.
        assert (hb' = hb) as ->.
        { apply get_dict_inv in GB as (_ & NB). apply get_dict_inv in GB' as (_ & NB').
          apply rep_dict in R as (n & ? & E & Bd & _). injection E as <-. rewrite (proj2 O1 lb (ODict hb)) in NB'; auto. congruence. }
        unfold dgetE in EQ. rewrite HG in EQ. rewrite set_general_x in EQ.
        pose proof (set_general_stands h1 s t a st1 hg g S1 (only_rep _ _ _ _ _ _ O1 GG)) as H2.
        destruct (as_mapping g) as [gd|e] eqn:AG.
        + destruct H2 as (h2 & E2 & S2 & O2). rewrite E2 in EQ. rewrite EQ. cbn [fst snd]. split; [exact (only_trans _ _ _ _ _ O1 O2)|exact I].
        + rewrite H2 in EQ. rewrite EQ. cbn [fst snd]. split; auto. exists p, [], st1. repeat split; auto. exists g. split; auto. left. eauto.
      - rewrite EQ. cbn [fst snd]. split; auto. destruct R1 as (k & v & rest' & -> & AV). exists p, ((k, v) :: rest'), st1. repeat split; auto. eauto. }
    destruct (dget SITES hb) as [hs|] eqn:HS, (dget SITES B) as [sv|] eqn:DS; try contradiction.
    + pose proof (rep_get_dict _ _ _ _ GS) as GD.
      destruct sv as [| | | | |lv|lv|sd].
      1-7: assert (EY : x_batch_update s (HRef lb) h = (h, Err AttributeError)) by (rewrite EX; unfold next at 1; unfold reads at 1; rewrite GD; reflexivity);
           rewrite EY in *; cbn [fst snd] in *; (split; [apply only_refl|split; [exact AGREE|]]);
           exists [], [], st; repeat split; auto; exists g; (split; [reflexivity|right; eexists; split; [reflexivity|intros d E; discriminate]]).
      destruct GD as (ls & hsd & GD & -> & FS).
      assert (EQ : x_batch_update s (HRef lb) h = (run _ <- x_set_sites s hsd;
        run (_, b1) <- reads (fun h => get_dict h (HRef lb));
        run g <- reads (fun _ => dgetE GENERAL b1);
        x_set_general_state s g) h) by (rewrite EX; unfold next at 1; unfold reads at 1; rewrite GD; reflexivity).
      destruct (GO hsd sd FS eq_refl EQ) as (ON & RES). split; auto.
      destruct (snd (x_batch_update s (HRef lb) h)); auto.
    + assert (EQ : x_batch_update s (HRef lb) h = (run _ <- x_set_sites s [];
        run (_, b1) <- reads (fun h => get_dict h (HRef lb));
        run g <- reads (fun _ => dgetE GENERAL b1);
        x_set_general_state s g) h) by (rewrite EX; reflexivity).
      destruct (GO [] [] ltac:(constructor) eq_refl EQ) as (ON & RES). split; auto.
      destruct (snd (x_batch_update s (HRef lb) h)); auto.
  - (* only sites *)
    assert (EX : x_batch_update s (HRef lb) h = x_set_sites s hb h).
    { unfold x_batch_update. unfold next at 1. unfold reads at 1. rewrite GB. unfold dmem. rewrite HG. reflexivity. }
    destruct (set_sites_x_stands hb B h s t a st S FB) as (p & rest & st1 & EP & ES & S1 & O1 & R1).
    rewrite EX in *. split; auto. destruct (snd (x_set_sites s hb h)); auto.
    split; auto. exists p, rest, st1. repeat split; auto. destruct R1 as (k & v & rest' & -> & AV). eauto.
Qed.

Lemma own_dict_stands : forall h s t a st l, stands h s t a st -> (own_dict h s l <-> l = t \/ l = a).
Proof.
  intros h s t a st l (d & sd & g & Ns & Dta & Nt & Ds & _). split.
  - intros (t' & d' & Ns' & Nt' & E). rewrite Ns in Ns'. injection Ns' as <-. rewrite Nt in Nt'. injection Nt' as <-.
    destruct E as [E|E]; auto. right. congruence.
  - intros [->| ->]; exists t, d; auto.
Qed.

Lemma C108_batch_lemma : forall h s st b x h' out, rep_state h s st -> rep (own_dict h s) h b x -> x_batch_update s b h = (h', out) ->
  (forall l o, ~ own_dict h s l -> nth_error h l = Some o -> nth_error h' l = Some o) /\
  match out with
  | Ok _ => exists st', batch_update st x = Ok st' /\ rep_state h' s st'
  | Err e => batch_update st x = Err e /\
      match x with
      | VDict B => exists p rest st', site_entries B = p ++ rest /\ applied st p st' /\ rep_state h' s st' /\
          match rest with
          | (k, v) :: _ => not_dict v
          | [] => exists g, dget GENERAL B = Some g /\ (not_dict g \/ exists v, dget SITES B = Some v /\ not_dict v)
          end
      | _ => h' = h
      end
  end.
Proof.
  intros h s st b x h' out RS RB EX. apply stands_rep in RS as (t & a & S).
  assert (OWN := fun l => own_dict_stands h s t a st l S).
  assert (RB' : rep (fun l => l = t \/ l = a) h b x).
  { eapply rep_mono; [|exact RB]. intros l o B N. split; auto. rewrite <- OWN; auto. }
  pose proof (batch_x_stands h s t a st b x S RB') as (O & H). rewrite EX in O, H. cbn [fst snd] in O, H. split.
  - intros l o NO N. rewrite OWN in NO. apply (proj2 O); auto.
  - destruct out as [u|e].
    + destruct H as (st' & E & S'). exists st'. split; auto. apply stands_rep; eauto.
    + destruct H as (E & H). split; auto. destruct x; auto.
      destruct H as (p & rest & st' & EP & ES & S' & R). exists p, rest, st'. split; auto. split; [now apply applied_sites|].
      split; auto. apply stands_rep; eauto.
Qed.

(** * load_steps and get_step *)

Lemma batch_x_ok : forall s b h h', x_batch_update s b h = (h', Ok tt) -> h_batch_update h s b = Ok h'.
Proof. intros s b h h' E. rewrite batch_quiet, E. reflexivity. Qed.

Lemma load_loop_x_stands : forall ds DS interval live t a st stored STORED i h out S',
  heap_ok h -> stands h live t a st -> stored_ok h t a stored STORED ->
  Forall2 (rep (fun l => l = t \/ l = a) h) ds DS ->
  load_loop interval st STORED i DS = (S', out) ->
  exists stored' h', x_load_loop interval live stored i ds h = (h', (stored', out)) /\
    stored_ok h' t a stored' S' /\ only t a h h'.
Proof.
  induction ds as [|v ds IH]; intros DS interval live t a st stored STORED i h out S' OK S SO F H;
    inversion F as [|? x ? DS' RX F']; subst; cbn [load_loop x_load_loop] in *.
  - injection H as <- <-. exists stored, h. split; auto. split; auto. apply only_refl.
  - pose proof (batch_x_stands h live t a st v x S RX) as (O1 & B).
    destruct (x_batch_update live v h) as [h1 [[]|e]] eqn:E1; cbn [fst snd] in *.
    2: { destruct B as (B & _). rewrite B in H. injection H as <- <-. exists stored, h1. split; auto. split; auto. eapply stored_only; eauto. }
    destruct B as (st1 & B & S1). rewrite B in H. apply batch_x_ok in E1.
    pose proof (ok_batch _ _ _ _ OK E1) as OK1.
    pose proof (stored_only _ _ _ _ _ _ O1 SO) as SO1.
    destruct (interval =? 0); [injection H as <- <-; exists stored, h1; auto|].
    assert (F1 : Forall2 (rep (fun l => l = t \/ l = a) h1) ds DS').
    { clear - F' O1. induction F'; constructor; auto. eapply only_rep; eauto. }
    assert (C : (((i + 1) mod interval =? 0) && negb (dmem (i + 1) stored)) =
                ((i + 1) mod interval =? 0) && match dget (i + 1) STORED with None => true | Some _ => false end).
    { f_equal. unfold dmem. pose proof (stored_dget _ _ _ _ _ (i + 1) SO) as G.
      destruct (dget (i + 1) stored), (dget (i + 1) STORED); try contradiction; auto. }
    rewrite C. destruct (_ && _).
    + destruct (copy_stands _ _ _ _ _ S1) as (h2 & E2 & _). unfold x_copy. rewrite E2.
      assert (Lt : (t < length h1)%nat) by (destruct S1 as (? & ? & ? & _ & _ & N & _); eapply nth_lt; eauto).
      assert (La : (a < length h1)%nat) by (destruct S1 as (? & ? & ? & _ & _ & _ & _ & N & _); eapply nth_lt; eauto).
      destruct (copy_apart h1 live t a st1 _ h2 t a OK1 S1 E2 Lt La) as (A2 & R2 & O2 & OK2).
      assert (S2 : stands h2 live t a st1).
      { destruct S1 as (d & sd & g & Ns & Dta & Nt & Ds & Na & Dg & Fs & Rg).
        pose proof (copy_old _ _ _ _ E2) as OLD.
        exists d, sd, g. repeat split; auto.
        - rewrite OLD; auto. eapply nth_lt; eauto.
        - rewrite OLD; auto.
        - rewrite OLD; auto.
        - eapply only_entries; eauto.
        - eapply only_rep; eauto. }
      specialize (IH DS' interval live t a st1 (dset (i + 1) (length h1 + length h1)%nat stored)
                    (dset (i + 1) st1 STORED) (i + 1) h2 out S' OK2 S2).
      assert (IHc := IH (stored_set _ _ _ _ _ _ _ _ (stored_only _ _ _ _ _ _ O2 SO1) R2 A2)).
      assert (F2 : Forall2 (rep (fun l => l = t \/ l = a) h2) ds DS').
      { clear - F1 O2. induction F1; constructor; auto. eapply only_rep; eauto. }
      destruct (IHc F2 H) as (stored' & h' & E & SO' & O'). exists stored', h'. split; auto. split; auto.
      apply (only_trans _ _ h h1 h'); auto. apply (only_trans _ _ h1 h2 h'); auto.
    + destruct (IH DS' interval live t a st1 stored STORED (i + 1) h1 out S' OK1 S1 SO1 F1 H)
        as (stored' & h' & E & SO' & O'). exists stored', h'. split; auto. split; auto.
      apply (only_trans _ _ h h1 h'); auto.
Qed.

Lemma C108_load_lemma : forall h r R k R' out, heap_ok h -> rep_result h r R -> load_steps R k = (R', out) ->
  exists r' h', x_load_steps r k h = (h', (r', out)) /\ rep_result h' r' R' /\
    (forall l, (l < length h)%nat -> nth_error h' l = nth_error h l).
Proof.
  intros h r R k R' out OK RR H. pose proof RR as (RI & RD & RS).
  unfold load_steps in H. destruct (load_loop k (r_init R) (dset 0 (r_init R) (r_stored R)) 0 (r_diffs R)) as [S' out'] eqn:LL.
  injection H as <- <-. unfold x_load_steps, x_copy.
  apply stands_rep in RI as (t & a & S).
  destruct (copy_stands _ _ _ _ _ S) as (h1 & E1 & S1 & L1 & OLD1). rewrite E1.
  set (live := (length h + length h)%nat) in *. set (t1 := (length h + t)%nat) in *. set (a1 := (length h + a)%nat) in *.
  assert (OK1 : heap_ok h1).
  { destruct S as (d & sd & g & Ns & _). exact (heap_ok_copy _ _ _ _ _ OK Ns E1). }
  assert (RI1 : rep_state h1 (hr_init r) (r_init R)).
  { apply (rep_state_old h h1 _ _ OK OLD1). apply stands_rep; eauto. }
  apply stands_rep in RI1 as (t' & a' & S1').
  destruct (copy_stands _ _ _ _ _ S1') as (h2 & E2 & _ & L2 & OLD2). rewrite E2.
  assert (Lt : (t1 < length h1)%nat) by (destruct S1 as (? & ? & ? & _ & _ & N & _); eapply nth_lt; eauto).
  assert (La : (a1 < length h1)%nat) by (destruct S1 as (? & ? & ? & _ & _ & _ & _ & N & _); eapply nth_lt; eauto).
  destruct (copy_apart h1 _ t' a' _ _ h2 t1 a1 OK1 S1' E2 Lt La) as (A2 & R2 & O2 & OK2).
  assert (S2 : stands h2 live t1 a1 (r_init R)).
  { destruct S1 as (d & sd & g & Ns & Dta & Nt & Ds & Na & Dg & Fs & Rg).
    exists d, sd, g. repeat split; auto.
    - rewrite OLD2; auto.
    - rewrite OLD2; auto.
    - rewrite OLD2; auto.
    - eapply only_entries; eauto.
    - eapply only_rep; eauto. }
  assert (OLD : forall l, (l < length h)%nat -> nth_error h2 l = nth_error h l).
  { intros l L. rewrite OLD2 by lia. apply OLD1; auto. }
  assert (SO : stored_ok h2 t1 a1 (hr_stored r) (r_stored R)).
  { clear - RS OLD OK L1 L2. unfold stored_ok. induction RS as [|p q ? ? (K & RQ)]; constructor; auto.
    repeat split; auto.
    - exact (rep_state_old _ _ _ _ OK OLD RQ).
    - intros E0. assert (l0 < length h)%nat; [|subst l0 t1; lia].
      eapply reach_below; [exact OK|exact OLD| |exact H]. eapply rep_state_lt; eauto.
    - intros E0. assert (l0 < length h)%nat; [|subst l0 a1; lia].
      eapply reach_below; [exact OK|exact OLD| |exact H]. eapply rep_state_lt; eauto.
    - assert (l0 < length h)%nat; [|lia].
      eapply reach_below; [exact OK|exact OLD| |exact H]. eapply rep_state_lt; eauto. }
  assert (FD : Forall2 (rep (fun l => l = t1 \/ l = a1) h2) (hr_diffs r) (r_diffs R)).
  { clear - RD OLD. induction RD; constructor; auto. eapply rep_mono; [|exact H]. intros l0 o B N.
    pose proof (nth_lt _ _ _ N). rewrite OLD by auto. split; auto. subst t1 a1. lia. }
  pose proof (load_loop_x_stands _ _ k live t1 a1 _ (dset 0 (length h1 + length h1)%nat (hr_stored r))
     (dset 0 (r_init R) (r_stored R)) 0 h2 out' S' OK2 S2 (stored_set _ _ _ _ _ _ _ _ SO R2 A2) FD LL) as H.
  destruct H as (stored' & h3 & -> & SO3 & O3). eexists _, h3. split; [reflexivity|].
  assert (OLD3 : forall l, (l < length h)%nat -> nth_error h3 l = nth_error h l).
  { intros l L. rewrite <- (OLD l L). exact (stands_only_frame _ _ _ _ (length h) O3 ltac:(lia) ltac:(lia) ltac:(lia) l L). }
  split; auto. split; [|split].
  - cbn [hr_init r_init]. apply (rep_state_old h h3 _ _ OK OLD3). apply stands_rep; eauto.
  - cbn [hr_diffs r_diffs]. clear - RD OLD3. induction RD; constructor; auto. eapply rep_mono; [|exact H]. intros l0 o B N.
    pose proof (nth_lt _ _ _ N). rewrite OLD3 by auto. split; auto.
  - cbn [hr_stored r_stored]. clear - SO3. unfold stored_ok in SO3. induction SO3 as [|p q ? ? (K & R1 & A)]; constructor; auto.
Qed.

(** * What holds after a call, whether it returns or raises *)

Definition leaves {A} (P : heap -> Prop) (m : act A) (Q : A -> heap -> Prop) (E : heap -> Prop) : Prop :=
  forall h, P h -> match m h with (h', Ok x) => Q x h' | (h', Err _) => E h' end.

Lemma leaves_next : forall A B (P : heap -> Prop) (m : act A) (f : A -> act B) (R : A -> heap -> Prop) (Q : B -> heap -> Prop) (E : heap -> Prop),
  leaves P m R E -> (forall x, leaves (R x) (f x) Q E) -> leaves P (next m f) Q E.
Proof. intros A B P m f R Q E HM HF h PH. specialize (HM h PH). unfold next. destruct (m h) as [h1 [x|e]]; auto. apply HF; auto. Qed.
Lemma leaves_reads : forall A (P : heap -> Prop) (f : heap -> res A) (Q : A -> heap -> Prop) (E : heap -> Prop),
  (forall h, P h -> E h) -> (forall h x, P h -> f h = Ok x -> Q x h) -> leaves P (reads f) Q E.
Proof. intros A P f Q E PE PQ h PH. unfold reads. destruct (f h) eqn:EF; auto. Qed.
Lemma leaves_ret : forall A (P : heap -> Prop) (x : A) (Q : A -> heap -> Prop) (E : heap -> Prop), (forall h, P h -> Q x h) -> leaves P (ret x) Q E.
Proof. intros A P x Q E PQ h PH. apply PQ; auto. Qed.
Lemma leaves_loop : forall A B (f : A -> B -> act A) l a (P : A -> heap -> Prop) (E : heap -> Prop),
  (forall a x, leaves (P a) (f a x) P E) -> leaves (P a) (loop f l a) P E.
Proof.
  intros A B f l. induction l as [|x l IH]; intros a P E HF; cbn [loop].
  - apply leaves_ret; auto.
  - eapply leaves_next; [apply HF|]. intros y. apply IH; auto.
Qed.
Lemma leaves_weaken : forall A (P P' : heap -> Prop) (m : act A) (Q Q' : A -> heap -> Prop) (E : heap -> Prop), leaves P m Q E -> (forall h, P' h -> P h) ->
  (forall x h, Q x h -> Q' x h) -> leaves P' m Q' E.
Proof. intros A P P' m Q Q' E L HP HQ h PH. specialize (L h (HP h PH)). destruct (m h) as [h1 [x|e]]; auto. Qed.

Lemma set_sites_x_live : forall items h s t a, live_ok h s t a ->
  live_ok (fst (x_set_sites s items h)) s t a /\ only t a h (fst (x_set_sites s items h)).
Proof.
  intros items h s t a L. destruct (set_sites_x items s h) as (p & rest & _ & EP & _). exact (set_sites_live _ _ _ _ _ _ L EP).
Qed.

Lemma batch_x_live : forall h s t a b, live_ok h s t a ->
  live_ok (fst (x_batch_update s b h)) s t a /\ only t a h (fst (x_batch_update s b h)).
Proof.
  intros h s t a b L.
  assert (T : leaves (fun h0 => live_ok h0 s t a /\ only t a h h0) (x_batch_update s b)
     (fun _ h0 => live_ok h0 s t a /\ only t a h h0) (fun h0 => live_ok h0 s t a /\ only t a h h0)).
  { assert (TS : forall items, leaves (fun h0 => live_ok h0 s t a /\ only t a h h0) (x_set_sites s items)
     (fun _ h0 => live_ok h0 s t a /\ only t a h h0) (fun h0 => live_ok h0 s t a /\ only t a h h0)).
    { intros items h0 (L0 & O0). destruct (set_sites_x_live items h0 s t a L0) as (L1 & O1).
      destruct (x_set_sites s items h0) as [h1 [x|e]]; cbn [fst] in *; (split; [auto|exact (only_trans _ _ _ _ _ O0 O1)]). }
    unfold x_batch_update. eapply leaves_next; [apply leaves_reads with (Q := fun _ h0 => live_ok h0 s t a /\ only t a h h0); auto|].
    intros [lb d]. destruct (dmem GENERAL d); [|apply TS].
    eapply leaves_next with (R := fun _ h0 => live_ok h0 s t a /\ only t a h h0).
    { destruct (dget SITES d); [apply leaves_reads; auto|apply leaves_ret; auto]. }
    intros items. eapply leaves_next; [apply TS|]. intros u.
    eapply leaves_next with (R := fun _ h0 => live_ok h0 s t a /\ only t a h h0); [apply leaves_reads; auto|].
    intros [l1 b1]. eapply leaves_next with (R := fun _ h0 => live_ok h0 s t a /\ only t a h h0); [apply leaves_reads; auto|].
    intros g h0 (L0 & O0). rewrite set_general_x. destruct (h_set_general_state h0 s g) as [h1|e] eqn:EG; auto.
    destruct (set_general_live _ _ _ _ _ _ L0 EG) as (L1 & O1). split; auto. exact (only_trans _ _ _ _ _ O0 O1). }
  specialize (T h (conj L (only_refl _ _ _))). destruct (x_batch_update s b h) as [h1 [x|e]]; exact T.
Qed.

Lemma get_step_quiet : forall h r n, h_get_step h r n = answer (x_get_step r n h).
Proof.
  intros h r n. unfold h_get_step, x_get_step. destruct (dget n (hr_stored r)); auto.
  unfold next at 1, x_copy. destruct (h_copy h (hr_init r)) as [[s h1]|e]; cbn [bind answer]; auto.
  unfold next at 1. generalize (zrange 0 n). intros l.
  assert (G : foldM (fun h ud_idx => do d <- list_getE (hr_diffs r) ud_idx; h_batch_update h s d) l h1 =
     quiet (loop (fun _ ud_idx => run d <- reads (fun _ => list_getE (hr_diffs r) ud_idx); x_batch_update s d) l tt h1)).
  { revert h1. induction l as [|i l IH]; intros h1; cbn [foldM loop]; auto.
    unfold next at 1 2. unfold reads. destruct (list_getE (hr_diffs r) i) as [d|e]; cbn [bind quiet]; auto.
    rewrite batch_quiet. destruct (x_batch_update s d h1) as [h2 [[]|e]]; cbn [bind quiet]; auto. }
  rewrite G. destruct (loop _ l tt h1) as [h2 [[]|e]]; cbn [bind quiet]; reflexivity.
Qed.

Lemma C108_get_step_lemma : forall h r R n h' out, rep_result h r R -> x_get_step r n h = (h', out) ->
  (forall l, (l < length h)%nat -> nth_error h' l = nth_error h l) /\
  match out with
  | Ok s => exists st, get_step R n = Ok st /\ rep_state h' s st
  | Err e => get_step R n = Err e
  end.
Proof.
  intros h r R n h' out RR EX. pose proof (C72_get_step_lemma h r R n RR) as G. rewrite get_step_quiet, EX in G. split.
  - destruct out as [s|e].
    + destruct (get_step R n); [|discriminate]. destruct G as (s' & h2 & E & _ & OLD). cbn [answer] in E. injection E as <- <-. auto.
    + clear G. pose proof RR as (RI & _). apply stands_rep in RI as (t & a & S).
      destruct (copy_stands _ _ _ _ _ S) as (h1 & E1 & S1 & L1 & OLD).
      unfold x_get_step in EX. destruct (dget n (hr_stored r)); [discriminate|].
      unfold next at 1, x_copy in EX. rewrite E1 in EX.
      assert (T : leaves (fun h0 => live_ok h0 (length h + length h) (length h + t) (length h + a) /\ only (length h + t) (length h + a) h1 h0)
        (run _ <- loop (fun _ ud_idx => run d <- reads (fun _ => list_getE (hr_diffs r) ud_idx); x_batch_update (length h + length h) d) (zrange 0 n) tt;
         ret (length h + length h)%nat) (fun _ _ => True) (fun h0 => only (length h + t) (length h + a) h1 h0)).
      { eapply leaves_next; [|intros; apply leaves_ret; auto].
        apply leaves_loop with (P := fun _ h0 => live_ok h0 (length h + length h) (length h + t) (length h + a) /\ only (length h + t) (length h + a) h1 h0).
        intros _ i. eapply leaves_next with (R := fun _ h0 => live_ok h0 (length h + length h) (length h + t) (length h + a) /\ only (length h + t) (length h + a) h1 h0).
        - apply leaves_reads; tauto.
        - intros d h0 (L0 & O0). destruct (batch_x_live h0 _ _ _ d L0) as (L2 & O2).
          destruct (x_batch_update _ d h0) as [h2 [x|e2]]; cbn [fst] in *; [split; auto|]; exact (only_trans _ _ _ _ _ O0 O2). }
      specialize (T h1 (conj (stands_live _ _ _ _ _ S1) (only_refl _ _ _))). rewrite EX in T.
      intros l L. rewrite <- (OLD l L). exact (stands_only_frame _ _ _ _ (length h) T ltac:(lia) ltac:(lia) ltac:(lia) l L).
  - destruct out as [s|e]; destruct (get_step R n) as [st|e']; cbn [answer] in G; try discriminate.
    + destruct G as (s' & h2 & E & RS & _). injection E as <- <-. eauto.
    + destruct G as (? & ? & ? & _). discriminate.
    + congruence.
Qed.

(** * Runs *)

Section Runs.
  Context {C : Type} (ctl : xcontroller C) (h0 : heap) (M N live t a : nat).
  Hypothesis MAKES : only_makes ctl.
  Hypothesis (Mt : (M <= t)%nat) (Ma : (M <= a)%nat) (Nl : (live < N)%nat) (Nt : (t < N)%nat) (Na : (a < N)%nat) (MN : (M <= N)%nat).

  Definition inv (h : heap) : Prop := keeps M h0 h /\ live_ok h live t a /\ (N <= length h)%nat.
  Definition inv_cur (b : hval) (h : heap) : Prop := inv h /\ cur_ok N h b.

  Lemma inv_keeps : forall h h', inv h -> keeps N h h' -> inv h'.
  Proof.
    intros h h' (K & L & Ln) K'. split; [|split].
    - eapply keeps_trans; [exact K|]. eapply keeps_weaken; eauto.
    - eapply live_keeps; eauto.
    - pose proof (proj1 K'). lia.
  Qed.
  Lemma inv_err : forall h, inv h -> keeps M h0 h.
  Proof. intros h I. apply I. Qed.
  Lemma inv_extends : forall h h', inv h -> extends h h' -> inv h'.
  Proof. intros h h' I EX. eapply inv_keeps; [exact I|]. apply extends_keeps; auto. apply I. Qed.

  Lemma call_leaves : forall A (m : act A) b, (forall h, extends h (fst (m h))) ->
    leaves (inv_cur b) m (fun _ => inv_cur b) (keeps M h0).
  Proof.
    intros A m b EX h (I & CO). specialize (EX h). destruct (m h) as [h' [x|e]]; cbn [fst] in EX.
    - split; [exact (inv_extends _ _ I EX)|exact (cur_keeps _ _ _ _ CO EX)].
    - apply inv_err. exact (inv_extends _ _ I EX).
  Qed.

  Lemma cur_reads : forall A (f : heap -> res A) b, leaves (inv_cur b) (reads f) (fun _ => inv_cur b) (keeps M h0).
  Proof. intros A f b. apply leaves_reads; auto. intros h (I & _). apply inv_err; auto. Qed.

  Lemma update_in_leaves : forall k d b, k = SITES \/ k = GENERAL ->
    leaves (inv_cur b) (x_update_in k d b) (fun _ => inv_cur b) (keeps M h0).
  Proof.
    intros k d b HK h (I & CO).
    assert (E : h_update_in h k d b = quiet (x_update_in k d b h) /\ (snd (x_update_in k d b h) = Ok tt \/ fst (x_update_in k d b h) = h)).
    { unfold h_update_in, x_update_in, next, reads. destruct (get_dict h b) as [[l c]|e]; cbn [bind quiet fst snd]; auto.
      destruct (dgetE k c) as [v|e]; cbn [bind quiet fst snd]; auto. destruct (get_dict h v) as [[m old]|e]; cbn [bind quiet fst snd]; auto. }
    destruct E as (E & D). destruct (x_update_in k d b h) as [h' [[]|e]]; cbn [quiet fst snd] in *.
    - destruct (update_in_keeps N h k d b h' HK CO E) as (C1 & K1). split; auto. exact (inv_keeps _ _ I K1).
    - destruct D as [D|D]; [discriminate|]. subst h'. apply inv_err; auto.
  Qed.

  Lemma merge_leaves : forall u b id, leaves (inv_cur b) (x_merge_updates u b id) inv_cur (keeps M h0).
  Proof.
    intros u b id. unfold x_merge_updates.
    assert (G : leaves (inv_cur b)
      (run curr <- match b with
                   | HNone => run a <- makes (ODict []); run g <- makes (ODict []); makes (ODict [(SITES, a); (GENERAL, g)])
                   | _ => ret b
                   end;
       run (_, nu) <- reads (fun h => get_dict h u);
       if dmem SITES nu || dmem GENERAL nu then
         run ns <- reads (fun h => h_upd_arg h (dget SITES nu));
         run _ <- x_update_in SITES ns curr;
         run ng <- reads (fun h => h_upd_arg h (dget GENERAL nu));
         run _ <- x_update_in GENERAL ng curr;
         ret curr
       else if match nu with
               | [] => false
               | _ => forallb (fun kv => match fst kv with KInt _ => true | KStr _ => false end) nu
               end
       then run _ <- x_update_in SITES nu curr; ret curr
       else match id with
            | Some id => run _ <- x_update_in SITES [(id, u)] curr; ret curr
            | None => reads (fun _ => Err ValueError)
            end) inv_cur (keeps M h0)).
    { apply leaves_next with (R := inv_cur).
      - assert (SAME : b <> HNone -> leaves (inv_cur b) (ret b) inv_cur (keeps M h0)) by (intros _; apply leaves_ret; auto).
        destruct b; try (apply SAME; discriminate). clear SAME.
        intros h (I & _). unfold next, makes, alloc. assert (Ln : (N <= length h)%nat) by apply I. split.
        + apply (inv_keeps h); auto. rewrite <- !app_assoc. apply keeps_app; auto.
        + right. exists (length ((h ++ [ODict []]) ++ [ODict []])),
            [(SITES, HRef (length h)); (GENERAL, HRef (length (h ++ [ODict []])))], (length h), (length (h ++ [ODict []])).
          rewrite !app_length; cbn [length]. repeat split; auto; try lia.
          replace (length h + 1 + 1)%nat with (length ((h ++ [ODict []]) ++ [ODict []])) by (rewrite !app_length; auto).
          rewrite nth_new. rewrite ?app_length; reflexivity.
      - intros curr. eapply leaves_next; [apply cur_reads|]. intros [l nu].
        assert (U : forall k d, k = SITES \/ k = GENERAL -> leaves (inv_cur curr) (run _ <- x_update_in k d curr; ret curr) inv_cur (keeps M h0)).
        { intros k d HK. eapply leaves_next; [apply update_in_leaves; auto|]. intros x. apply leaves_ret; auto. }
        destruct (dmem SITES nu || dmem GENERAL nu).
        + eapply leaves_next; [apply cur_reads|]. intros ns. eapply leaves_next; [apply update_in_leaves; auto|]. intros x.
          eapply leaves_next; [apply cur_reads|]. intros ng. apply U; auto.
        + destruct (match nu with [] => false | _ => _ end); [apply U; auto|].
          destruct id; [apply U; auto|]. apply leaves_reads; [intros h (I & _); apply inv_err; auto|discriminate]. }
    destruct u; auto. apply leaves_ret; auto.
  Qed.

  Lemma batch_leaves : forall b c, leaves (inv_cur c) (x_batch_update live b) (fun _ => inv_cur HNone) (keeps M h0).
  Proof.
    intros b c h ((K & L & Ln) & _). destruct (batch_x_live h live t a b L) as (L1 & O1).
    destruct (x_batch_update live b h) as [h1 r]; cbn [fst] in *.
    assert (I : inv_cur HNone h1).
    { split; [|left; auto]. assert (K1 : keeps M h h1) by (eapply only_keeps; eauto; lia).
      split; [exact (keeps_trans _ _ _ _ K K1)|]. split; auto. pose proof (proj1 K1). lia. }
    destruct r; auto. apply I.
  Qed.

  Lemma add_sites_leaves : forall q c b, leaves (inv_cur b) (x_add_sites ctl live q c) (fun _ => inv_cur b) (keeps M h0).
  Proof.
    intros q c b. unfold x_add_sites. eapply leaves_next; [apply call_leaves; intros h; apply MAKES|].
    intros [nx c']. destruct nx; try (apply leaves_ret; auto);
      (eapply leaves_next; [apply cur_reads|]; intros k; apply leaves_ret; auto).
  Qed.

  Lemma async_leaves : forall n r q c, leaves (inv_cur HNone) (x_async_loop ctl n live r q c) (fun _ => inv_cur HNone) (keeps M h0).
  Proof.
    induction n as [|n IH]; intros r q c; cbn [x_async_loop]; [apply leaves_ret; auto|].
    destruct q as [|id q1]; [apply cur_reads|].
    eapply leaves_next; [apply call_leaves; intros h; apply MAKES|]. intros [resp c1].
    eapply leaves_next; [apply cur_reads|]. intros [ups nx].
    eapply leaves_next; [apply merge_leaves|]. intros su.
    eapply leaves_next; [apply batch_leaves|]. intros u.
    eapply leaves_next; [apply cur_reads|]. intros ks. cbn beta.
    destruct (q1 ++ ks); auto.
    eapply leaves_next; [apply add_sites_leaves|]. intros [q3 c2]. destruct q3; auto. apply leaves_ret; auto.
  Qed.

  Lemma step_batch_leaves : forall ids c, leaves (inv_cur HNone) (x_step_batch ctl ids live c) (fun bc => inv_cur (fst bc)) (keeps M h0).
  Proof.
    intros ids c. unfold x_step_batch. apply leaves_loop with (a := (HNone, c)) (P := fun bc => inv_cur (fst bc)).
    intros [b c1] id. cbn [fst]. eapply leaves_next; [apply call_leaves; intros h; apply MAKES|]. intros [su c2].
    eapply leaves_next; [apply merge_leaves|]. intros b2. apply leaves_ret; auto.
  Qed.

  Lemma sync_leaves : forall n r c, leaves (inv_cur HNone) (x_sync_loop ctl n live r c) (fun _ => inv_cur HNone) (keeps M h0).
  Proof.
    induction n as [|n IH]; intros r c; cbn [x_sync_loop]; [apply leaves_ret; auto|].
    eapply leaves_next; [apply cur_reads|]. intros ids.
    eapply leaves_next; [apply step_batch_leaves|]. intros [ups c'].
    eapply leaves_next; [apply batch_leaves|]. intros u. apply IH.
  Qed.
End Runs.

(** What comes before the loops. *)
Lemma run_x_start : forall C (ctl : xcontroller C) h s st c0 (B : Type) (rest : nat -> nat -> C -> act B) n,
  only_makes ctl -> heap_ok h -> rep_state h s st -> n = length h ->
  (forall i0 M N live t a c h3, (M <= t)%nat -> (M <= a)%nat -> (live < N)%nat -> (t < N)%nat -> (a < N)%nat -> (M <= N)%nat -> (n <= M)%nat ->
     live_ok h3 live t a -> N = length h3 -> keeps n h h3 -> keeps n h (fst (rest i0 live c h3))) ->
  keeps n h (fst ((run i0 <- x_copy s; run c1 <- xc_pre_run ctl c0 s; run live <- x_copy s; rest i0 live c1) h)).
Proof.
  intros C ctl h s st c0 B rest n MK OK RS -> HR.
  apply stands_rep in RS as (t & a & S). destruct (copy_stands _ _ _ _ _ S) as (h1 & E1 & S1 & L1 & OLD1).
  unfold next, x_copy. rewrite E1. destruct MK as (MP & _ & _). specialize (MP c0 s h1).
  assert (K1 : keeps (length h) h h1) by (split; [lia|exact OLD1]).
  assert (K2 : keeps (length h) h1 (fst (xc_pre_run ctl c0 s h1))) by (apply extends_keeps; [auto|lia]).
  pose proof (keeps_trans _ _ _ _ K1 K2) as K. destruct (xc_pre_run ctl c0 s h1) as [h2 [c1|e]]; cbn [fst] in *; auto.
  assert (S2 : stands h2 s t a st).
  { destruct S as (d & sd & g & Ns & Dta & Nt & Ds & Na & Dg & Fs & Rg).
    assert (OLD2 : forall l o, nth_error h l = Some o -> nth_error h2 l = Some o).
    { intros l o N. pose proof (nth_lt _ _ _ N). rewrite (proj2 K) by lia. auto. }
    exists d, sd, g. repeat split; auto.
    - eapply entries_mono; [|exact Fs]. auto.
    - eapply rep_mono; [|exact Rg]. auto. }
  destruct (copy_stands _ _ _ _ _ S2) as (h3 & E3 & S3 & L3 & OLD3). rewrite E3.
  pose proof (proj1 K) as LK.
  assert (K3 : keeps (length h) h h3).
  { eapply keeps_trans; [exact K|]. split; [lia|]. intros l L. apply OLD3. lia. }
  apply (HR (length h + length h)%nat (length h2) (length h3) (length h2 + length h2)%nat (length h2 + t)%nat (length h2 + a)%nat c1 h3); try lia; auto.
  - destruct S3 as (? & ? & ? & _ & _ & N & _). apply nth_lt in N. auto.
  - destruct S3 as (? & ? & ? & _ & _ & _ & _ & N & _). apply nth_lt in N. auto.
  - eapply stands_live; eauto.
Qed.

Lemma C108_run_lemma : forall C (ctl : xcontroller C) c0 s st n h h' out,
  only_makes ctl -> heap_ok h -> rep_state h s st ->
  x_run_sync ctl c0 s n h = (h', out) \/ x_run_async ctl c0 s n h = (h', out) ->
  (forall path, observe h' (HRef s) path = observe h (HRef s) path) /\
  (forall l, (l < length h)%nat -> nth_error h' l = nth_error h l).
Proof.
  intros C ctl c0 s st n h h' out MK OK RS H.
  assert (K : keeps (length h) h h').
  { destruct H as [H|H].
    - replace h' with (fst (x_run_sync ctl c0 s n h)) by (rewrite H; auto). unfold x_run_sync.
      eapply run_x_start; eauto. intros i0 M N live t a c h3 Mt Ma Nl Nt Na MN Ln L -> K.
      assert (T := leaves_next _ _ _ _ (fun r => ret (r, live)) _ (fun _ => keeps (length h) h) _
        (sync_leaves ctl h (length h) (length h3) live t a MK ltac:(lia) ltac:(lia) Nl Nt Na ltac:(lia) (Z.to_nat n) (mkHR i0 [] []) c)
        (fun r => leaves_ret _ _ _ _ _ (fun h4 I4 => proj1 (proj1 I4)))).
      specialize (T h3 ltac:(split; [split; [exact K|split; auto]|left; auto])). destruct (next _ _ h3) as [h4 [x|e]]; exact T.
    - replace h' with (fst (x_run_async ctl c0 s n h)) by (rewrite H; auto). unfold x_run_async.
      apply (run_x_start C ctl h s st c0 _ (fun i0 live c1 => run (q, c2) <- x_add_sites ctl live [] c1;
        match q with
        | [] => reads (fun _ => Err RuntimeError)
        | _ => run r <- x_async_loop ctl (Z.to_nat n) live (mkHR i0 [] []) q c2; ret (r, live)
        end)); auto. intros i0 M N live t a c h3 Mt Ma Nl Nt Na MN Ln L -> K.
      assert (T : leaves (inv_cur h (length h) (length h3) live t a HNone) (run (q, c2) <- x_add_sites ctl live [] c;
        match q with
        | [] => reads (fun _ => Err RuntimeError)
        | _ => run r <- x_async_loop ctl (Z.to_nat n) live (mkHR i0 [] []) q c2; ret (r, live)
        end) (fun _ => keeps (length h) h) (keeps (length h) h)).
      { eapply leaves_next; [apply add_sites_leaves; auto; lia|]. intros [q c2].
        assert (TQ : forall q', leaves (inv_cur h (length h) (length h3) live t a HNone)
           (run r <- x_async_loop ctl (Z.to_nat n) live (mkHR i0 [] []) q' c2; ret (r, live)) (fun _ => keeps (length h) h) (keeps (length h) h)).
        { intros q'. eapply leaves_next; [apply async_leaves; auto; lia|]. intros r. apply leaves_ret. intros h4 I4. apply I4. }
        destruct q; [|apply TQ]. apply leaves_reads; [intros h4 I4; apply I4|discriminate]. }
      specialize (T h3 ltac:(split; [split; [exact K|split; auto]|left; auto])). destruct (next _ _ h3) as [h4 [x|e]]; exact T. }
  split; [|apply K]. intros path. apply observe_local. cbn. intros x Rx. apply (proj2 K).
  exact (reach_lt h s x OK (rep_state_lt _ _ _ RS) Rx).
Qed.

(** * Agreement with the model that forgets the heap after an exception *)

Lemma answer_next : forall A B (m : act A) (f : A -> act B) h,
  answer (next m f h) = do (x, h1) <- answer (m h); answer (f x h1).
Proof. intros A B m f h. unfold next. destruct (m h) as [h1 [x|e]]; reflexivity. Qed.
Lemma answer_reads : forall A (f : heap -> res A) h, answer (reads f h) = do x <- f h; Ok (x, h).
Proof. intros A f h. unfold reads. destruct (f h); reflexivity. Qed.
Lemma answer_copy : forall s h, answer (x_copy s h) = h_copy h s.
Proof. intros s h. unfold x_copy. destruct (h_copy h s) as [[c h']|e]; reflexivity. Qed.
Lemma answer_batch : forall s b h, answer (x_batch_update s b h) = do h' <- h_batch_update h s b; Ok (tt, h').
Proof. intros s b h. rewrite batch_quiet. destruct (x_batch_update s b h) as [h' [[]|e]]; reflexivity. Qed.
Lemma answer_update_in : forall k d b h, answer (x_update_in k d b h) = do h' <- h_update_in h k d b; Ok (tt, h').
Proof.
  intros k d b h. unfold x_update_in, h_update_in, next, reads. destruct (get_dict h b) as [[l c]|e]; cbn [bind answer]; auto.
  destruct (dgetE k c) as [v|e]; cbn [bind answer]; auto. destruct (get_dict h v) as [[m old]|e]; cbn [bind answer]; auto.
Qed.
Lemma answer_merge : forall u b id h, answer (x_merge_updates u b id h) = h_merge_updates h u b id.
Proof.
  intros u b id h. unfold x_merge_updates, h_merge_updates.
  assert (U : forall k d curr h0, answer ((run _ <- x_update_in k d curr; ret curr) h0) = do h3 <- h_update_in h0 k d curr; Ok (curr, h3)).
  { intros. rewrite answer_next, answer_update_in. destruct (h_update_in h0 k d curr); reflexivity. }
  assert (G : forall curr h0, answer ((run (_, nu) <- reads (fun h => get_dict h u);
       if dmem SITES nu || dmem GENERAL nu then
         run ns <- reads (fun h => h_upd_arg h (dget SITES nu));
         run _ <- x_update_in SITES ns curr;
         run ng <- reads (fun h => h_upd_arg h (dget GENERAL nu));
         run _ <- x_update_in GENERAL ng curr;
         ret curr
       else if match nu with
               | [] => false
               | _ => forallb (fun kv => match fst kv with KInt _ => true | KStr _ => false end) nu
               end
       then run _ <- x_update_in SITES nu curr; ret curr
       else match id with
            | Some id => run _ <- x_update_in SITES [(id, u)] curr; ret curr
            | None => reads (fun _ => Err ValueError)
            end) h0) =
      do (_, nu) <- get_dict h0 u;
      if dmem SITES nu || dmem GENERAL nu then
        do ns <- h_upd_arg h0 (dget SITES nu);
        do h3 <- h_update_in h0 SITES ns curr;
        do ng <- h_upd_arg h3 (dget GENERAL nu);
        do h4 <- h_update_in h3 GENERAL ng curr;
        Ok (curr, h4)
      else if match nu with
              | [] => false
              | _ => forallb (fun kv => match fst kv with KInt _ => true | KStr _ => false end) nu
              end
      then do h3 <- h_update_in h0 SITES nu curr; Ok (curr, h3)
      else
        match id with
        | Some id => do h3 <- h_update_in h0 SITES [(id, u)] curr; Ok (curr, h3)
        | None => Err ValueError
        end).
  { intros curr h0. rewrite answer_next, answer_reads. destruct (get_dict h0 u) as [[l nu]|e]; cbn [bind]; auto.
    destruct (dmem SITES nu || dmem GENERAL nu).
    - rewrite answer_next, answer_reads. destruct (h_upd_arg h0 (dget SITES nu)) as [ns|e]; cbn [bind]; auto.
      rewrite answer_next, answer_update_in. destruct (h_update_in h0 SITES ns curr) as [h3|e]; cbn [bind]; auto.
      rewrite answer_next, answer_reads. destruct (h_upd_arg h3 (dget GENERAL nu)) as [ng|e]; cbn [bind]; auto.
    - destruct (match nu with [] => false | _ => _ end); [apply U|]. destruct id; [apply U|reflexivity]. }
  destruct u; try reflexivity; destruct b; cbn [alloc]; apply G.
Qed.

Section Agree.
  Context {C : Type} (ctl : xcontroller C).
  Notation forget := (answers_of ctl).

  Lemma answer_add_sites : forall live q c h,
    (do (qc, h') <- answer (x_add_sites ctl live q c h); Ok (fst qc, snd qc, h')) = h_add_sites forget live q c h.
  Proof.
    intros live q c h. unfold x_add_sites, h_add_sites. rewrite answer_next. cbn [hc_random_site answers_of].
    destruct (answer (xc_random_site ctl c live h)) as [[[nx c'] h1]|e]; cbn [bind fst snd]; auto.
    destruct nx as [| | | | |l]; try reflexivity.
    rewrite answer_next, answer_reads. destruct (nth_error h1 l) as [[?|vs|?|?]|]; cbn [bind answer ret fst snd]; rewrite ?app_nil_r; auto.
    destruct (mapM hval_key vs); reflexivity.
  Qed.

  Lemma answer_async : forall n live r q c h, answer (x_async_loop ctl n live r q c h) = h_async_loop forget n live r q c h.
  Proof.
    induction n as [|n IH]; intros live r q c h; cbn [x_async_loop h_async_loop]; auto.
    destruct q as [|id q1]; auto. rewrite answer_next. cbn [hc_update answers_of].
    destruct (answer (xc_update ctl c id live h)) as [[[resp c1] h1]|e]; cbn [bind fst snd]; auto.
    rewrite answer_next, answer_reads. destruct (h_split h1 resp) as [[ups nx]|e]; cbn [bind]; auto.
    rewrite answer_next, answer_merge. destruct (h_merge_updates h1 ups HNone (Some id)) as [[su h2]|e]; cbn [bind]; auto.
    rewrite answer_next, answer_batch. destruct (h_batch_update h2 live su) as [h3|e]; cbn [bind]; auto.
    rewrite answer_next, answer_reads. destruct (h_extend_arg h3 nx) as [ks|e]; cbn [bind]; auto.
    destruct (q1 ++ ks); [|apply IH]. rewrite answer_next, <- answer_add_sites.
    destruct (answer (x_add_sites ctl live [] c1 h3)) as [[[q3 c2] h4]|e]; cbn [bind fst snd]; auto.
    destruct q3; [reflexivity|apply IH].
  Qed.

  Lemma answer_step_batch : forall ids live c h,
    (do (bc, h') <- answer (x_step_batch ctl ids live c h); Ok (fst bc, snd bc, h')) = h_step_batch forget ids live c h.
  Proof.
    intros ids live c h. unfold x_step_batch, h_step_batch. generalize HNone as b. revert c h.
    induction ids as [|id ids IH]; intros c h b; cbn [loop foldM]; auto.
    rewrite answer_next, answer_next. cbn [hc_update answers_of].
    destruct (answer (xc_update ctl c id live h)) as [[[su c1] h1]|e]; cbn [bind fst snd]; auto.
    rewrite answer_next, answer_merge. destruct (h_merge_updates h1 su b (Some id)) as [[b2 h2]|e]; cbn [bind answer ret]; auto.
  Qed.

  Lemma answer_sync : forall n live r c h, answer (x_sync_loop ctl n live r c h) = h_sync_loop forget n live r c h.
  Proof.
    induction n as [|n IH]; intros live r c h; cbn [x_sync_loop h_sync_loop]; auto.
    rewrite answer_next, answer_reads. destruct (h_site_ids h live) as [ids|e]; cbn [bind]; auto.
    rewrite answer_next, <- answer_step_batch. destruct (answer (x_step_batch ctl ids live c h)) as [[[ups c1] h1]|e]; cbn [bind fst snd]; auto.
    rewrite answer_next, answer_batch. destruct (h_batch_update h1 live ups) as [h2|e]; cbn [bind]; auto.
  Qed.
End Agree.

Lemma C108_agrees_lemma : forall C (ctl : xcontroller C) c0 s n h,
  h_run_sync (answers_of ctl) c0 s n h = (do (r, h') <- answer (x_run_sync ctl c0 s n h); Ok (mkHO (fst r) (snd r) h')) /\
  h_run_async (answers_of ctl) c0 s n h = (do (r, h') <- answer (x_run_async ctl c0 s n h); Ok (mkHO (fst r) (snd r) h')).
Proof.
  intros C ctl c0 s n h. split.
  - unfold x_run_sync, h_run_sync. rewrite answer_next, answer_copy. destruct (h_copy h s) as [[i0 h1]|e]; cbn [bind]; auto.
    rewrite answer_next. cbn [hc_pre_run answers_of]. destruct (answer (xc_pre_run ctl c0 s h1)) as [[c1 h2]|e]; cbn [bind]; auto.
    rewrite answer_next, answer_copy. destruct (h_copy h2 s) as [[live h3]|e]; cbn [bind]; auto.
    rewrite answer_next, answer_sync. destruct (h_sync_loop _ _ _ _ _ h3) as [[r h4]|e]; reflexivity.
  - unfold x_run_async, h_run_async. rewrite answer_next, answer_copy. destruct (h_copy h s) as [[i0 h1]|e]; cbn [bind]; auto.
    rewrite answer_next. cbn [hc_pre_run answers_of]. destruct (answer (xc_pre_run ctl c0 s h1)) as [[c1 h2]|e]; cbn [bind]; auto.
    rewrite answer_next, answer_copy. destruct (h_copy h2 s) as [[live h3]|e]; cbn [bind]; auto.
    rewrite answer_next, <- answer_add_sites. destruct (answer (x_add_sites ctl live [] c1 h3)) as [[[q c2] h4]|e]; cbn [bind fst snd]; auto.
    destruct q; auto. rewrite answer_next, answer_async. destruct (h_async_loop _ _ _ _ _ _ h4) as [[r h5]|e]; reflexivity.
Qed.
