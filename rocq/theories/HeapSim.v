(** Whole runs on objects do what runs on plain values do. *)
From Verif Require Import Prelude Dict Val ValFacts StateModel ResultModel RunnerModel HeapModel SpecHeap HeapFacts HeapMore HeapRun.

Lemma rep_ref_lt : forall bad h r x, rep bad h (HRef r) x -> (r < length h)%nat.
Proof.
  intros bad h r x R. destruct x; try (cbn in R; discriminate).
  - apply rep_list in R as (n & vs & E & _ & N & _). injection E as <-. eapply nth_lt; eauto.
  - apply rep_tuple in R as (n & vs & E & _ & N & _). injection E as <-. eapply nth_lt; eauto.
  - apply rep_dict in R as (n & vs & E & _ & N & _). injection E as <-. eapply nth_lt; eauto.
Qed.
Lemma entries_ref_lt : forall bad h hd d r, rep_entries bad h hd d -> In (HRef r) (map snd hd) -> (r < length h)%nat.
Proof.
  intros bad h hd d r F. induction F as [|[k v] [k' x] ? ? (E & R)]; cbn [map snd In]; [intros []|].
  intros [->|I]; auto. cbn in R. eapply rep_ref_lt; eauto.
Qed.

(** The objects of a batch of updates under construction. *)
Definition inw (w : option (nat * nat * nat)) (l : nat) : Prop :=
  match w with None => False | Some (cu, bs, bg) => l = cu \/ l = bs \/ l = bg end.
Definition bad_of (B : nat -> Prop) (w : option (nat * nat * nat)) (l : nat) : Prop := B l \/ inw w l.

Definition cur_rep (n : nat) (B : nat -> Prop) (w : option (nat * nat * nat)) (h : heap) (b : hval) (x : val) : Prop :=
  match w with
  | None => b = HNone /\ x = VNone
  | Some (cu, bs, bg) => exists sd gd S G,
      b = HRef cu /\ x = VDict [(SITES, VDict S); (GENERAL, VDict G)] /\
      (n <= cu)%nat /\ (n <= bs)%nat /\ (n <= bg)%nat /\ cu <> bs /\ cu <> bg /\ bs <> bg /\
      nth_error h cu = Some (ODict [(SITES, HRef bs); (GENERAL, HRef bg)]) /\
      nth_error h bs = Some (ODict sd) /\ nth_error h bg = Some (ODict gd) /\
      rep_entries (bad_of B w) h sd S /\ rep_entries (bad_of B w) h gd G
  end.

Lemma cur_frame : forall n B w h h' b x, cur_rep n B w h b x ->
  (forall l, (l < length h)%nat -> ~ B l -> nth_error h' l = nth_error h l) -> (forall l, inw w l -> ~ B l) -> cur_rep n B w h' b x.
Proof.
  intros n B [[[cu bs] bg]|] h h' b x H F NB; [|exact H].
  destruct H as (sd & gd & S & G & -> & -> & L1 & L2 & L3 & D1 & D2 & D3 & N1 & N2 & N3 & R1 & R2).
  assert (F' : forall l o, ~ B l -> nth_error h l = Some o -> nth_error h' l = Some o).
  { intros l o NBl N. rewrite F; auto. eapply nth_lt; eauto. }
  exists sd, gd, S, G. repeat split; auto.
  - apply F'; auto. apply NB; cbn; auto.
  - apply F'; auto. apply NB; cbn; auto.
  - apply F'; auto. apply NB; cbn; auto.
  - eapply entries_mono; [|exact R1]. intros l o NBl N. split; auto. apply F'; auto. intros Bl; apply NBl; left; auto.
  - eapply entries_mono; [|exact R2]. intros l o NBl N. split; auto. apply F'; auto. intros Bl; apply NBl; left; auto.
Qed.

Lemma put_frame : forall (bad : nat -> Prop) (h : heap) m o l ob, bad m -> ~ bad l -> nth_error h l = Some ob -> nth_error (put h m o) l = Some ob /\ ~ bad l.
Proof. intros bad h m o l ob Bm Bl N. split; auto. rewrite put_other; auto. intros ->. auto. Qed.

Lemma ok_put : forall h l o, heap_ok h -> (forall r, In (HRef r) (children o) -> (r < length h)%nat) -> heap_ok (put h l o).
Proof.
  intros h l o OK Ho x ob r N I. rewrite put_length. apply put_inv in N as [(-> & ->)|(D & N)]; auto. eapply OK; eauto.
Qed.
Lemma ok_app : forall h o, heap_ok h -> (forall r, In (HRef r) (children o) -> (r < length h)%nat) -> heap_ok (h ++ [o]).
Proof.
  intros h o OK Ho x ob r N I. rewrite app_length; cbn. destruct (Nat.lt_ge_cases x (length h)) as [L|L].
  - rewrite nth_old in N by auto. pose proof (OK _ _ _ N I). lia.
  - assert (x = length h) as -> by (apply nth_lt in N; rewrite app_length in N; cbn in N; lia).
    rewrite nth_new in N. injection N as <-. apply Ho in I. lia.
Qed.

(** What the steps of a merge preserve. *)
Definition grew (w : option (nat * nat * nat)) (h h' : heap) : Prop :=
  length h' = length h /\ (forall l, ~ inw w l -> nth_error h' l = nth_error h l) /\ heap_ok h'.

Lemma update_sites_rep : forall n B cu bs bg h b c hd d, heap_ok h ->
  cur_rep n B (Some (cu, bs, bg)) h b (VDict c) -> rep_entries (bad_of B (Some (cu, bs, bg))) h hd d ->
  exists h' c', h_update_in h SITES hd b = Ok h' /\ update_in SITES d c = Ok c' /\
    cur_rep n B (Some (cu, bs, bg)) h' b (VDict c') /\ grew (Some (cu, bs, bg)) h h'.
Proof.
  intros n B cu bs bg h b c hd d OK H R. set (w := Some (cu, bs, bg)) in *.
  destruct H as (sd & gd & S & G & -> & E & L1 & L2 & L3 & D1 & D2 & D3 & N1 & N2 & N3 & R1 & R2). injection E as ->.
  assert (Bbs : bad_of B w bs) by (right; cbn; auto).
  exists (put h bs (ODict (dmerge sd hd))), [(SITES, VDict (dmerge S d)); (GENERAL, VDict G)].
  split. { unfold h_update_in, get_dict. rewrite N1. cbn [bind]. change (dgetE SITES [(SITES, HRef bs); (GENERAL, HRef bg)]) with (Ok (HRef bs)).
           cbn [bind]. rewrite N2. reflexivity. }
  split; [reflexivity|]. split.
  - exists (dmerge sd hd), gd, (dmerge S d), G. repeat split; auto; try (rewrite put_other; auto; fail).
    + apply put_same. eapply nth_lt; eauto.
    + eapply entries_mono; [|apply entries_merge; [exact R1|exact R]]. intros l o. apply put_frame; auto.
    + eapply entries_mono; [|exact R2]. intros l o. apply put_frame; auto.
  - split; [apply put_length|]. split.
    + intros l NW. apply put_other. intros ->. apply NW; cbn; auto.
    + apply ok_put; auto. cbn. intros r I. apply dmerge_vals in I as [I|I]; [exact (OK _ _ _ N2 I)|eapply entries_ref_lt; eauto].
Qed.
Lemma update_general_rep : forall n B cu bs bg h b c hd d, heap_ok h ->
  cur_rep n B (Some (cu, bs, bg)) h b (VDict c) -> rep_entries (bad_of B (Some (cu, bs, bg))) h hd d ->
  exists h' c', h_update_in h GENERAL hd b = Ok h' /\ update_in GENERAL d c = Ok c' /\
    cur_rep n B (Some (cu, bs, bg)) h' b (VDict c') /\ grew (Some (cu, bs, bg)) h h'.
Proof.
  intros n B cu bs bg h b c hd d OK H R. set (w := Some (cu, bs, bg)) in *.
  destruct H as (sd & gd & S & G & -> & E & L1 & L2 & L3 & D1 & D2 & D3 & N1 & N2 & N3 & R1 & R2). injection E as ->.
  assert (Bbg : bad_of B w bg) by (right; cbn; auto).
  exists (put h bg (ODict (dmerge gd hd))), [(SITES, VDict S); (GENERAL, VDict (dmerge G d))].
  split. { unfold h_update_in, get_dict. rewrite N1. cbn [bind]. change (dgetE GENERAL [(SITES, HRef bs); (GENERAL, HRef bg)]) with (Ok (HRef bg)).
           cbn [bind]. rewrite N3. reflexivity. }
  split; [reflexivity|]. split.
  - exists sd, (dmerge gd hd), S, (dmerge G d). repeat split; auto; try (rewrite put_other; auto; fail).
    + apply put_same. eapply nth_lt; eauto.
    + eapply entries_mono; [|exact R1]. intros l o. apply put_frame; auto.
    + eapply entries_mono; [|apply entries_merge; [exact R2|exact R]]. intros l o. apply put_frame; auto.
  - split; [apply put_length|]. split.
    + intros l NW. apply put_other. intros ->. apply NW; cbn; auto.
    + apply ok_put; auto. cbn. intros r I. apply dmerge_vals in I as [I|I]; [exact (OK _ _ _ N3 I)|eapply entries_ref_lt; eauto].
Qed.

Lemma grew_entries : forall B w h h' hd d, grew w h h' -> rep_entries (bad_of B w) h hd d -> rep_entries (bad_of B w) h' hd d.
Proof.
  intros B w h h' hd d (_ & F & _) R. eapply entries_mono; [|exact R]. intros l o NB N. split; auto.
  rewrite F; auto. intros W. apply NB. right; auto.
Qed.
Lemma grew_rep : forall B w h h' v x, grew w h h' -> rep (bad_of B w) h v x -> rep (bad_of B w) h' v x.
Proof.
  intros B w h h' v x (_ & F & _) R. eapply rep_mono; [|exact R]. intros l o NB N. split; auto.
  rewrite F; auto. intros W. apply NB. right; auto.
Qed.
Lemma grew_trans : forall w h1 h2 h3, grew w h1 h2 -> grew w h2 h3 -> grew w h1 h3.
Proof.
  intros w h1 h2 h3 (A1 & A2 & A3) (B1 & B2 & B3). split; [congruence|]. split; auto. intros l N. rewrite B2 by auto. auto.
Qed.

Lemma all_int_keys_same : forall bad h hd d, rep_entries bad h hd d ->
  match hd with
  | [] => false
  | _ => forallb (fun kv : key * hval => match fst kv with KInt _ => true | KStr _ => false end) hd
  end = all_int_keys d.
Proof.
  intros bad h hd d F. unfold all_int_keys. destruct F as [|[k v] [k' x] hd' d' (E & _) F]; auto. cbn in E. subst k'.
  cbn [forallb fst]. f_equal. induction F as [|[k1 v1] [k2 x2] ? ? (E & _) F IH]; auto. cbn in E. subst. cbn [forallb fst]. f_equal; auto.
Qed.

(** merge_updates once there is a batch. *)
Lemma merge_core : forall n (B : nat -> Prop) cu bs bg h u b y c id, heap_ok h ->
  cur_rep n B (Some (cu, bs, bg)) h b (VDict c) -> rep (bad_of B (Some (cu, bs, bg))) h u y -> y <> VNone ->
  match merge_updates y (VDict c) (Some id) with
  | Ok x' => exists h', h_merge_updates h u b (Some id) = Ok (b, h') /\
               cur_rep n B (Some (cu, bs, bg)) h' b x' /\ grew (Some (cu, bs, bg)) h h'
  | Err e => h_merge_updates h u b (Some id) = Err e
  end.
Proof.
  intros n B cu bs bg h u b y c id OK CR R NN. set (w := Some (cu, bs, bg)) in *.
  assert (EB : exists l, b = HRef l) by (destruct CR as (? & ? & ? & ? & -> & _); eauto). destruct EB as (lb & EB).
  assert (NU : u <> HNone). { intros ->. destruct y; cbn in R; try discriminate; auto;
    destruct R as (? & ? & ? & _); discriminate. }
  assert (UF : h_merge_updates h u b (Some id) =
    (do (_, nu) <- get_dict h u;
      if dmem SITES nu || dmem GENERAL nu then
        do ns <- h_upd_arg h (dget SITES nu);
        do h3 <- h_update_in h SITES ns b;
        do ng <- h_upd_arg h3 (dget GENERAL nu);
        do h4 <- h_update_in h3 GENERAL ng b;
        Ok (b, h4)
      else if match nu with
              | [] => false
              | _ => forallb (fun kv => match fst kv with KInt _ => true | KStr _ => false end) nu
              end
      then do h3 <- h_update_in h SITES nu b; Ok (b, h3)
      else do h3 <- h_update_in h SITES [(id, u)] b; Ok (b, h3))).
  { unfold h_merge_updates. rewrite EB. destruct u; try congruence; reflexivity. }
  rewrite UF. clear UF. pose proof (rep_get_dict _ _ _ _ R) as GD.
  destruct y as [| | | | | | |nu]; try congruence; try (rewrite GD; reflexivity).
  destruct GD as (lu & hu & GD & -> & FU). rewrite GD. cbn [bind merge_updates].
  pose proof (entries_get _ _ _ _ SITES FU) as GS. pose proof (entries_get _ _ _ _ GENERAL FU) as GG.
  assert (EM : dmem SITES hu || dmem GENERAL hu = dmem SITES nu || dmem GENERAL nu).
  { unfold dmem. destruct (dget SITES hu), (dget SITES nu); try contradiction; auto;
    destruct (dget GENERAL hu), (dget GENERAL nu); try contradiction; auto. }
  rewrite EM. destruct (dmem SITES nu || dmem GENERAL nu).
  - (* full form *)
    assert (NS : match upd_arg (dget SITES nu) with
                 | Ok d => exists hd, h_upd_arg h (dget SITES hu) = Ok hd /\ rep_entries (bad_of B w) h hd d
                 | Err e => h_upd_arg h (dget SITES hu) = Err e
                 end).
    { destruct (dget SITES hu) as [v|], (dget SITES nu) as [x|]; try contradiction; cbn [upd_arg h_upd_arg].
      - pose proof (rep_get_dict _ _ _ _ GS) as G1. destruct x; try (rewrite G1; reflexivity).
        destruct G1 as (l1 & hd & -> & _ & F1). exists hd. auto.
      - exists []. split; auto. constructor. }
    destruct (upd_arg (dget SITES nu)) as [ds|e]; cbn [bind]; [|rewrite NS; reflexivity].
    destruct NS as (hds & -> & FS). cbn [bind].
    destruct (update_sites_rep n B cu bs bg h b c hds ds OK CR FS) as (h3 & c1 & -> & -> & CR1 & G1). cbn [bind].
    assert (NG : match upd_arg (dget GENERAL nu) with
                 | Ok d => exists hd, h_upd_arg h3 (dget GENERAL hu) = Ok hd /\ rep_entries (bad_of B w) h3 hd d
                 | Err e => h_upd_arg h3 (dget GENERAL hu) = Err e
                 end).
    { destruct (dget GENERAL hu) as [v|], (dget GENERAL nu) as [x|]; try contradiction; cbn [upd_arg h_upd_arg].
      - pose proof (rep_get_dict _ _ _ _ (grew_rep _ _ _ _ _ _ G1 GG)) as G2. destruct x; try (rewrite G2; reflexivity).
        destruct G2 as (l1 & hd & -> & _ & F1). exists hd. auto.
      - exists []. split; auto. constructor. }
    destruct (upd_arg (dget GENERAL nu)) as [dg|e]; cbn [bind]; [|rewrite NG; reflexivity].
    destruct NG as (hdg & -> & FG). cbn [bind].
    destruct (update_general_rep n B cu bs bg h3 b c1 hdg dg (proj2 (proj2 G1)) CR1 FG) as (h4 & c2 & -> & -> & CR2 & G2). cbn [bind].
    exists h4. split; auto. split; auto. eapply grew_trans; eauto.
  - pose proof (all_int_keys_same _ _ _ _ FU) as EA. rewrite EA. clear EA.
    destruct (all_int_keys nu).
    + destruct (update_sites_rep n B cu bs bg h b c hu nu OK CR FU) as (h3 & c1 & -> & -> & CR1 & G1). cbn [bind]. exists h3. auto.
    + assert (F1 : rep_entries (bad_of B w) h [(id, HRef lu)] [(id, VDict nu)]) by (constructor; [split; auto|constructor]).
      destruct (update_sites_rep n B cu bs bg h b c _ _ OK CR F1) as (h3 & c1 & -> & -> & CR1 & G1). cbn [bind]. exists h3. auto.
Qed.

(** merge_updates, starting a batch when there is none. *)
Lemma merge_rep : forall n (B : nat -> Prop) w h u b y x id, heap_ok h -> (n <= length h)%nat -> (forall l, B l -> (l < n)%nat) ->
  cur_rep n B w h b x -> rep (bad_of B w) h u y ->
  match merge_updates y x (Some id) with
  | Ok x' => exists w' b' h', h_merge_updates h u b (Some id) = Ok (b', h') /\ cur_rep n B w' h' b' x' /\
               heap_ok h' /\ (length h <= length h')%nat /\
               (forall l, (l < length h)%nat -> ~ inw w l -> nth_error h' l = nth_error h l) /\
               (forall l, inw w' l -> inw w l \/ (length h <= l)%nat)
  | Err e => h_merge_updates h u b (Some id) = Err e
  end.
Proof.
  intros n B w h u b y x id OK Ln BN CR R.
  destruct (match y with VNone => true | _ => false end) eqn:YN.
  { destruct y; try discriminate. cbn in R. subst u. cbn. exists w, b, h. repeat split; auto. }
  assert (NY : y <> VNone) by (intros ->; discriminate). clear YN.
  destruct w as [[[cu bs] bg]|].
  - pose proof CR as (sd & gd & S & G & EB & EX & _). subst x.
    pose proof (merge_core n B cu bs bg h u b y _ id OK CR R NY) as H.
    destruct (merge_updates y _ (Some id)) as [x'|e]; auto.
    destruct H as (h' & E & CR' & (G1 & G2 & G3)). exists (Some (cu, bs, bg)), b, h'. repeat split; auto. lia.
  - destruct CR as (-> & ->).
    set (h3 := ((h ++ [ODict []]) ++ [ODict []]) ++ [ODict [(SITES, HRef (length h)); (GENERAL, HRef (S (length h)))]]).
    assert (L3 : length h3 = (length h + 3)%nat) by (unfold h3; rewrite !app_length; cbn; lia).
    assert (OLD : forall l, (l < length h)%nat -> nth_error h3 l = nth_error h l).
    { intros l L. unfold h3. rewrite <- !app_assoc. apply nth_old; auto. }
    assert (N0 : nth_error h3 (length h) = Some (ODict [])).
    { unfold h3. rewrite <- !app_assoc. rewrite nth_error_app2, Nat.sub_diag by lia. reflexivity. }
    assert (N1 : nth_error h3 (S (length h)) = Some (ODict [])).
    { unfold h3. rewrite <- !app_assoc. rewrite nth_error_app2 by lia. replace (S (length h) - length h)%nat with 1%nat by lia. reflexivity. }
    assert (N2 : nth_error h3 (S (S (length h))) = Some (ODict [(SITES, HRef (length h)); (GENERAL, HRef (S (length h)))])).
    { unfold h3. rewrite <- !app_assoc. rewrite nth_error_app2 by lia. replace (S (S (length h)) - length h)%nat with 2%nat by lia. reflexivity. }
    assert (OK3 : heap_ok h3).
    { unfold h3. apply ok_app; [apply ok_app; [apply ok_app; auto|]|]; cbn; try tauto.
      intros r [E|[E|[]]]; injection E as <-; rewrite !app_length; cbn; lia. }
    set (w := Some (S (S (length h)), length h, S (length h))).
    assert (CR3 : cur_rep n B w h3 (HRef (S (S (length h)))) (VDict [(SITES, VDict []); (GENERAL, VDict [])])).
    { exists [], [], [], []. repeat split; auto; try lia; constructor. }
    assert (R3 : rep (bad_of B w) h3 u y).
    { eapply rep_mono; [|exact R]. intros l o NB N. pose proof (nth_lt _ _ _ N) as L. rewrite OLD by auto. split; auto.
      intros [Bl|W]; [apply NB; left; auto|]. cbn in W. lia. }
    assert (NU : u <> HNone). { intros ->. destruct y; cbn in R; try discriminate; auto; destruct R as (? & ? & ? & _); discriminate. }
    assert (EH : h_merge_updates h u HNone (Some id) = h_merge_updates h3 u (HRef (S (S (length h)))) (Some id)).
    { unfold h_merge_updates, alloc. replace (length (h ++ [ODict []])) with (S (length h)) by (rewrite app_length; cbn; lia).
      replace (length ((h ++ [ODict []]) ++ [ODict []])) with (S (S (length h))) by (rewrite !app_length; cbn; lia).
      fold h3. destruct u; try congruence; reflexivity. }
    assert (EP : merge_updates y VNone (Some id) = merge_updates y (VDict [(SITES, VDict []); (GENERAL, VDict [])]) (Some id)) by (destruct y; congruence || reflexivity).
    rewrite EH, EP. clear EH EP.
    pose proof (merge_core n B _ _ _ h3 u _ y _ id OK3 CR3 R3 NY) as H. fold w in H.
    destruct (merge_updates y _ (Some id)) as [x'|e]; auto.
    destruct H as (h' & E & CR' & (G1 & G2 & G3)). exists w, (HRef (S (S (length h)))), h'. repeat split; auto.
    + lia.
    + intros l L _. rewrite G2; [apply OLD; auto|]. cbn. lia.
    + cbn. intros l W. lia.
Qed.

Lemma cur_value : forall n (B : nat -> Prop) w h b x, cur_rep n B w h b x -> (forall l, B l -> (l < n)%nat) -> rep B h b x.
Proof.
  intros n B [[[cu bs] bg]|] h b x H BN; [|destruct H as (-> & ->); reflexivity].
  destruct H as (sd & gd & S & G & -> & -> & L1 & L2 & L3 & D1 & D2 & D3 & N1 & N2 & N3 & R1 & R2).
  assert (NB : forall l, (n <= l)%nat -> ~ B l) by (intros l L Bl; apply BN in Bl; lia).
  assert (W : forall hd d, rep_entries (bad_of B (Some (cu, bs, bg))) h hd d -> rep_entries B h hd d).
  { intros hd d R. eapply entries_mono; [|exact R]. intros l o N1' N'. split; auto. intros Bl. apply N1'. left; auto. }
  apply rep_dict. exists cu, [(SITES, HRef bs); (GENERAL, HRef bg)]. repeat split; auto.
  constructor; [split; [reflexivity|]|constructor; [split; [reflexivity|]|constructor]]; apply rep_dict.
  - exists bs, sd. (repeat split; auto; try (apply W; auto)).
  - exists bg, gd. (repeat split; auto; try (apply W; auto)).
Qed.

Lemma own_stands : forall h s t a st l, stands h s t a st -> (own_dict h s l <-> l = t \/ l = a).
Proof.
  intros h s t a st l (d & sd & g & Ns & Dta & Nt & Ds & _). split.
  - intros (t' & d' & Ns' & Nt' & E). rewrite Ns in Ns'. injection Ns' as <-. rewrite Nt in Nt'. injection Nt' as <-.
    destruct E as [E|E]; auto. right. congruence.
  - intros [->| ->]; exists t, d; auto.
Qed.

Lemma stands_old : forall h h1 s t a st, heap_ok h ->
  (forall l, (l < length h)%nat -> nth_error h1 l = nth_error h l) -> stands h s t a st -> stands h1 s t a st.
Proof.
  intros h h1 s t a st OK OLD (d & sd & g & Ns & Dta & Nt & Ds & Na & Dg & Fs & Rg).
  assert (F : forall l o, nth_error h l = Some o -> nth_error h1 l = Some o).
  { intros l o N. rewrite OLD; auto. eapply nth_lt; eauto. }
  exists d, sd, g. repeat split; auto.
  - eapply entries_mono; [|exact Fs]. auto.
  - eapply rep_mono; [|exact Rg]. auto.
Qed.

Lemma extends_old : forall (h h' : heap), extends h h' -> forall l, (l < length h)%nat -> nth_error h' l = nth_error h l.
Proof. intros h h' (t & ->) l L. apply nth_old; auto. Qed.
Lemma extends_le : forall (h h' : heap), extends h h' -> (length h <= length h')%nat.
Proof. intros h h' (t & ->). rewrite app_length. lia. Qed.

Section Sim.
  Context {C : Type} (K : C -> nat -> Prop) (I : C -> heap -> Prop) (ctl : hcontroller C) (pc : controller C).
  Hypothesis M : mimics K I ctl pc.

  (** Answers avoid what the runner modifies. *)
  Lemma given_ok : forall h0 w h h' s t a st c l, heap_ok h0 -> stands h0 s t a st ->
    (forall l, (l < length h0)%nat -> nth_error h l = nth_error h0 l) -> (length h0 <= length h)%nat ->
    (forall l, K c l -> ~ (l = t \/ l = a) /\ ~ inw w l) -> (forall l, inw w l -> (length h0 <= l < length h)%nat) ->
    can_give (K c) h h' s l -> ~ bad_of (fun l => l = t \/ l = a) w l.
  Proof.
    intros h0 w h h' s t a st c l OK S OLD LE KA WN G.
    pose proof (stands_old h0 h s t a st OK OLD S) as S'.
    assert (LT : (t < length h0)%nat /\ (a < length h0)%nat /\ (s < length h0)%nat).
    { destruct S as (d & sd & g & Ns & Dta & Nt & Ds & Na & _). repeat split; eapply nth_lt; eauto. }
    destruct G as [G|[G|(G & NO)]].
    - destruct (KA l G) as (A1 & A2). intros [A|A]; auto.
    - intros [A|A]; [lia|]. apply WN in A. lia.
    - rewrite (own_stands h s t a st l S') in NO. intros [A|A]; auto. apply WN in A.
      assert (l < length h0)%nat; [|lia]. eapply (reach_below h0 h s l OK); auto; apply LT.
  Qed.

  (** One update call. *)
  Lemma update_call : forall h0 w h s t a st c k, heap_ok h0 -> stands h0 s t a st ->
    (forall l, (l < length h0)%nat -> nth_error h l = nth_error h0 l) -> (length h0 <= length h)%nat ->
    (forall l, K c l -> ~ (l = t \/ l = a) /\ ~ inw w l) -> (forall l, inw w l -> (length h0 <= l < length h)%nat) ->
    heap_ok h -> I c h ->
    match c_update pc c k st with
    | Ok (x, c') => exists v h', hc_update ctl c k s h = Ok (v, c', h') /\ extends h h' /\ heap_ok h' /\ I c' h' /\
                 (forall l, K c' l -> ~ (l = t \/ l = a) /\ ~ inw w l) /\
                 rep (bad_of (fun l => l = t \/ l = a) w) h' v x
    | Err e => hc_update ctl c k s h = Err e
    end.
  Proof.
    intros h0 w h s t a st c k OK0 S OLD LE KA WN OK IC.
    pose proof (stands_old h0 h s t a st OK0 OLD S) as S'.
    assert (NK : forall l, K c l -> ~ own_dict h s l) by (intros l Kl; rewrite (own_stands _ _ _ _ _ _ S'); apply KA; auto).
    destruct (proj2 (proj2 M) c s st h OK (proj2 (stands_rep _ _ _) (ex_intro _ t (ex_intro _ a S'))) IC NK) as (_ & _ & HU).
    specialize (HU k). destruct (c_update pc c k st) as [[x c']|e]; auto.
    destruct HU as (v & h' & E & EX & OK' & IC' & KG & R). exists v, h'. repeat split; auto.
    - intros A. apply (given_ok h0 w h h' s t a st c l OK0 S OLD LE KA WN (KG l H)). left; auto.
    - intros A. apply (given_ok h0 w h h' s t a st c l OK0 S OLD LE KA WN (KG l H)). right; auto.
    - eapply rep_mono; [|exact R]. intros l o N1 N2. split; auto. intros BD.
      apply N1. intros G. exact (given_ok h0 w h h' s t a st c l OK0 S OLD LE KA WN G BD).
  Qed.

  (** The fold of a synchronous step. *)
  Lemma batch_sim : forall ids h0 s t a st w h b x c, heap_ok h0 -> stands h0 s t a st ->
    (forall l, (l < length h0)%nat -> nth_error h l = nth_error h0 l) -> (length h0 <= length h)%nat ->
    (forall l, K c l -> ~ (l = t \/ l = a) /\ ~ inw w l) -> (forall l, inw w l -> (length h0 <= l < length h)%nat) ->
    heap_ok h -> I c h -> cur_rep (length h0) (fun l => l = t \/ l = a) w h b x ->
    match foldM (fun '(batch_updates, c) site_id =>
             do (site_updates, c') <- c_update pc c site_id st;
             do b <- merge_updates site_updates batch_updates (Some site_id);
             Ok (b, c')) ids (x, c) with
    | Ok (x', c') => exists b' h',
        foldM (fun '(batch_updates, c, h) site_id =>
             do (site_updates, c', h1) <- hc_update ctl c site_id s h;
             do (b, h2) <- h_merge_updates h1 site_updates batch_updates (Some site_id);
             Ok (b, c', h2)) ids (b, c, h) = Ok (b', c', h') /\
        (forall l, (l < length h0)%nat -> nth_error h' l = nth_error h0 l) /\ (length h0 <= length h')%nat /\
        heap_ok h' /\ I c' h' /\ (forall l, K c' l -> ~ (l = t \/ l = a)) /\ rep (fun l => l = t \/ l = a) h' b' x'
    | Err e =>
        foldM (fun '(batch_updates, c, h) site_id =>
             do (site_updates, c', h1) <- hc_update ctl c site_id s h;
             do (b, h2) <- h_merge_updates h1 site_updates batch_updates (Some site_id);
             Ok (b, c', h2)) ids (b, c, h) = Err e
    end.
  Proof.
    induction ids as [|id ids IH]; intros h0 s t a st w h b x c OK0 S OLD LE KA WN OK IC CR; cbn [foldM].
    - exists b, h. split; [reflexivity|]. split; [exact OLD|]. split; [exact LE|]. split; [exact OK|]. split; [exact IC|]. split.
      + intros l Kl. apply (KA l Kl).
      + eapply cur_value; eauto. destruct S as (d & sd & g & Ns & Dta & Nt & Ds & Na & _).
        apply nth_lt in Nt, Na. intros l [->| ->]; auto.
    - assert (BN : forall l, l = t \/ l = a -> (l < length h0)%nat).
      { destruct S as (d & sd & g & Ns & Dta & Nt & Ds & Na & _). apply nth_lt in Nt, Na. intros l [->| ->]; auto. }
      pose proof (update_call h0 w h s t a st c id OK0 S OLD LE KA WN OK IC) as HC.
      destruct (c_update pc c id st) as [[y c1]|e]; cbn [bind]; [|rewrite HC; reflexivity].
      destruct HC as (v & h1 & -> & EX & OK1 & IC1 & KA1 & R). cbn [bind].
      pose proof (extends_le _ _ EX) as LE1. pose proof (extends_old _ _ EX) as OLD1.
      assert (CR1 : cur_rep (length h0) (fun l => l = t \/ l = a) w h1 b x).
      { eapply cur_frame; [exact CR| |].
        - intros l L _. auto.
        - intros l W B. apply WN in W. apply BN in B. lia. }
      pose proof (merge_rep (length h0) _ w h1 v b y x id OK1 ltac:(lia) BN CR1 R) as HM.
      destruct (merge_updates y x (Some id)) as [x1|e]; cbn [bind]; [|rewrite HM; reflexivity].
      destruct HM as (w' & b1 & h2 & -> & CR2 & OK2 & LE2 & OLD2 & W2). cbn [bind].
      assert (LW : forall l, inw w' l -> (length h0 <= l < length h2)%nat).
      { intros l W. split.
        - destruct (W2 l W) as [A|A]; [apply WN in A; lia|lia].
        - destruct w' as [[[cu bs] bg]|]; [|destruct W].
          destruct CR2 as (sd & gd & S2 & G2 & _ & _ & _ & _ & _ & _ & _ & _ & N1 & N2 & N3 & _).
          apply nth_lt in N1, N2, N3. destruct W as [->|[->| ->]]; auto. }
      assert (KB : forall l, K c1 l -> (l < length h1)%nat) by (intros l; apply (proj1 M); auto).
      apply (IH h0 s t a st w' h2 b1 x1 c1); auto.
      + intros l L. rewrite OLD2; [rewrite OLD1 by lia; auto|lia|]. intros W. apply WN in W. lia.
      + lia.
      + intros l Kl. split; [apply KA1; auto|]. intros W. destruct (W2 l W) as [A|A]; [exact (proj2 (KA1 l Kl) A)|].
        apply KB in Kl. lia.
      + apply (proj1 (proj2 M) c1 h1); auto. intros l Kl. apply OLD2; [apply KB; auto|apply KA1; auto].
  Qed.

  Lemma diffs_old : forall B h h' ds DS, Forall2 (rep B h) ds DS ->
    (forall l, (l < length h)%nat -> ~ B l -> nth_error h' l = nth_error h l) -> Forall2 (rep B h') ds DS.
  Proof.
    intros B h h' ds DS F OLD. induction F as [|v x ds DS R]; constructor; auto.
    eapply rep_mono; [|exact R]. intros l o NB N. split; auto. rewrite OLD; auto. eapply nth_lt; eauto.
  Qed.

  (** One synchronous loop. *)
  Lemma sync_sim : forall n m s t a st i0 sto ds DS c h, heap_ok h -> stands h s t a st -> (m <= t)%nat -> (m <= a)%nat ->
    I c h -> (forall l, K c l -> ~ (l = t \/ l = a)) -> Forall2 (rep (fun l => l = t \/ l = a) h) ds DS ->
    match sync_loop pc n st DS c with
    | Ok (st', DS', c') => exists ds' h', h_sync_loop ctl n s (mkHR i0 ds sto) c h = Ok (mkHR i0 ds' sto, h') /\
        stands h' s t a st' /\ Forall2 (rep (fun l => l = t \/ l = a) h') ds' DS' /\
        keeps m h h'
    | Err e => h_sync_loop ctl n s (mkHR i0 ds sto) c h = Err e
    end.
  Proof.
    induction n as [|n IH]; intros m s t a st i0 sto ds DS c h OK S Lt La IC KA FD; cbn [sync_loop h_sync_loop].
    - exists ds, h. repeat split; auto.
    - assert (EI : h_site_ids h s = Ok (site_ids st)).
      { destruct S as (d & sd & g & Ns & Dta & Nt & Ds & Na & Dg & Fs & Rg).
        unfold h_site_ids, h_sites, state_attr. rewrite Ns. cbn [bind get_dict]. rewrite Nt. cbn [bind]. unfold dgetE. rewrite Ds.
        cbn [bind get_dict]. rewrite Na. cbn [bind]. f_equal. rewrite (entries_keys _ _ _ _ Fs). unfold dkeys, site_ids, dkeys.
        rewrite map_map. apply map_ext. auto. }
      rewrite EI. cbn [bind]. unfold take_step, step_batch, h_step_batch.
      pose proof (batch_sim (site_ids st) h s t a st None h HNone VNone c OK S ltac:(auto) ltac:(auto)
                    ltac:(intros l Kl; split; [apply KA; auto|intros []]) ltac:(intros l []) OK IC (conj eq_refl eq_refl)) as HB.
      destruct (foldM _ (site_ids st) (VNone, c)) as [[x c1]|e]; cbn [bind]; [|rewrite HB; reflexivity].
      destruct HB as (b & h1 & -> & OLD1 & LE1 & OK1 & IC1 & KA1 & R1). cbn [bind].
      pose proof (stands_old h h1 s t a st OK OLD1 S) as S1.
      pose proof (batch_stands h1 s t a st b x S1 R1) as HU.
      destruct (batch_update st x) as [st1|e]; cbn [bind]; [|rewrite HU; reflexivity].
      destruct HU as (h2 & E2 & S2 & O2). pose proof (ok_batch _ _ _ _ OK1 E2) as OK2. rewrite E2. cbn [bind].
      assert (LT : (t < length h)%nat /\ (a < length h)%nat).
      { destruct S as (d & sd & g & Ns & Dta & Nt & Ds & Na & _). apply nth_lt in Nt, Na. auto. }
      unfold h_add_step at 1. cbn [hr_init hr_diffs hr_stored].
      specialize (IH m s t a st1 i0 sto (ds ++ [b]) (DS ++ [x]) c1 h2 OK2 S2 Lt La).
      assert (IC2 : I c1 h2).
      { apply (proj1 (proj2 M) c1 h1); auto; [apply O2|]. intros l Kl. pose proof (proj1 M c1 h1 l IC1 Kl) as LL.
        destruct (nth_error h1 l) as [o|] eqn:N; [|apply nth_error_None in N; lia].
        apply (proj2 O2); auto; intros ->; eapply KA1; eauto. }
      assert (F2 : forall l, (l < length h1)%nat -> ~ (l = t \/ l = a) -> nth_error h2 l = nth_error h1 l).
      { intros l LL NB. destruct (nth_error h1 l) as [o|] eqn:N; [|apply nth_error_None in N; lia]. apply (proj2 O2); auto. }
      assert (FD2 : Forall2 (rep (fun l => l = t \/ l = a) h2) (ds ++ [b]) (DS ++ [x])).
      { apply Forall2_app; [|constructor; [|constructor]].
        - apply (diffs_old _ h); auto. intros l LL NB. rewrite F2; auto. lia.
        - eapply only_rep; eauto. }
      specialize (IH IC2 KA1 FD2).
      destruct (sync_loop pc n st1 (DS ++ [x]) c1) as [[[st' DS'] c']|e]; auto.
      destruct IH as (ds' & h' & -> & S' & FD' & KP). exists ds', h'. repeat split; auto.
      + pose proof (proj1 KP). pose proof (proj1 O2). lia.
      + intros l L. rewrite (proj2 KP) by auto. rewrite F2; [apply OLD1; lia|lia|]. intros [->| ->]; lia.
  Qed.

  Lemma random_call : forall h s t a st c, heap_ok h -> stands h s t a st ->
    (forall l, K c l -> ~ (l = t \/ l = a)) -> I c h ->
    match c_random_site pc c st with
    | Ok (x, c') => exists v h', hc_random_site ctl c s h = Ok (v, c', h') /\ extends h h' /\ heap_ok h' /\ I c' h' /\
                 (forall l, K c' l -> ~ (l = t \/ l = a)) /\ rep (fun l => l = t \/ l = a) h' v x
    | Err e => hc_random_site ctl c s h = Err e
    end.
  Proof.
    intros h s t a st c OK S KA IC.
    assert (NK : forall l, K c l -> ~ own_dict h s l) by (intros l Kl; rewrite (own_stands _ _ _ _ _ _ S); apply KA; auto).
    assert (KA' : forall l, K c l -> ~ (l = t \/ l = a) /\ ~ inw None l) by (intros l Kl; split; [apply KA; auto|intros []]).
    destruct (proj2 (proj2 M) c s st h OK (proj2 (stands_rep _ _ _) (ex_intro _ t (ex_intro _ a S))) IC NK) as (_ & HR & _).
    destruct (c_random_site pc c st) as [[x c']|e]; auto.
    destruct HR as (v & h' & E & EX & OK' & IC' & KG & R).
    assert (GO : forall l, can_give (K c) h h' s l -> ~ (l = t \/ l = a)).
    { intros l G A. apply (given_ok h None h h' s t a st c l OK S ltac:(auto) ltac:(auto) KA' ltac:(intros ? []) G). left; auto. }
    exists v, h'. split; [auto|]. split; [auto|]. split; [auto|]. split; [auto|]. split.
    - intros l Kl. apply GO, KG; auto.
    - eapply rep_mono; [|exact R]. intros l o N1 N2. split; auto. intros BD. apply N1. intros G. exact (GO l G BD).
  Qed.

  Lemma key_same : forall bad h v x, rep bad h v x -> hval_key v = val_key x.
  Proof.
    intros bad h v x R. destruct x; try (cbn in R; subst; reflexivity).
    - apply rep_list in R as (n & vs & -> & _). reflexivity.
    - apply rep_tuple in R as (n & vs & -> & _). reflexivity.
    - apply rep_dict in R as (n & hd & -> & _). reflexivity.
  Qed.
  Lemma keys_same : forall bad h vs l, Forall2 (rep bad h) vs l -> mapM hval_key vs = mapM val_key l.
  Proof.
    intros bad h vs l F. induction F as [|v x vs l R]; cbn [mapM]; auto. rewrite (key_same _ _ _ _ R), IHF. reflexivity.
  Qed.

  Lemma add_sim : forall h s t a st c q, heap_ok h -> stands h s t a st ->
    (forall l, K c l -> ~ (l = t \/ l = a)) -> I c h ->
    match add_sites pc st q c with
    | Ok (q', c') => exists h', h_add_sites ctl s q c h = Ok (q', c', h') /\ extends h h' /\ heap_ok h' /\ I c' h' /\
                 (forall l, K c' l -> ~ (l = t \/ l = a))
    | Err e => h_add_sites ctl s q c h = Err e
    end.
  Proof.
    intros h s t a st c q OK S KA IC. unfold add_sites, h_add_sites.
    pose proof (random_call h s t a st c OK S KA IC) as HR.
    destruct (c_random_site pc c st) as [[x c']|e]; cbn [bind]; [|rewrite HR; reflexivity].
    destruct HR as (v & h' & -> & EX & OK' & IC' & KA' & R). cbn [bind].
    destruct x as [|b|z|m e|str|l|l|d].
    1,2,3,4,5: cbn in R; subst v; cbn [bind val_key hval_key]; exists h'; auto.
    - apply rep_list in R as (n & vs & -> & _ & N & F). rewrite N. rewrite (keys_same _ _ _ _ F).
      destruct (mapM val_key l); cbn [bind]; auto. exists h'; auto.
    - apply rep_tuple in R as (n & vs & -> & _ & N & F). rewrite N. exists h'; auto.
    - apply rep_dict in R as (n & vs & -> & _ & N & F). rewrite N. exists h'; auto.
  Qed.

  Lemma split_sim : forall bad h v x, rep bad h v x ->
    match split_response x with
    | Ok (y, nx) => exists u o, h_split h v = Ok (u, o) /\ rep bad h u y /\
        (forall h', (forall l ob, ~ bad l -> nth_error h l = Some ob -> nth_error h' l = Some ob) ->
           h_extend_arg h' o = extend_arg nx)
    | Err e => h_split h v = Err e
    end.
  Proof.
    intros bad h v x R.
    assert (PLAIN : forall y, rep bad h v y -> h_split h v = Ok (v, None) ->
      exists u o, h_split h v = Ok (u, o) /\ rep bad h u y /\
        (forall h', (forall l ob, ~ bad l -> nth_error h l = Some ob -> nth_error h' l = Some ob) -> h_extend_arg h' o = extend_arg (VList []))).
    { intros y Ry E. exists v, None. repeat split; auto. }
    destruct x as [|b|z|m e|str|l|l|d]; cbn [split_response].
    1,2,3,4,5: apply PLAIN; auto; cbn in R; subst v; reflexivity.
    - apply PLAIN; auto. apply rep_list in R as (n & vs & -> & _ & N & F). cbn. rewrite N. reflexivity.
    - apply rep_tuple in R as (n & vs & -> & _ & N & F).
      destruct l as [|x1 [|x2 [|x3 l]]].
      + inversion F; subst. cbn. rewrite N. reflexivity.
      + inversion F; subst. inversion H3; subst. cbn. rewrite N. reflexivity.
      + inversion F as [|v1 ? ? ? R1 F1]; subst. inversion F1 as [|v2 ? ? ? R2 F2]; subst. inversion F2; subst.
        exists v1, (Some v2). split; [cbn; rewrite N; reflexivity|]. split; auto. intros h' OLD.
        destruct x2; try (cbn in R2; subst v2; reflexivity).
        * apply rep_list in R2 as (n2 & vs2 & -> & B2 & N2 & G2). cbn. rewrite (OLD _ _ B2 N2). eapply keys_same; eauto.
        * apply rep_tuple in R2 as (n2 & vs2 & -> & B2 & N2 & G2). cbn. rewrite (OLD _ _ B2 N2). eapply keys_same; eauto.
        * apply rep_dict in R2 as (n2 & vs2 & -> & B2 & N2 & G2). cbn. rewrite (OLD _ _ B2 N2).
          f_equal. exact (entries_keys _ _ _ _ G2).
      + inversion F; subst. inversion H3; subst. inversion H5; subst. cbn. rewrite N. reflexivity.
    - apply PLAIN; auto. apply rep_dict in R as (n & vs & -> & _ & N & F). cbn. rewrite N. reflexivity.
  Qed.

  (** The asynchronous loop. *)
  Lemma async_sim : forall n m s t a st i0 sto ds DS q c h, heap_ok h -> stands h s t a st -> (m <= t)%nat -> (m <= a)%nat ->
    I c h -> (forall l, K c l -> ~ (l = t \/ l = a)) -> Forall2 (rep (fun l => l = t \/ l = a) h) ds DS ->
    match async_loop pc n (mkA st DS q c) with
    | Ok A => exists ds' h', h_async_loop ctl n s (mkHR i0 ds sto) q c h = Ok (mkHR i0 ds' sto, h') /\
        stands h' s t a (a_live A) /\ Forall2 (rep (fun l => l = t \/ l = a) h') ds' (a_diffs A) /\
        keeps m h h'
    | Err e => h_async_loop ctl n s (mkHR i0 ds sto) q c h = Err e
    end.
  Proof.
    induction n as [|n IH]; intros m s t a st i0 sto ds DS q c h OK S Lt La IC KA FD; cbn [async_loop h_async_loop].
    - exists ds, h. repeat split; auto; apply S.
    - unfold async_step. cbn [a_queue a_ctl a_live a_diffs]. destruct q as [|id q1]; [reflexivity|].
      assert (LT : (t < length h)%nat /\ (a < length h)%nat).
      { destruct S as (d & sd & g & Ns & Dta & Nt & Ds & Na & _). apply nth_lt in Nt, Na. auto. }
      assert (BN : forall l, l = t \/ l = a -> (l < length h)%nat) by (intros l [->| ->]; apply LT).
      assert (KA0 : forall l, K c l -> ~ (l = t \/ l = a) /\ ~ inw None l) by (intros l Kl; split; [apply KA; auto|intros []]).
      pose proof (update_call h None h s t a st c id OK S ltac:(auto) ltac:(auto) KA0 ltac:(intros ? []) OK IC) as HC.
      destruct (c_update pc c id st) as [[resp c1]|e]; cbn [bind]; [|rewrite HC; reflexivity].
      destruct HC as (v & h1 & -> & EX & OK1 & IC1 & KA1 & R). cbn [bind].
      pose proof (extends_le _ _ EX) as LE1. pose proof (extends_old _ _ EX) as OLD1.
      pose proof (stands_old h h1 s t a st OK OLD1 S) as S1.
      pose proof (split_sim _ _ _ _ R) as HS.
      destruct (split_response resp) as [[y nx]|e]; cbn [bind]; [|rewrite HS; reflexivity].
      destruct HS as (u & o & -> & RU & EO). cbn [bind].
      pose proof (merge_rep (length h) (fun l => l = t \/ l = a) None h1 u HNone y VNone id OK1 LE1 BN (conj eq_refl eq_refl) RU) as HM.
      destruct (merge_updates y VNone (Some id)) as [x1|e]; cbn [bind]; [|rewrite HM; reflexivity].
      destruct HM as (w' & b1 & h2 & -> & CR2 & OK2 & LE2 & OLD2 & W2). cbn [bind].
      assert (OLD2' : forall l, (l < length h1)%nat -> nth_error h2 l = nth_error h1 l) by (intros l L; apply OLD2; auto).
      pose proof (stands_old h1 h2 s t a st OK1 OLD2' S1) as S2.
      pose proof (cur_value _ _ _ _ _ _ CR2 BN) as RB.
      pose proof (batch_stands h2 s t a st b1 x1 S2 RB) as HU.
      destruct (batch_update st x1) as [st1|e]; cbn [bind]; [|rewrite HU; reflexivity].
      destruct HU as (h3 & E3 & S3 & O3). pose proof (ok_batch _ _ _ _ OK2 E3) as OK3. rewrite E3. cbn [bind].
      assert (F3 : forall l, (l < length h2)%nat -> ~ (l = t \/ l = a) -> nth_error h3 l = nth_error h2 l).
      { intros l LL NB. destruct (nth_error h2 l) as [ob|] eqn:N; [|apply nth_error_None in N; lia]. apply (proj2 O3); auto. }
      rewrite (EO h3) by (intros l ob NB N; pose proof (nth_lt _ _ _ N); rewrite F3; [rewrite OLD2'; auto|lia|intros BB; apply NB; left; auto]).
      destruct (extend_arg nx) as [ks|e]; cbn [bind]; [|reflexivity].
      assert (IC3 : I c1 h3).
      { apply (proj1 (proj2 M) c1 h1); auto; [pose proof (proj1 O3); lia|].
        intros l Kl. pose proof (proj1 M c1 h1 l IC1 Kl) as LL. rewrite F3; [apply OLD2'; auto|lia|apply KA1; auto]. }
      assert (FD3 : Forall2 (rep (fun l => l = t \/ l = a) h3) (ds ++ [b1]) (DS ++ [x1])).
      { apply Forall2_app; [|constructor; [|constructor]].
        - apply (diffs_old _ h); auto. intros l LL NB. rewrite F3; [|lia|auto]. rewrite OLD2' by lia. auto.
        - eapply only_rep; eauto. }
      assert (KP3 : keeps m h h3).
      { split; [pose proof (proj1 O3); lia|]. intros l L. rewrite F3; [|lia|intros [->| ->]; lia]. rewrite OLD2' by lia. apply OLD1. lia. }
      unfold h_add_step. cbn [hr_init hr_diffs hr_stored].
      destruct (q1 ++ ks) as [|k0 q2] eqn:EQ.
      + pose proof (add_sim h3 s t a st1 c1 [] OK3 S3 ltac:(intros l Kl; apply (KA1 l Kl)) IC3) as HA.
        destruct (add_sites pc st1 [] c1) as [[q3 c2]|e]; cbn [bind]; [|rewrite HA; reflexivity].
        destruct HA as (h4 & -> & EX4 & OK4 & IC4 & KA4). cbn [bind a_queue].
        pose proof (extends_le _ _ EX4) as LE4. pose proof (extends_old _ _ EX4) as OLD4.
        pose proof (stands_old h3 h4 s t a st1 OK3 OLD4 S3) as S4.
        assert (FD4 : Forall2 (rep (fun l => l = t \/ l = a) h4) (ds ++ [b1]) (DS ++ [x1])) by (apply (diffs_old _ h3); auto).
        assert (KP4 : keeps m h h4).
        { eapply keeps_trans; [exact KP3|]. split; [lia|]. intros l L. apply OLD4. pose proof (proj1 KP3). lia. }
        destruct q3 as [|k3 q3].
        * exists (ds ++ [b1]), h4. cbn [a_live a_diffs]. auto.
        * specialize (IH m s t a st1 i0 sto (ds ++ [b1]) (DS ++ [x1]) (k3 :: q3) c2 h4 OK4 S4 Lt La IC4 KA4 FD4).
          destruct (async_loop pc n _) as [A|e]; auto.
          destruct IH as (ds' & h' & -> & S' & FD' & KP). exists ds', h'. split; auto. split; auto. split; auto. eapply keeps_trans; eauto.
      + cbn [bind a_queue].
        specialize (IH m s t a st1 i0 sto (ds ++ [b1]) (DS ++ [x1]) (k0 :: q2) c1 h3 OK3 S3 Lt La IC3 ltac:(intros l Kl; apply (KA1 l Kl)) FD3).
        destruct (async_loop pc n _) as [A|e]; auto.
        destruct IH as (ds' & h' & -> & S' & FD' & KP). exists ds', h'. split; auto. split; auto. split; auto. eapply keeps_trans; eauto.
  Qed.

  (** What happens before the loop of either runner. *)
  Lemma start_sim : forall h s st c0, heap_ok h -> rep_state h s st -> I c0 h -> (forall l, K c0 l -> ~ own_dict h s l) ->
    exists i0 h1, h_copy h s = Ok (i0, h1) /\
    match c_pre_run pc c0 st with
    | Ok c1 => exists h2 live t a h3, hc_pre_run ctl c0 s h1 = Ok (c1, h2) /\ h_copy h2 s = Ok (live, h3) /\
        heap_ok h2 /\ rep_state h2 i0 st /\ keeps (length h) h h2 /\ keeps (length h2) h2 h3 /\
        heap_ok h3 /\ stands h3 live t a st /\ (length h2 <= t)%nat /\ (length h2 <= a)%nat /\
        I c1 h3 /\ (forall l, K c1 l -> ~ (l = t \/ l = a))
    | Err e => hc_pre_run ctl c0 s h1 = Err e
    end.
  Proof.
    intros h s st c0 OK RS IC NK. apply stands_rep in RS as (t & a & S).
    destruct (copy_stands _ _ _ _ _ S) as (h1 & E1 & S1 & L1 & OLD1).
    exists (length h + length h)%nat, h1. split; auto.
    assert (OK1 : heap_ok h1). { destruct S as (d & sd & g & Ns & _). exact (heap_ok_copy _ _ _ _ _ OK Ns E1). }
    pose proof (stands_old h h1 s t a st OK OLD1 S) as Ss.
    assert (IC1 : I c0 h1).
    { apply (proj1 (proj2 M) c0 h); auto; [lia|]. intros l Kl. apply OLD1. apply (proj1 M c0 h); auto. }
    assert (NK1 : forall l, K c0 l -> ~ own_dict h1 s l).
    { intros l Kl. rewrite (own_stands _ _ _ _ _ _ Ss), <- (own_stands _ _ _ _ _ _ S). auto. }
    destruct (proj2 (proj2 M) c0 s st h1 OK1 (proj2 (stands_rep _ _ _) (ex_intro _ t (ex_intro _ a Ss))) IC1 NK1) as (HP & _ & _).
    destruct (c_pre_run pc c0 st) as [c1|e]; auto.
    destruct HP as (h2 & EP & EX & OK2 & IC2 & KG).
    pose proof (extends_le _ _ EX) as LE2. pose proof (extends_old _ _ EX) as OLD2.
    pose proof (stands_old h1 h2 s t a st OK1 OLD2 Ss) as S2.
    destruct (copy_stands _ _ _ _ _ S2) as (h3 & E3 & S3 & L3 & OLD3).
    exists h2, (length h2 + length h2)%nat, (length h2 + t)%nat, (length h2 + a)%nat, h3.
    assert (OK3 : heap_ok h3). { destruct S2 as (d & sd & g & Ns & _). exact (heap_ok_copy _ _ _ _ _ OK2 Ns E3). }
    split; auto. split; auto. split; auto. split.
    { apply (rep_state_old h1); auto. apply stands_rep; eauto. }
    split. { split; [lia|]. intros l L. rewrite OLD2 by lia. auto. }
    split. { split; [lia|]. auto. }
    split; auto. split; auto. split; [lia|]. split; [lia|]. split.
    - apply (proj1 (proj2 M) c1 h2); auto; [lia|]. intros l Kl. apply OLD3. apply (proj1 M c1 h2); auto.
    - intros l Kl [E|E]; pose proof (proj1 M c1 h2 l IC2 Kl); lia.
  Qed.

  Lemma finish_sim : forall h2 h3 h5 i0 st ds DS B, heap_ok h2 -> rep_state h2 i0 st -> keeps (length h2) h2 h3 -> keeps (length h2) h3 h5 ->
    Forall2 (rep B h5) ds DS -> rep_result h5 (mkHR i0 ds []) (mkR st DS []).
  Proof.
    intros h2 h3 h5 i0 st ds DS B OK RS K1 K2 F. split; [|split].
    - cbn. apply (rep_state_old h2); auto. intros l L. rewrite (proj2 K2) by auto. apply (proj2 K1); auto.
    - cbn. clear -F. induction F as [|v x ds DS R]; constructor; auto. eapply rep_mono; [|exact R]. auto.
    - constructor.
  Qed.

  Lemma run_sync_sim : forall c0 s st n h, heap_ok h -> rep_state h s st -> I c0 h -> (forall l, K c0 l -> ~ own_dict h s l) ->
    match run_sync pc c0 st n with
    | Ok out => exists o, h_run_sync ctl c0 s n h = Ok o /\
        rep_result (ho_heap o) (ho_result o) (o_result out) /\ rep_state (ho_heap o) (ho_output o) (o_output out) /\
        (forall l, (l < length h)%nat -> nth_error (ho_heap o) l = nth_error h l)
    | Err e => h_run_sync ctl c0 s n h = Err e
    end.
  Proof.
    intros c0 s st n h OK RS IC NK. unfold run_sync, h_run_sync.
    destruct (start_sim h s st c0 OK RS IC NK) as (i0 & h1 & -> & H). cbn [bind].
    destruct (c_pre_run pc c0 st) as [c1|e]; cbn [bind]; [|rewrite H; reflexivity].
    destruct H as (h2 & live & t & a & h3 & -> & E3 & OK2 & RI & K2 & K3 & OK3 & S3 & Lt & La & IC3 & KA3). cbn [bind]. rewrite E3. cbn [bind].
    pose proof (sync_sim (Z.to_nat n) (length h2) live t a st i0 [] [] [] c1 h3 OK3 S3 Lt La IC3 KA3 ltac:(constructor)) as HL.
    destruct (sync_loop pc (Z.to_nat n) st [] c1) as [[[st' DS'] c']|e]; cbn [bind]; [|rewrite HL; reflexivity].
    destruct HL as (ds' & h5 & -> & S5 & FD & KP). cbn [bind]. eexists. split; [reflexivity|]. cbn [ho_heap ho_result ho_output o_result o_output].
    split; [exact (finish_sim h2 h3 h5 i0 st ds' DS' _ OK2 RI K3 KP FD)|]. split; [apply stands_rep; eauto|].
    intros l L. rewrite (proj2 KP) by (pose proof (proj1 K2); lia). rewrite (proj2 K3) by (pose proof (proj1 K2); lia). apply (proj2 K2); auto.
  Qed.

  Lemma run_async_sim : forall c0 s st n h, heap_ok h -> rep_state h s st -> I c0 h -> (forall l, K c0 l -> ~ own_dict h s l) ->
    match run_async pc c0 st n with
    | Ok out => exists o, h_run_async ctl c0 s n h = Ok o /\
        rep_result (ho_heap o) (ho_result o) (o_result out) /\ rep_state (ho_heap o) (ho_output o) (o_output out) /\
        (forall l, (l < length h)%nat -> nth_error (ho_heap o) l = nth_error h l)
    | Err e => h_run_async ctl c0 s n h = Err e
    end.
  Proof.
    intros c0 s st n h OK RS IC NK. unfold run_async, h_run_async.
    destruct (start_sim h s st c0 OK RS IC NK) as (i0 & h1 & -> & H). cbn [bind].
    destruct (c_pre_run pc c0 st) as [c1|e]; cbn [bind]; [|rewrite H; reflexivity].
    destruct H as (h2 & live & t & a & h3 & -> & E3 & OK2 & RI & K2 & K3 & OK3 & S3 & Lt & La & IC3 & KA3). cbn [bind]. rewrite E3. cbn [bind].
    pose proof (add_sim h3 live t a st c1 [] OK3 S3 KA3 IC3) as HA.
    destruct (add_sites pc st [] c1) as [[q c2]|e]; cbn [bind]; [|rewrite HA; reflexivity].
    destruct HA as (h4 & -> & EX4 & OK4 & IC4 & KA4). cbn [bind].
    pose proof (extends_le _ _ EX4) as LE4. pose proof (extends_old _ _ EX4) as OLD4.
    pose proof (stands_old h3 h4 live t a st OK3 OLD4 S3) as S4.
    destruct q as [|k q]; [reflexivity|].
    pose proof (async_sim (Z.to_nat n) (length h2) live t a st i0 [] [] [] (k :: q) c2 h4 OK4 S4 Lt La IC4 KA4 ltac:(constructor)) as HL.
    destruct (async_loop pc (Z.to_nat n) _) as [A|e]; cbn [bind]; [|rewrite HL; reflexivity].
    destruct HL as (ds' & h5 & -> & S5 & FD & KP). cbn [bind]. eexists. split; [reflexivity|]. cbn [ho_heap ho_result ho_output o_result o_output].
    assert (KP' : keeps (length h2) h3 h5).
    { eapply keeps_trans; [|exact KP]. split; auto. intros l L. apply OLD4. pose proof (proj1 K3). lia. }
    split; [exact (finish_sim h2 h3 h5 i0 st ds' _ _ OK2 RI K3 KP' FD)|]. split; [apply stands_rep; eauto|].
    intros l L. rewrite (proj2 KP') by (pose proof (proj1 K2); lia). rewrite (proj2 K3) by (pose proof (proj1 K2); lia). apply (proj2 K2); auto.
  Qed.
End Sim.

Lemma C105_sync_lemma : forall C (ctl : hcontroller C) (pc : controller C) K I c0 s st n h,
  mimics K I ctl pc -> heap_ok h -> rep_state h s st -> I c0 h -> (forall l, K c0 l -> ~ own_dict h s l) ->
  match run_sync pc c0 st n with
  | Ok out => exists o, h_run_sync ctl c0 s n h = Ok o /\
      rep_result (ho_heap o) (ho_result o) (o_result out) /\ rep_state (ho_heap o) (ho_output o) (o_output out) /\
      (forall l, (l < length h)%nat -> nth_error (ho_heap o) l = nth_error h l)
  | Err e => h_run_sync ctl c0 s n h = Err e
  end.
Proof. intros C ctl pc K I c0 s st n h M. exact (run_sync_sim K I ctl pc M c0 s st n h). Qed.

Lemma C105_async_lemma : forall C (ctl : hcontroller C) (pc : controller C) K I c0 s st n h,
  mimics K I ctl pc -> heap_ok h -> rep_state h s st -> I c0 h -> (forall l, K c0 l -> ~ own_dict h s l) ->
  match run_async pc c0 st n with
  | Ok out => exists o, h_run_async ctl c0 s n h = Ok o /\
      rep_result (ho_heap o) (ho_result o) (o_result out) /\ rep_state (ho_heap o) (ho_output o) (o_output out) /\
      (forall l, (l < length h)%nat -> nth_error (ho_heap o) l = nth_error h l)
  | Err e => h_run_async ctl c0 s n h = Err e
  end.
Proof. intros C ctl pc K I c0 s st n h M. exact (run_async_sim K I ctl pc M c0 s st n h). Qed.

(** Whatever is found in a state can be handed out again. *)
Lemma rep_found : forall h s (bad : nat -> Prop) x v, rep bad h v x -> (forall l, v = HRef l -> reach h s l) ->
  rep (fun l => ~ (reach h s l /\ ~ bad l)) h v x.
Proof.
  intros h s bad. induction x as [| | | | |l IH|l IH|d IH] using val_ind'; intros v R SEE; auto.
  - apply rep_list in R as (n & vs & -> & Bn & N & F). apply rep_list. exists n, vs.
    pose proof (SEE n eq_refl) as Rn. split; [auto|]. split; [tauto|]. split; auto.
    assert (SV : forall w, In w vs -> forall l, w = HRef l -> reach h s l) by (intros w I l0 ->; eapply reach_last; eauto).
    clear N SEE. induction F; constructor; [apply Forall_inv in IH|apply Forall_inv_tail in IH]; auto.
    + apply IH; auto. apply SV; left; auto.
    + apply IHF; auto. intros w I. apply SV; right; auto.
  - apply rep_tuple in R as (n & vs & -> & Bn & N & F). apply rep_tuple. exists n, vs.
    pose proof (SEE n eq_refl) as Rn. split; [auto|]. split; [tauto|]. split; auto.
    assert (SV : forall w, In w vs -> forall l, w = HRef l -> reach h s l) by (intros w I l0 ->; eapply reach_last; eauto).
    clear N SEE. induction F; constructor; [apply Forall_inv in IH|apply Forall_inv_tail in IH]; auto.
    + apply IH; auto. apply SV; left; auto.
    + apply IHF; auto. intros w I. apply SV; right; auto.
  - apply rep_dict in R as (n & vs & -> & Bn & N & F). apply rep_dict. exists n, vs.
    pose proof (SEE n eq_refl) as Rn. split; [auto|]. split; [tauto|]. split; auto.
    assert (SV : forall w, In w (map snd vs) -> forall l, w = HRef l -> reach h s l) by (intros w I l0 ->; eapply reach_last; eauto).
    clear N SEE. induction F as [|[k w] [k' y] ? ? (Ek & Ry)]; constructor; [apply Forall_inv in IH|apply Forall_inv_tail in IH]; cbn [fst snd] in *.
    + split; auto. apply IH; auto. apply SV; left; auto.
    + apply IHF; auto. intros w0 I. apply SV; right; auto.
Qed.

(** [SimulationState()] is an empty state of its own. *)
Lemma C05_new_lemma : forall h s h', heap_ok h -> h_state_of h HNone = (s, h') ->
  extends h h' /\ heap_ok h' /\ rep_state h' s s_empty /\ forall l, reach h' s l -> (length h <= l)%nat.
Proof.
  intros h s h0 OK E. set (n := length h).
  set (t := [ODict []; ODict []; ODict [(SITES, HRef n); (GENERAL, HRef (n + 1))]; OState (HRef (n + 2))]).
  assert (E' : h_state_of h HNone = ((n + 3)%nat, h ++ t)).
  { unfold h_state_of, h_new_state, alloc. rewrite <- !app_assoc, !app_length. cbn [app length]. fold n. unfold t. repeat f_equal; lia. }
  rewrite E' in E. injection E as <- <-. set (h' := h ++ t).
  assert (NT : forall i, nth_error h' (n + i) = nth_error t i).
  { intros i. unfold h'. rewrite nth_error_app2 by (unfold n; lia). f_equal. unfold n. lia. }
  assert (L : length h' = (n + 4)%nat) by (unfold h'; rewrite app_length; reflexivity).
  pose proof (NT 0%nat) as N0. rewrite Nat.add_0_r in N0. pose proof (NT 1%nat) as N1. pose proof (NT 2%nat) as N2. pose proof (NT 3%nat) as N3. cbn [nth_error t] in N0, N1, N2, N3.
  assert (OK' : heap_ok h').
  { intros l o m N I. rewrite L. destruct (Nat.lt_ge_cases l n) as [Hl|Hl].
    - unfold h' in N. rewrite nth_error_app1 in N by (fold n; lia). pose proof (OK _ _ _ N I). fold n in H. lia.
    - assert (l < n + 4)%nat by (rewrite <- L; apply nth_error_Some; congruence).
      assert (l = n \/ l = n + 1 \/ l = n + 2 \/ l = n + 3)%nat as [->|[->|[->| ->]]] by lia; rewrite ?N0, ?N1, ?N2, ?N3 in N; injection N as <-; simpl in I; intuition; try discriminate.
      all: repeat match goal with H : HRef _ = HRef _ |- _ => injection H as <- end; lia. }
  split; [exists t; reflexivity|].
  split; [exact OK'|]. split.
  - exists (n + 2)%nat, n, [(SITES, HRef n); (GENERAL, HRef (n + 1))], [], (HRef (n + 1)). split; [exact N3|]. split; [lia|]. split; [exact N2|]. split; [reflexivity|]. split; [exact N0|]. split; [reflexivity|]. split; [constructor|].
    simpl. exists (n + 1)%nat, []. split; [reflexivity|]. split; [lia|]. split; [exact N1|exact I].
  - intros l R. apply (reach_closed h' (fun l => (n <= l)%nat) (n + 3) l); auto; [|lia].
    intros p o m Hp N I. assert (p < n + 4)%nat by (rewrite <- L; apply nth_error_Some; congruence).
    assert (p = n \/ p = n + 1 \/ p = n + 2 \/ p = n + 3)%nat as [->|[->|[->| ->]]] by lia; rewrite ?N0, ?N1, ?N2, ?N3 in N; injection N as <-; simpl in I; intuition; try discriminate.
    all: repeat match goal with H : HRef _ = HRef _ |- _ => injection H as <- end; lia.
Qed.
