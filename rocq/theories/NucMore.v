(** Random nucleation sites: the whole setup. *)
From Coq Require Import Reals Lra Permutation.
From Verif Require Import Prelude Dict Val ValFacts Arith RVec RealArith LatticeModel JsonModel StructModel StateModel NbModel GridModel
  SimModel SetupModel SpecState SpecGeom SpecNb SpecGrid SpecSetup StateFacts JsonFacts LatticeFacts LatticeMore StructFacts StructMore StructBuild
  NbFacts NbMore GridFacts GridMore GridNb SetupFacts NucFacts.
Local Open Scope Z_scope.

Definition moore_rel (s : structure R) (dim : nat) (r : Z) (i j : Z) : Prop :=
  j <> i /\ exists x d, length x = dim /\ length d = dim /\ within_moore r d /\ cell s x i /\ cell s (shift x d) j.

Lemma moore_rel_sym s dim r i j : moore_rel s dim r i j -> moore_rel s dim r j i.
Proof.
  intros (D & x & d & Lx & Ld & W & Ci & Cj). split; auto. exists (shift x d), (map Z.opp d). split; [rewrite shift_length; congruence|].
  split; [now rewrite map_length|]. split; [now apply moore_opp|]. split; auto. rewrite shift_opp; auto. congruence.
Qed.
Lemma moore_rel_nb size s L r (N : nbhood R) o i : grid_facts size s L -> torus_nb size s (within_moore r) N -> legal o -> In i (map s_id (sites s None)) ->
  exists l, neighbors_of o N i = Ok l /\ forall j, In j l <-> moore_rel s (length size) r i j.
Proof.
  intros G T LO Hi. apply (get_site_ids RA L s i (gf_built _ _ _ G)) in Hi as [x Gx]. destruct (site_cell _ _ _ _ _ G Gx) as (p & Lp & _ & _ & Cp & _).
  destruct (T p i Lp Cp o LO) as (l & El & _ & IN). exists l. split; auto. intros j. split.
  - intros Hj. apply IN in Hj as (D & d & Ld & W & C). split; auto. exists p, d. auto.
  - intros (D & y & d & Ly & Ld & W & Cy & C). destruct (T y i Ly Cy o LO) as (l' & El' & _ & IN'). rewrite El in El'. injection El' as <-.
    apply IN'. split; auto. exists d. auto.
Qed.
Lemma moore_rel_in size s L r i j : grid_facts size s L -> moore_rel s (length size) r i j -> In j (map s_id (sites s None)).
Proof.
  intros G (_ & x & d & Lx & Ld & _ & _ & C). apply (get_site_ids RA L s j (gf_built _ _ _ G)). unfold cell, id_at in C.
  apply bind_Ok in C as (o & E & C). destruct o as [y|]; [|discriminate]. injection C as <-. exists y.
  pose proof (site_at_found RA L s _ y (gf_built _ _ _ G) E) as H. destruct (built_inv RA L s (gf_built _ _ _ G)) as [h I].
  apply (inv_get_site RA L h s _ y I). auto.
Qed.
Lemma far_separated s dim r l : (forall i j, In i l -> In j l -> i <> j -> ~ moore_rel s dim r i j) -> separated s dim r l.
Proof.
  intros H i j x y Hi Hj D Lx Ly Cx Cy F. apply (H i j Hi Hj D). split; auto. exists x, (zipwith Z.sub y x). split; auto.
  assert (E : shift x (zipwith Z.sub y x) = y /\ length (zipwith Z.sub y x) = length x /\ within_moore r (zipwith Z.sub y x)).
  { clear -F. induction F as [|a b x y B F IH]; cbn [zipwith shift]; [split; auto; split; auto; constructor|]. destruct IH as (E1 & E2 & E3).
    unfold shift in *. cbn [zipwith]. rewrite E1. split; [f_equal; lia|]. split; [simpl; auto|]. constructor; [lia|auto]. }
  destruct E as (E1 & E2 & E3). split; [congruence|]. split; auto. now rewrite E1.
Qed.

(** The parts of [setup_random_sites] before the loops. *)
Lemma random_prepared dim sz bg buffer : good_size dim sz ->
  exists s L nbg, grid_facts (grid_size dim sz) s L /\ square_grid (grid_size dim sz) s /\
   (buffer = None -> nbg = None) /\
   (do s <- build_structure RA (Z.of_nat dim) sz;
           let state := setup_solid_phase s bg in
           do nb_graph <- match buffer with
                          | None => Ok None
                          | Some r => do b <- MooreNbHoodBuilder RA r (p_dim s);
                                      do N <- nb_get RA b s None; Ok (Some N)
                          end;
           Ok (s, state, nb_graph)) = Ok (s, layout (sites s None) (fun _ => VStr bg), nbg) /\
   forall o i, legal o -> In i (map s_id (sites s None)) -> exists l, (match nbg with None => Ok [] | Some N => neighbors_of o N i end) = Ok l /\
    forall j, In j l <-> match buffer with None => False | Some r => moore_rel s dim r i j end.
Proof.
  intros GS. destruct (setup_grid dim sz GS) as (s & L & Es & SG & G & PD & FL). exists s, L.
  assert (Ld : length (grid_size dim sz) = dim) by apply GS.
  rewrite Es. cbn [bind]. unfold setup_solid_phase. rewrite blank_layout by (apply dense_NoDup, (built_dense RA L s (gf_built _ _ _ G))).
  destruct buffer as [r|].
  - destruct (C41_moore_lemma (grid_size dim sz) s r SG) as (b & N & Eb & EN & T & _). rewrite Ld in Eb. exists (Some N). rewrite PD, Eb. cbn [bind]. rewrite EN. cbn [bind].
    split; auto. split; auto. split; [discriminate|]. split; auto. intros o i LO Hi. rewrite <- Ld. eapply moore_rel_nb; eauto.
  - exists None. cbn [bind]. split; auto. split; auto. split; auto. split; auto. intros o i _ _. exists []. split; auto. intros j. simpl. tauto.
Qed.

Ltac prep EP := unfold setup_random_sites; match goal with |- context [match ?X with Ok _ => _ | Err _ => _ end] =>
  match X with bind _ _ => let H := fresh in pose proof EP as H; match type of H with _ = ?v => change (X = v) in H end; rewrite H; clear H end end.

Lemma identities_mono {F} (A : arith F) n sp idl : forall f f', (f <= f')%nat -> forall rest real l r,
  nucleus_identities A f n sp rest idl real l = Some r -> nucleus_identities A f' n sp rest idl real l = Some r.
Proof.
  induction f as [|f IH]; intros f' Lf rest real l r; cbn [nucleus_identities].
  - intros E. destruct f'; cbn [nucleus_identities]; destruct (_ <? n); try discriminate; auto.
  - destruct f' as [|f']; [lia|]. cbn [nucleus_identities]. destruct (_ <? n); auto.
    destruct rest as [|p rest]; [destruct sp as [|p rest] eqn:Esp; auto|];
      (destruct (dget p real); auto; destruct (dget p idl); auto; destruct (np_below A z n0); apply IH; lia).
Qed.

(** The setup once the phases of the nuclei are chosen. *)
Lemma random_gen {F} (A : arith F) dimz sz n bg amts buffer rnd ords np_sum s L nbg (rel : Z -> Z -> Prop) ids F1 :
  built A L s -> sites s None <> [] -> 0 <= n -> (forall t, legal (ords t)) ->
  (do s <- build_structure A dimz sz;
           let state := setup_solid_phase s bg in
           do nb_graph <- match buffer with
                          | None => Ok None
                          | Some r => do b <- MooreNbHoodBuilder A r (p_dim s);
                                      do N <- nb_get A b s None; Ok (Some N)
                          end;
           Ok (s, state, nb_graph)) = Ok (s, layout (sites s None) (fun _ => VStr bg), nbg) ->
  (forall o i, legal o -> In i (map s_id (sites s None)) -> exists l, (match nbg with None => Ok [] | Some N => neighbors_of o N i end) = Ok l /\
    forall j, In j l <-> rel i j) ->
  (forall i j, In i (map s_id (sites s None)) -> rel i j -> In j (map s_id (sites s None))) -> (forall i j, rel i j -> rel j i) ->
  ~ In bg (dkeys amts) -> Z.of_nat F1 <= (n + 1) * Z.of_nat (length amts) ->
  nucleus_identities A F1 n (map fst amts) (map fst amts) (ideal_num_sites A np_sum amts n) (dict_of (map (fun p => (p, 0)) (map fst amts))) [] = Some (Ok ids) ->
  Z.of_nat (length ids) = n -> incl ids (map fst amts) ->
  exists r, (forall f1 f2, (n + 1) * Z.of_nat (length amts) <= Z.of_nat f1 -> 1000 * n + 2 <= Z.of_nat f2 ->
      setup_random_sites A f1 f2 np_sum rnd ords dimz sz n bg amts buffer = Some r) /\
    (r = Err RuntimeError \/ exists st, r = Ok (mkSim st s) /\
       configuration s st (fun _ q => q = bg \/ In q (dkeys amts)) /\
       Z.of_nat (length (without_phase s st bg)) = n /\
       (forall i j, In i (without_phase s st bg) -> In j (without_phase s st bg) -> i <> j -> ~ rel i j) /\
       forall p, p <> bg -> Z.of_nat (length (with_phase s st p)) = cnt p ids).
Proof.
  intros BU NE N0 LO EP HN RI RS NB LF EI LI II.
  set (F2 := Z.to_nat (1000 * n + 2)).
  assert (NBI : ~ In bg ids) by (intros H; apply NB, II, H).
  pose proof (plant_run A s L n bg nbg rel ids rnd ords BU NE LO HN RI RS LI NBI F2 0 0 (fun _ => bg) [] ltac:(lia)
     (inv_start s n bg rel ids N0) ltac:(lia) ltac:(lia)) as PR.
  assert (U : forall r, plant F2 rnd ords n bg nbg (sites s None) ids 0 0 (layout (sites s None) (fun _ => VStr bg)) = Some r ->
    forall f1 f2, (n + 1) * Z.of_nat (length amts) <= Z.of_nat f1 -> 1000 * n + 2 <= Z.of_nat f2 ->
      setup_random_sites A f1 f2 np_sum rnd ords dimz sz n bg amts buffer = Some (do st <- r; Ok (mkSim st s))).
  { intros r ER f1 f2 B1 B2. prep EP.
    rewrite (identities_mono A n _ _ F1 f1 ltac:(lia) _ _ _ _ EI).
    rewrite (plant_mono rnd ords n bg nbg (sites s None) ids F2 f2 0 0 _ r ltac:(lia) ER). destruct r; reflexivity. }
  destruct PR as [PR|(g & P & PR & PI)].
  - exists (Err RuntimeError). split; [|auto]. exact (U _ PR).
  - exists (Ok (mkSim (layout (sites s None) (fun i => VStr (g i))) s)). split; [exact (U _ PR)|]. right.
    eexists. split; [reflexivity|].
    pose proof (without_lay A s L n bg rel ids BU g P PI) as PW.
    split; [|split; [|split]].
    + apply (config_lay A s L n bg rel ids BU g P (fun q => q = bg \/ In q (dkeys amts)) PI); auto.
    + rewrite (Permutation_length PW). apply (pi_len _ _ _ _ _ _ _ _ PI).
    + intros i j Hi Hj D. apply (pi_far _ _ _ _ _ _ _ _ PI i j); auto; eapply Permutation_in; eauto.
    + intros p Hp. exact (with_lay A s L n bg nbg rel ids BU HN RI RS LI NBI g P p PI Hp).
Qed.

Lemma random_run dim sz n bg amts buffer rnd ords np_sum : good_size dim sz -> 0 <= n -> amounts_ok bg amts -> (forall t, legal (ords t)) -> summation RA np_sum ->
  exists r, (forall f1 f2, (n + 1) * Z.of_nat (length amts) <= Z.of_nat f1 -> 1000 * n + 2 <= Z.of_nat f2 ->
      setup_random_sites RA f1 f2 np_sum rnd ords (Z.of_nat dim) sz n bg amts buffer = Some r) /\
    (r = Err RuntimeError \/ exists s st, r = Ok (mkSim st s) /\ square_grid (grid_size dim sz) s /\
       configuration s st (fun _ q => q = bg \/ In q (dkeys amts)) /\
       Z.of_nat (length (without_phase s st bg)) = n /\
       (forall b, buffer = Some b -> separated s dim b (without_phase s st bg)) /\
       forall p a, In (p, a) amts -> (IZR (Z.of_nat (length (with_phase s st p))) < IZR n * a / sum (map snd amts) + 1)%R).
Proof.
  intros GS N0 (UQ & NB & NN & TP) LO SM. destruct (random_prepared dim sz bg buffer GS) as (s & L & nbg & G & SG & _ & EP & HN).
  assert (Ld : length (grid_size dim sz) = dim) by apply GS.
  assert (NE : sites s None <> []).
  { pose proof (gf_count _ _ _ G) as C. pose proof (prod_pos _ (gf_pos _ _ _ G)). intros E. rewrite E in C. simpl in C. lia. }
  set (F1 := Z.to_nat ((n + 1) * Z.of_nat (length amts))).
  destruct (identities_start n amts np_sum UQ NN TP N0 SM F1 ltac:(lia)) as (ids & EI & LI & II & CI).
  set (rel := fun i j => match buffer with None => False | Some r => moore_rel s dim r i j end).
  assert (RI : forall i j, In i (map s_id (sites s None)) -> rel i j -> In j (map s_id (sites s None))).
  { intros i j _ H. unfold rel in H. destruct buffer as [b|]; [|destruct H]. rewrite <- Ld in H. eapply moore_rel_in; eauto. }
  assert (RS : forall i j, rel i j -> rel j i).
  { intros i j H. unfold rel in *. destruct buffer; auto. now apply moore_rel_sym. }
  destruct (random_gen RA (Z.of_nat dim) sz n bg amts buffer rnd ords np_sum s L nbg rel ids F1 (gf_built _ _ _ G) NE N0 LO EP HN RI RS NB ltac:(lia) EI LI II)
    as (r & U & [->|(st & -> & CF & CN & FA & CW)]).
  - exists (Err RuntimeError). auto.
  - eexists. split; [exact U|]. right. exists s, st. split; [reflexivity|]. split; auto. split; auto. split; auto. split.
    + intros b Eb. apply far_separated. intros i j Hi Hj D. specialize (FA i j Hi Hj D). unfold rel in FA. now rewrite Eb in FA.
    + intros p a Hp. assert (Hs : In p (map fst amts)) by (apply (in_map fst) in Hp; auto).
      rewrite CW by (intros ->; contradiction).
      specialize (CI p Hs). unfold share in CI. rewrite (In_dget p a amts) in CI by auto.
      replace (IZR n * a / sum (map snd amts))%R with (a / sum (map snd amts) * IZR n)%R by (field; lra). auto.
Qed.

Lemma C49_lemma : forall dim sz n bg amts buffer rnd ords np_sum, good_size dim sz -> 0 <= n -> amounts_ok bg amts -> (forall t, legal (ords t)) -> summation RA np_sum ->
  exists r, (forall f1 f2, (n + 1) * Z.of_nat (length amts) <= Z.of_nat f1 -> 1000 * n + 2 <= Z.of_nat f2 ->
      setup_random_sites RA f1 f2 np_sum rnd ords (Z.of_nat dim) sz n bg amts buffer = Some r) /\
    (r = Err RuntimeError \/ exists s st, r = Ok (mkSim st s) /\ square_grid (grid_size dim sz) s /\
       configuration s st (fun _ q => q = bg \/ In q (dkeys amts)) /\
       Z.of_nat (length (without_phase s st bg)) = n /\
       forall b, buffer = Some b -> separated s dim b (without_phase s st bg)).
Proof.
  intros dim sz n bg amts buffer rnd ords np_sum GS N0 AO LO SM. destruct (random_run dim sz n bg amts buffer rnd ords np_sum GS N0 AO LO SM) as (r & U & H).
  exists r. split; auto. destruct H as [H|(s & st & H1 & H2 & H3 & H4 & H5 & _)]; auto. right. exists s, st. auto.
Qed.

Lemma C50_lemma : forall dim sz n bg amts buffer rnd ords np_sum s st, good_size dim sz -> 0 <= n -> amounts_ok bg amts -> (forall t, legal (ords t)) -> summation RA np_sum ->
  forall f1 f2, (n + 1) * Z.of_nat (length amts) <= Z.of_nat f1 -> 1000 * n + 2 <= Z.of_nat f2 ->
  setup_random_sites RA f1 f2 np_sum rnd ords (Z.of_nat dim) sz n bg amts buffer = Some (Ok (mkSim st s)) ->
  forall p a, In (p, a) amts -> (IZR (Z.of_nat (length (with_phase s st p))) < IZR n * a / sum (map snd amts) + 1)%R.
Proof.
  intros dim sz n bg amts buffer rnd ords np_sum s st GS N0 AO LO SM f1 f2 B1 B2 E. destruct (random_run dim sz n bg amts buffer rnd ords np_sum GS N0 AO LO SM) as (r & U & H).
  rewrite (U f1 f2 B1 B2) in E. injection E as ->. destruct H as [H|(s' & st' & H1 & _ & _ & _ & _ & H6)]; [discriminate|]. injection H1 as <- <-. auto.
Qed.

(** * Amounts that are all zero *)
Lemma C68_refuted_lemma : forall dim sz n bg amts buffer rnd ords np_sum, good_size dim sz -> 0 < n -> uniq amts -> amts <> [] ->
  (forall p a, In (p, a) amts -> a = 0%R) -> summation RA np_sum ->
  forall f1 f2, setup_random_sites RA f1 f2 np_sum rnd ords (Z.of_nat dim) sz n bg amts buffer = None.
Proof.
  intros dim sz n bg amts buffer rnd ords np_sum GS N0 UQ NE HZ SM f1 f2. destruct (random_prepared dim sz bg buffer GS) as (s & L & nbg & G & SG & _ & EP & _).
  prep EP. rewrite identities_stuck; auto.
  - destruct amts; simpl; congruence.
  - intros p Hp. unfold ideal_num_sites.
    rewrite (adds_up_RA _ _ (SM (map snd amts))). assert (sum (map snd amts) = 0%R) as ->.
    { clear -HZ. unfold sum. induction amts as [|[p a] l IH]; auto. cbn [map fold_right snd].
      rewrite IH by (intros; apply (HZ p0); simpl; auto). rewrite (HZ p a) by (simpl; auto). apply Rplus_0_l. }
    rewrite map_map. apply dget_key_Some in Hp as [a Ea]. revert Ea HZ. clear. induction amts as [|[k v] l IH]; [discriminate|].
    cbn [map combine dget fst snd]. intros E HZ. destruct (eqb p k).
    + rewrite (HZ k v) by (simpl; auto). unfold np_div. cbn [a_eqb a_ltb a_ofZ RA]. destruct (Req_EM_T 0 0); [|congruence]. destruct (Rlt_dec 0 0); [lra|]. reflexivity.
    + apply IH; auto. intros q b Hq. apply (HZ q). simpl; auto.
  - intros p Hp; auto.
  - intros p Hp. exists 0. rewrite dget_dict_of.
    + apply In_dget; [unfold dkeys; rewrite map_map; cbn [fst]; rewrite map_id; exact UQ|]. apply in_map_iff. exists p. auto.
    + rewrite map_map. cbn [fst]. rewrite map_id. exact UQ.
Qed.

(** * The ratios are not respected *)
Lemma plant_identity {F} (A : arith F) s L n bg nuc ords : built A L s -> Z.of_nat (length nuc) = n -> n <= Z.of_nat (length (sites s None)) ->
  forall m planted fuel g, 0 <= planted <= n -> Z.of_nat m = n - planted -> (m <= fuel)%nat ->
  (forall i, planted <= i < Z.of_nat (length (sites s None)) -> g i = bg) ->
  exists g', plant (F := F) fuel (fun t => t) ords n bg None (sites s None) nuc planted planted (layout (sites s None) (fun i => VStr (g i))) =
     Some (Ok (layout (sites s None) (fun i => VStr (g' i)))).
Proof.
  intros HB NL NX. pose proof (built_dense A L s HB) as D. pose proof (dense_NoDup s None D) as ND.
  induction m as [|m IH]; intros planted fuel g HP Hm HF Hg.
  - exists g. destruct fuel; cbn [plant]; replace (planted <? n) with false by lia; auto.
  - destruct fuel as [|fuel]; [lia|]. cbn [plant]. replace (planted <? n) with true by lia. replace (planted >? 1000 * n) with false by lia.
    destruct (nth_error (sites s None) (Z.to_nat planted)) as [x|] eqn:Ex; [|apply nth_error_None in Ex; lia].
    rewrite (choice_nth _ _ _ Ex). pose proof (dense_nth s _ x D Ex) as Ei. rewrite Z2Nat.id in Ei by lia.
    assert (Hi : In (s_id x) (map s_id (sites s None))) by (apply in_map; eapply nth_error_In; eauto).
    unfold occupancy. rewrite layout_get by auto. change (dgetE DISCRETE_OCCUPANCY (entry (s_id x) (VStr (g (s_id x))))) with (Ok (VStr (g (s_id x)))).
    cbv iota beta. rewrite Ei, Hg by lia. cbn [val_eqb]. rewrite String.eqb_refl. cbn [negb nucleus_nearby].
    destruct (nth_error nuc (Z.to_nat planted)) as [q|] eqn:Eq; [|apply nth_error_None in Eq; lia].
    replace (list_getE nuc planted) with (list_getE nuc (Z.of_nat (Z.to_nat planted))) by (f_equal; lia). rewrite list_getE_nat, Eq. cbv iota beta.
    rewrite set_layout by (rewrite <- ?Ei; auto).
    rewrite (layout_ext _ _ (fun j => VStr (if j =? planted then q else g j))) by (intros j _; unfold upd; destruct (j =? planted); auto).
    apply IH; try lia. intros i Hi'. replace (i =? planted) with false by lia. apply Hg. lia.
Qed.

Definition plain_oracle : @nb_oracle R := mkOracle (fun l => l) (fun _ => 0%nat).
Lemma plain_legal : legal plain_oracle.
Proof. split; [intros l; apply Permutation_refl|]. intros l H. destruct l; simpl; [congruence|lia]. Qed.

(** [k] phases with amount 1 and one with amount [k], listed last. *)
Definition skewed (k : Z) : dict string R := map (fun i => (str_of_Z i, 1%R)) (zrange 0 k) ++ [("big"%string, IZR k)].
Lemma skewed_sum k : 0 <= k -> sum (map snd (skewed k)) = (2 * IZR k)%R.
Proof.
  intros Hk. unfold skewed. rewrite map_app, map_map. cbn [map snd].
  assert (E : forall l : list Z, sum (map (fun _ => 1%R) l ++ [IZR k]) = (IZR (Z.of_nat (length l)) + IZR k)%R).
  { induction l as [|a l IH]; [simpl; lra|]. cbn [map app]. unfold sum in *. cbn [fold_right]. rewrite IH. cbn [length]. rewrite Nat2Z.inj_succ, succ_IZR. lra. }
  rewrite E, zrange_length. replace (Z.of_nat (Z.to_nat (k - 0))) with k by lia. lra.
Qed.
Lemma str_not_word z w : (forall y, int_of_str w <> Ok y) -> str_of_Z z <> w.
Proof. intros H E. apply (H z). rewrite <- E. apply int_of_str_of_Z. Qed.
Lemma skewed_uniq k : uniq (skewed k).
Proof.
  unfold uniq, dkeys, skewed. rewrite map_app, map_map. cbn [map fst]. apply NoDup_app_single.
  - apply FinFun.Injective_map_NoDup; [|apply zrange_NoDup]. intros a b E. pose proof (int_of_str_of_Z a) as A. rewrite E, int_of_str_of_Z in A. congruence.
  - intros H. apply in_map_iff in H as (z & E & _). revert E. apply str_not_word. intros y Y; discriminate Y.
Qed.
Lemma skewed_ok k : 0 < k -> amounts_ok "bg" (skewed k).
Proof.
  intros Hk. split; [apply skewed_uniq|]. split; [|split].
  - unfold dkeys, skewed. rewrite map_app, map_map. intros H. apply in_app_or in H as [H|[H|[]]]; [|discriminate].
    apply in_map_iff in H as (z & E & _). revert E. apply str_not_word. intros y Y; discriminate Y.
  - intros p a H. apply in_app_or in H as [H|[H|[]]].
    + apply in_map_iff in H as (z & E & _). injection E as _ <-. lra.
    + injection H as _ <-. apply IZR_le. lia.
  - rewrite skewed_sum by lia. apply IZR_lt in Hk. lra.
Qed.

Lemma C50_refuted_lemma : forall m np_sum, 0 <= m -> summation RA np_sum ->
  exists sz n bg amts buffer rnd ords s st p a, good_size 2 sz /\ 0 <= n /\ amounts_ok bg amts /\ (forall t, legal (ords t)) /\ In (p, a) amts /\
    (forall f1 f2, (n + 1) * Z.of_nat (length amts) <= Z.of_nat f1 -> 1000 * n + 2 <= Z.of_nat f2 ->
      setup_random_sites RA f1 f2 np_sum rnd ords 2 sz n bg amts buffer = Some (Ok (mkSim st s))) /\
    (IZR (Z.of_nat (length (with_phase s st p))) = IZR n * a / sum (map snd amts) - IZR m)%R.
Proof.
  intros m np_sum Hm SM. set (k := 2 * m + 1). set (n := k + 1). set (sz := SzInt n).
  assert (GS : good_size 2 sz) by (split; [auto|]; split; [reflexivity|]; repeat constructor; unfold n, k; lia).
  destruct (skewed_ok k ltac:(unfold k; lia)) as (UQ & NB & NN & TP). pose proof (skewed_ok k ltac:(unfold k; lia)) as AO.
  assert (LA : Z.of_nat (length (skewed k)) = n). { unfold skewed. rewrite app_length, map_length, zrange_length. simpl. unfold n, k in *. lia. }
  assert (POS : forall p a, In (p, a) (skewed k) -> (0 < a)%R).
  { intros p a H. apply in_app_or in H as [H|[H|[]]].
    - apply in_map_iff in H as (z & E & _). injection E as _ <-. lra.
    - injection H as _ <-. apply IZR_lt. unfold k; lia. }
  destruct (random_run 2 sz n "bg" (skewed k) None (fun t => t) (fun _ => plain_oracle) np_sum GS ltac:(unfold n, k; lia) AO (fun _ => plain_legal) SM) as (r & U & _).
  destruct (random_prepared 2 sz "bg" None GS) as (s & L & nbg & G & SG & NN0 & EP & HN). rewrite NN0 in * by auto. clear NN0.
  pose proof (identities_each n (skewed k) np_sum UQ NN TP SM POS (eq_sym LA)) as EI. set (ids := map fst (skewed k)) in *.
  assert (LI : Z.of_nat (length ids) = n) by (unfold ids; now rewrite map_length).
  assert (NX : n <= Z.of_nat (length (sites s None))). { rewrite (gf_count _ _ _ G). cbn [grid_size sz repeat fold_right]. unfold n, k. nia. }
  set (F1 := Z.to_nat ((n + 1) * Z.of_nat (length (skewed k)))). set (F2 := Z.to_nat (1000 * n + 2)).
  assert (n0 : 0 <= n) by (unfold n, k; lia).
  destruct (plant_identity RA s L n "bg" ids (fun _ => plain_oracle) (gf_built _ _ _ G) LI NX (Z.to_nat n) 0 F2 (fun _ => "bg"%string)) as (g & EG); try lia; auto.
  assert (NE : sites s None <> []) by (intros E; rewrite E in NX; simpl in NX; unfold n, k in *; lia).
  destruct (plant_run RA s L n "bg" None (fun _ _ => False) ids (fun t => t) (fun _ => plain_oracle) (gf_built _ _ _ G) NE (fun _ => plain_legal) HN
     (fun _ _ _ (F : False) => match F with end) (fun _ _ (F : False) => F) LI NB F2 0 0 (fun _ => "bg"%string) [] ltac:(lia) (inv_start s n "bg" (fun _ _ => False) ids n0) ltac:(lia) ltac:(lia)) as [X|(g' & P & X & PI)];
    rewrite EG in X; [discriminate|].
  exists sz, n, "bg"%string, (skewed k), None, (fun t => t), (fun _ => plain_oracle), s, (layout (sites s None) (fun i => VStr (g' i))), "big"%string, (IZR k).
  split; auto. split; auto. split; auto. split; [intros _; apply plain_legal|]. split; [unfold skewed; apply in_or_app; simpl; auto|]. split.
  - intros f1 f2 B1 B2. change 2 with (Z.of_nat 2). rewrite (U f1 f2 B1 B2). rewrite <- (U F1 F2) by (unfold F1, F2; lia). prep EP.
    rewrite EI by (unfold F1; nia). rewrite EG. congruence.
  - rewrite (with_lay RA s L n "bg" None (fun _ _ => False) ids (gf_built _ _ _ G) HN (fun _ _ _ (F : False) => match F with end) (fun _ _ (F : False) => F) LI NB g' P "big" PI) by discriminate.
    assert (cnt "big" ids = 1) as ->.
    { unfold cnt, ids, skewed. rewrite map_app, map_map. cbn [map fst]. rewrite count_occ_app. cbn [count_occ]. destruct (string_dec "big" "big"); [|congruence].
      assert (count_occ string_dec (map (fun x => str_of_Z x) (zrange 0 k)) "big"%string = 0%nat) as ->; [|reflexivity].
      apply count_occ_not_In. intros H. apply in_map_iff in H as (z & E & _). revert E. apply str_not_word. intros y Y; discriminate Y. }
    rewrite skewed_sum by (unfold k; lia). unfold n, k. rewrite !plus_IZR, mult_IZR. assert (0 <= IZR m)%R by (apply IZR_le; auto). field. lra.
Qed.
