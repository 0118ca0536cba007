(** The Game of Life controller and its variants. *)
From Coq Require Import Reals Permutation Ascii.
From Verif Require Import Prelude Dict Val ValFacts Arith RealArith LatticeModel StructModel StateModel ResultModel RunnerModel NbModel GridModel SimModel SetupModel RulesModel
  SpecState SpecResult SpecRunner SpecGeom SpecNb SpecGrid SpecSetup SpecRules StateFacts ResultFacts RunnerFacts SyncFacts ParFacts ParRun GenRun
  LatticeFacts StructFacts StructMore NbFacts NbMore GridFacts GridMore GridNb SetupFacts SetupMore NucFacts NucMore RulesFacts.
Local Open Scope Z_scope.

(** * The eight cells around a cell *)
Definition cid (size p : list Z) : Z := rank size (wrap_to size (extents p)).
Lemma cid_inj size s L x y d e : grid_facts size s L -> length size = 2%nat -> Forall (fun m => 3 <= m) size ->
  Z.abs (fst d) <= 1 -> Z.abs (snd d) <= 1 -> Z.abs (fst e) <= 1 -> Z.abs (snd e) <= 1 ->
  cid size [x + fst d; y + snd d] = cid size [x + fst e; y + snd e] -> d = e.
Proof.
  intros G L2 F3 B1 B2 B3 B4 E. destruct d as [d1 d2], e as [e1 e2]. cbn [fst snd] in *.
  pose proof (gf_cell _ _ _ G [x + d1; y + d2] ltac:(now rewrite L2)) as C1. pose proof (gf_cell _ _ _ G [x + e1; y + e2] ltac:(now rewrite L2)) as C2.
  fold (cid size [x + d1; y + d2]) in C1. fold (cid size [x + e1; y + e2]) in C2.
  apply (cell_iff size s L [x + d1; y + d2] [x + e1; y + e2] _ _ G ltac:(now rewrite L2) ltac:(now rewrite L2) C1 C2) in E as (_ & _ & H).
  destruct size as [|a [|b [|]]]; try discriminate. pose proof (Forall_inv F3) as G1. pose proof (Forall_inv (Forall_inv_tail F3)) as G2. cbn in G1, G2.
  destruct (H 0%nat b (x + d1) (x + e1) eq_refl eq_refl eq_refl) as [k K]. destruct (H 1%nat a (y + d2) (y + e2) eq_refl eq_refl eq_refl) as [k' K'].
  assert (k = 0) by nia. assert (k' = 0) by nia. subst. f_equal; lia.
Qed.
Lemma around_bound d : In d around -> Z.abs (fst d) <= 1 /\ Z.abs (snd d) <= 1 /\ d <> (0, 0).
Proof. unfold around. simpl. intros H. repeat (destruct H as [<-|H]; [simpl; split; [lia|split; [lia|congruence]]|]). destruct H. Qed.
Lemma around_all d1 d2 : Z.abs d1 <= 1 -> Z.abs d2 <= 1 -> (d1, d2) <> (0, 0) -> In (d1, d2) around.
Proof.
  intros A B N. assert (C1 : d1 = -1 \/ d1 = 0 \/ d1 = 1) by lia. assert (C2 : d2 = -1 \/ d2 = 0 \/ d2 = 1) by lia.
  destruct C1 as [->|[->| ->]], C2 as [->|[->| ->]]; unfold around; simpl; auto 10.
Qed.
Lemma nodup_map_in {A B} (f : A -> B) l : (forall a b, In a l -> In b l -> f a = f b -> a = b) -> NoDup l -> NoDup (map f l).
Proof.
  intros H N. induction N as [|a l NI N IH]; [constructor|]. cbn [map]. constructor.
  - intros Hc. apply in_map_iff in Hc as (b & E & Hb). apply H in E; simpl; auto. subst. contradiction.
  - apply IH. intros b c Hb Hc. apply H; simpl; auto.
Qed.
Lemma around_NoDup : NoDup around.
Proof. unfold around. repeat constructor; simpl; intuition congruence. Qed.

Lemma eight size s L x y i (N : nbhood R) o l : grid_facts size s L -> length size = 2%nat -> Forall (fun m => 3 <= m) size ->
  torus_nb size s (within_moore 1) N -> legal o -> cell s [x; y] i -> neighbors_of o N i = Ok l ->
  Permutation l (map (fun d => cid size [x + fst d; y + snd d]) around).
Proof.
  intros G L2 F3 T LO C El. destruct (T [x; y] i ltac:(now rewrite L2) C o LO) as (l' & El' & ND & IN). rewrite El in El'. injection El' as <-.
  assert (CI : i = cid size [x + fst (0, 0); y + snd (0, 0)]).
  { cbn [fst snd]. rewrite !Z.add_0_r. pose proof (gf_cell _ _ _ G [x; y] ltac:(now rewrite L2)) as C0. unfold cell in C, C0. rewrite C in C0. injection C0 as E0. exact E0. }
  apply NoDup_Permutation; auto.
  - apply nodup_map_in; [|apply around_NoDup]. intros a b Ha Hb. apply around_bound in Ha as (A1 & A2 & _), Hb as (B1 & B2 & _). eapply cid_inj; eauto.
  - intros j. rewrite IN, in_map_iff. split.
    + intros (D & d & Ld & W & Cj). rewrite L2 in Ld. destruct d as [|d1 [|d2 [|]]]; try discriminate. exists (d1, d2). pose proof (Forall_inv W) as W1. pose proof (Forall_inv (Forall_inv_tail W)) as W3. cbn in W1, W3.
      pose proof (gf_cell _ _ _ G [x + d1; y + d2] ltac:(now rewrite L2)) as Cj'. unfold cell in Cj, Cj'. change (shift [x; y] [d1; d2]) with [x + d1; y + d2] in Cj.
      rewrite Cj in Cj'. injection Cj' as ->. split; [reflexivity|]. apply around_all; auto. intros E. injection E as -> ->. apply D. rewrite CI. reflexivity.
    + intros ([d1 d2] & <- & Hd). apply around_bound in Hd as (B1 & B2 & B3). split.
      * intros E. apply B3. rewrite CI in E. eapply cid_inj; eauto; cbn; lia.
      * exists [d1; d2]. split; [now rewrite L2|]. split; [repeat constructor; auto|]. apply (gf_cell _ _ _ G). now rewrite L2.
Qed.

Lemma filter_len_perm {A} (f : A -> bool) l m : Permutation l m -> length (filter f l) = length (filter f m).
Proof. intros P. induction P as [|a l m P IH|a b l|l m k P1 IH1 P2 IH2]; cbn [filter]; auto; [destruct (f a); simpl; auto|destruct (f a), (f b); reflexivity|congruence]. Qed.
Lemma count_alive size s L st g x y l : grid_facts size s L -> length size = 2%nat -> shows s st g ->
  Permutation l (map (fun d => cid size [x + fst d; y + snd d]) around) -> count_in st l "alive" = alive_around g x y.
Proof.
  intros G L2 SH P. unfold count_in, alive_around. f_equal. rewrite (filter_len_perm _ _ _ P), filter_map, map_length. f_equal. apply filter_ext. intros [d1 d2]. cbn [fst snd].
  pose proof (gf_cell _ _ _ G [x + d1; y + d2] ltac:(now rewrite L2)) as C. pose proof (SH _ _ _ C) as H. fold (cid size [x + d1; y + d2]) in H. rewrite (holds_phase _ _ _ _ H).
  destruct (g (x + d1) (y + d2)); reflexivity.
Qed.

(** * One answer *)
Definition life_upd (id : key) (u : pdict) : Prop := u = [(KStr "DISCRETE_OCCUPANCY", VStr "alive")] \/ u = [(KStr "DISCRETE_OCCUPANCY", VStr "dead")].
Lemma life_grow id u : life_upd id u -> grow_upd id u.
Proof. intros [->| ->]; right; eauto. Qed.
Lemma count_fold st l : (forall j, In j l -> exists p, holds st j p) -> forall n,
  foldM (fun n nb_id => do x <- occupancy_of st (KInt nb_id); Ok (if val_eqb x (VStr "alive") then n + 1 else n)) l n = Ok (n + count_in st l "alive").
Proof.
  induction l as [|j l IH]; intros H n; cbn [foldM].
  - unfold count_in. cbn. f_equal. lia.
  - destruct (H j) as [p Hp]; [simpl; auto|]. rewrite (holds_of _ _ _ Hp). cbn [bind]. rewrite IH by (intros; apply H; simpl; auto). rewrite str_val_eqb.
    f_equal. unfold count_in. cbn [filter]. rewrite (holds_phase _ _ _ _ Hp). destruct (eqb p "alive"%string); cbn [length]; lia.
Qed.
Lemma life_answer {F} (A : arith F) s born survive ords rnd N c i st l p : fst c = Some N -> neighbors_of (ords (snd c)) N i = Ok l ->
  (forall j, In j l -> exists p, holds st j p) -> holds st i p ->
  c_update (life_controller A s born survive ords rnd) c (KInt i) st =
    Ok (VDict [(KStr "DISCRETE_OCCUPANCY", VStr (
      if eqb p "alive"%string && existsb (Z.eqb (count_in st l "alive")) survive then "alive"
      else if eqb p "dead"%string && existsb (Z.eqb (count_in st l "alive")) born then "alive" else "dead"))], (Some N, S (snd c))).
Proof.
  intros EN El HL Hp. cbn [c_update life_controller]. unfold life_update. rewrite EN. cbn [neighbors_of_key]. rewrite El. cbn [bind]. rewrite count_fold by auto. cbn [bind].
  rewrite (holds_of _ _ _ Hp). cbn [bind]. rewrite !str_val_eqb, Z.add_0_l. reflexivity.
Qed.

Section Life.
  Variables (size : list Z) (s : structure R) (L : lattice R) (born survive : list Z) (ords : nat -> @nb_oracle R) (rnd : nat -> nat) (ids : list Z).
  Hypothesis SG : square_grid size s.
  Hypothesis G : grid_facts size s L.
  Hypothesis L2 : length size = 2%nat.
  Hypothesis F3 : Forall (fun m => 3 <= m) size.
  Hypothesis LO : forall t, legal (ords t).
  Hypothesis PI : Permutation ids (map s_id (sites s None)).
  Let ctl := life_controller RA s born survive ords rnd.

  Lemma life_nb : exists N, torus_nb size s (within_moore 1) N /\ forall c st, life_pre_run RA s c st = Ok (Some N, snd c).
  Proof.
    destruct (C41_moore_lemma size s 1 SG) as (b & N & Eb & EN & T & _). exists N. split; auto. intros c st. unfold life_pre_run. rewrite L2 in Eb. rewrite Eb. cbn [bind]. rewrite EN. reflexivity.
  Qed.
  Lemma ids_cell i : In i ids -> exists x y, cell s [x; y] i.
  Proof.
    intros Hi. apply (Permutation_in _ PI) in Hi. apply (get_site_ids RA L s i (gf_built _ _ _ G)) in Hi as [z Gz]. destruct (site_cell _ _ _ _ _ G Gz) as (p & Lp & _ & _ & Cp & _).
    rewrite L2 in Lp. destruct p as [|x [|y [|]]]; try discriminate. eauto.
  Qed.
  Lemma cell_ids p i : length p = 2%nat -> cell s p i -> In i ids.
  Proof.
    intros Lp C. apply (Permutation_in _ (Permutation_sym PI)). apply (get_site_ids RA L s i (gf_built _ _ _ G)).
    pose proof (gf_cell _ _ _ G p ltac:(congruence)) as C'. unfold cell, id_at in C. apply bind_Ok in C as (o & E & C). destruct o as [y|]; [|discriminate]. injection C as <-. exists y.
    pose proof (site_at_found RA L s _ y (gf_built _ _ _ G) E) as H. destruct (built_inv RA L s (gf_built _ _ _ G)) as [h I].
    apply (inv_get_site RA L h s _ y I). auto.
  Qed.
  Variable N : nbhood R.
  Hypothesis T : torus_nb size s (within_moore 1) N.

  Lemma life_nbs o i : legal o -> In i ids -> exists l, neighbors_of o N i = Ok l /\ incl l ids /\
    forall x y, cell s [x; y] i -> Permutation l (map (fun d => cid size [x + fst d; y + snd d]) around).
  Proof.
    intros Lo Hi. destruct (ids_cell i Hi) as (x & y & C). destruct (T [x; y] i ltac:(now rewrite L2) C o Lo) as (l & El & _ & IN). exists l. split; auto. split.
    - intros j Hj. apply IN in Hj as (_ & d & Ld & _ & Cj). rewrite L2 in Ld. apply (cell_ids (shift [x; y] d)); auto. rewrite shift_length; auto.
    - intros a b Cab. eapply eight; eauto.
  Qed.
  Lemma life_ans c id st : fst c = Some N -> phased ids st -> In id (map KInt ids) ->
    exists u c', c_update ctl c id st = Ok (VDict u, c') /\ life_upd id u /\ fst c' = Some N.
  Proof.
    intros EC PH Hid. apply in_map_iff in Hid as (i & <- & Hi). destruct (life_nbs (ords (snd c)) i (LO _) Hi) as (l & El & IL & _).
    destruct (proj2 PH i Hi) as [p Hp]. eexists. eexists. split; [apply (life_answer RA s born survive ords rnd N c i st l p EC El)|]; auto.
    - intros j Hj. apply PH, IL, Hj.
    - split; [|reflexivity]. destruct (eqb p "alive"%string && _); [left; auto|]. destruct (eqb p "dead"%string && _); [left|right]; reflexivity.
  Qed.
  Lemma life_one g st i x y u : phased ids st -> shows s st g -> cell s [x; y] i -> ans_on ctl life_upd (fun c => fst c = Some N) st (KInt i) u ->
    u = [(KStr "DISCRETE_OCCUPANCY", VStr (if life_next born survive g x y then "alive" else "dead"))].
  Proof.
    intros PH SH C (_ & c & c' & EC & E). pose proof (cell_ids [x; y] i eq_refl C) as Hi. destruct (life_nbs (ords (snd c)) i (LO _) Hi) as (l & El & IL & PL).
    pose proof (SH x y i C) as Hp. unfold ctl in E.
    rewrite (life_answer RA s born survive ords rnd N c i st l (if g x y then "alive"%string else "dead"%string) EC El) in E; auto.
    2:{ intros j Hj. apply PH, IL, Hj. }
    injection E as <- _. rewrite (count_alive size s L st g x y l G L2 SH (PL x y C)). unfold life_next. destruct (g x y).
    - change (eqb "alive" "alive")%string with true. change (eqb "alive" "dead")%string with false. cbn [andb]. destruct (existsb _ survive); reflexivity.
    - change (eqb "dead" "alive")%string with false. change (eqb "dead" "dead")%string with true. cbn [andb]. destruct (existsb _ born); reflexivity.
  Qed.
  Lemma shows_phased st g : site_ids st = map KInt ids -> shows s st g -> phased ids st.
  Proof. intros E H. split; auto. intros i Hi. destruct (ids_cell i Hi) as (x & y & C). eauto. Qed.

  Lemma life_views init U n g : phased ids init -> shows s init g ->
    (forall t, (t < n)%nat -> NoDup (dkeys (U t)) /\ Permutation (dkeys (U t)) (map KInt ids) /\
      forall id u, In (id, u) (U t) -> exists v, view U init t v /\ phased ids v /\ ans_on ctl life_upd (fun c => fst c = Some N) v id u) ->
    forall t, (t <= n)%nat -> forall v, view U init t v -> shows s v (life_after born survive t g).
  Proof.
    intros PH SH HU. induction t as [|t IH]; intros Lt v V.
    - inversion V; subst. exact SH.
    - assert (X : exists w, v = set_sites_t w (U t)) by (inversion V; subst; eauto). destruct X as [w ->]. destruct (HU t ltac:(lia)) as (A & B & D).
      intros x y i C. cbn [life_after]. pose proof (cell_ids [x; y] i eq_refl C) as Hi.
      assert (Hk : In (KInt i) (dkeys (U t))) by (eapply Permutation_in; [apply Permutation_sym, B|now apply in_map]).
      apply dget_key_Some in Hk as [u Eu]. destruct (D _ _ (dget_In _ _ _ Eu)) as (v' & Vv & Pv & AN).
      rewrite (life_one (life_after born survive t g) v' i x y u Pv (IH ltac:(lia) v' Vv) C AN) in Eu.
      unfold holds, site_entry. rewrite get_set_sites_t by exact A. rewrite Eu. change (dmerge ?d [(?k, ?v)]) with (dset k v d). rewrite dget_dset_same.
      now destruct (life_next born survive (life_after born survive t g) x y).
  Qed.
End Life.

Lemma map_KInt_inv l k : Permutation l (map KInt k) -> exists m, l = map KInt m /\ Permutation m k.
Proof. intros P. apply Permutation_map_inv in P as (m & -> & P). exists m. split; auto. now apply Permutation_sym. Qed.

Lemma C52_lemma : forall size s variant ords rnd ctl born survive init g n,
  square_grid size s -> length size = 2%nat -> Forall (fun m => 3 <= m) size -> (forall t, legal (ords t)) ->
  process_variant_string variant = Ok (born, survive) -> life_init RA s ords rnd variant = Ok ctl ->
  Permutation (site_ids init) (map (fun x => KInt (s_id x)) (sites s None)) -> shows s init g ->
  (exists o, run_sync ctl (None, 0%nat) init n = Ok o /\ rlen (o_result o) = Z.max 0 n + 1 /\
     forall t, 0 <= t <= Z.max 0 n -> exists st, get_step (o_result o) t = Ok st /\ site_ids st = site_ids init /\
       shows s st (life_after born survive (Z.to_nat t) g)) /\
  (forall p sched, 1 <= p -> exists o, run_parallel ctl p sched (None, 0%nat) init n = Ok o /\ rlen (o_result o) = Z.max 0 n + 1 /\
     forall t, 0 <= t <= Z.max 0 n -> exists st, get_step (o_result o) t = Ok st /\ site_ids st = site_ids init /\
       shows s st (life_after born survive (Z.to_nat t) g)).
Proof.
  intros size s variant ords rnd ctl born survive init g n SG L2 F3 LO EV EI PI SH. unfold life_init in EI. rewrite EV in EI. cbn [bind] in EI. injection EI as <-.
  destruct (square_facts _ _ SG) as [L G]. rewrite <- map_map in PI. apply map_KInt_inv in PI as (ids & EI & PI).
  pose proof (shows_phased size s L ids G L2 PI init g EI SH) as PH.
  destruct (life_nb size s SG L2) as (N & T & EP).
  assert (NI : NoDup ids).
  { apply (Permutation_NoDup (Permutation_sym PI)). apply dense_NoDup, (built_dense RA L s (gf_built _ _ _ G)). }
  assert (NE : map KInt ids <> []).
  { pose proof (gf_count _ _ _ G) as C. pose proof (prod_pos _ (gf_pos _ _ _ G)). intros E. apply map_eq_nil in E. rewrite E in PI. apply Permutation_nil, map_eq_nil in PI. rewrite PI in C. simpl in C. lia. }
  set (ctl := life_controller RA s born survive ords rnd). set (Cok := fun c : option (nbhood R) * nat => fst c = Some N).
  assert (ANS : forall c id st, Cok c -> phased ids st -> In id (map KInt ids) -> exists u c', c_update ctl c id st = Ok (VDict u, c') /\ life_upd id u /\ Cok c').
  { intros c id st H1 H2 H3. eapply life_ans; eauto. }
  assert (STEP : forall st U, phased ids st -> NoDup (dkeys U) -> Permutation (dkeys U) (map KInt ids) -> (forall id u, In (id, u) U -> life_upd id u) -> phased ids (set_sites_t st U)).
  { intros st U H1 H2 H3 H4. apply step_phased; auto. intros id u H. eapply life_grow, H4; eauto. }
  assert (SHW : forall U m, (forall t, (t < m)%nat -> NoDup (dkeys (U t)) /\ Permutation (dkeys (U t)) (map KInt ids) /\
      forall id u, In (id, u) (U t) -> exists v, view U init t v /\ phased ids v /\ ans_on ctl life_upd Cok v id u) ->
      forall t, (t <= m)%nat -> site_ids (after U init t) = site_ids init /\ shows s (after U init t) (life_after born survive t g)).
  { intros U m HU t Lt. split.
    - rewrite EI. assert (phased ids (after U init t)) as [X _]; auto. clear -HU Lt PH STEP. induction t as [|t IH]; auto. rewrite after_S. destruct (HU t ltac:(lia)) as (A & B & D).
      apply STEP; auto; [apply IH; lia|]. intros id u H. destruct (D id u H) as (v & _ & _ & W & _). exact W.
    - eapply life_views; eauto using after_view. }
  split.
  - destruct (own_sync ctl (map KInt ids) (phased ids) life_upd Cok (nodup_keys _ NI) NE) with (c0 := (@None (nbhood R), 0%nat)) (c1 := (Some N, 0%nat)) (init := init) (n := n) as (U & o & A & B & _ & E & HU); auto.
    { intros st H. apply H. } { intros id u H. eapply grow_own, life_grow; eauto. } { apply EP. } { reflexivity. }
    exists o. split; auto. split; auto. intros t Ht. exists (after U init (Z.to_nat t)). split; [rewrite <- (E (Z.to_nat t)) by lia; f_equal; lia|].
    apply (SHW U (Z.to_nat n)); [|lia]. intros k Hk. destruct (HU k Hk) as (K1 & K2 & K3). rewrite K1. split; [now apply nodup_keys|]. split; [apply Permutation_refl|].
    intros id u H. exists (after U init k). split; [apply after_view|]. auto.
  - intros p sched P1. destruct (own_par ctl (map KInt ids) (phased ids) life_upd Cok (nodup_keys _ NI) NE) with (p := p) (sched := sched) (c0 := (@None (nbhood R), 0%nat)) (c1 := (Some N, 0%nat)) (init := init) (n := n)
      as (U & o & A & B & E & HU); auto.
    { intros st H. apply H. } { intros id u H. eapply grow_own, life_grow; eauto. } { apply EP. } { reflexivity. }
    exists o. split; auto. split; auto. intros t Ht. exists (after U init (Z.to_nat t)). split; [rewrite <- (E (Z.to_nat t)) by lia; f_equal; lia|].
    apply (SHW U (Z.to_nat n)); [exact HU|lia].
Qed.

(** * Variant strings *)
Lemma split_no c s : ~ In c (list_ascii_of_string s) -> split_on c s = [s].
Proof.
  induction s as [|a s IH]; cbn [split_on list_ascii_of_string]; auto. intros H. destruct (Ascii.eqb_spec a c) as [E|D]; [exfalso; apply H; simpl; auto|].
  rewrite IH; auto. intros X. apply H. simpl; auto.
Qed.
Lemma split_at c s t : ~ In c (list_ascii_of_string s) -> split_on c (s ++ String c t) = s :: split_on c t.
Proof.
  induction s as [|a s IH]; cbn [split_on list_ascii_of_string append].
  - intros _. now rewrite Ascii.eqb_refl.
  - intros H. destruct (Ascii.eqb_spec a c) as [E|D]; [exfalso; apply H; simpl; auto|]. rewrite IH; auto. intros X. apply H. simpl; auto.
Qed.
Lemma digit_ascii d : 0 <= d <= 9 -> digit (ascii_of_nat (Z.to_nat (48 + d))) = Ok d /\ ascii_of_nat (Z.to_nat (48 + d)) <> "/"%char.
Proof.
  intros H. unfold digit. rewrite nat_ascii_embedding by lia. rewrite Z2Nat.id by lia. split.
  - replace ((48 <=? 48 + d) && (48 + d <=? 57)) with true by lia. f_equal. lia.
  - intros E. apply (f_equal nat_of_ascii) in E. rewrite nat_ascii_embedding in E by lia. change (nat_of_ascii "/") with 47%nat in E. lia.
Qed.
Lemma digits_read l : Forall (fun d => 0 <= d <= 9) l -> mapM digit (list_ascii_of_string (digit_text l)) = Ok l /\ ~ In "/"%char (list_ascii_of_string (digit_text l)).
Proof.
  unfold digit_text. rewrite list_ascii_of_string_of_list_ascii. induction 1 as [|d l B F [IH1 IH2]]; cbn [map mapM].
  - split; [reflexivity|intros []].
  - destruct (digit_ascii d B) as [E D]. rewrite E. cbn [bind]. rewrite IH1. split; [reflexivity|]. intros [H|H]; auto.
Qed.
Lemma list_ascii_app s t : list_ascii_of_string (s ++ t) = (list_ascii_of_string s ++ list_ascii_of_string t)%list.
Proof. induction s; simpl; congruence. Qed.
Lemma C53_lemma : forall born survive b s, Forall (fun d => 0 <= d <= 9) born -> Forall (fun d => 0 <= d <= 9) survive -> b <> "/"%char -> s <> "/"%char ->
  process_variant_string (String b (digit_text born ++ "/" ++ String s (digit_text survive))) = Ok (born, survive).
Proof.
  intros born survive b s HB HS Db Ds. destruct (digits_read born HB) as [B1 B2]. destruct (digits_read survive HS) as [S1 S2]. unfold process_variant_string.
  change (String b (digit_text born ++ "/" ++ String s (digit_text survive))) with (String b (digit_text born) ++ String "/" (String s (digit_text survive)))%string.
  rewrite split_at; [|intros [H|H]; auto]. rewrite split_no; [|intros [H|H]; auto].
  change (list_getE [String b (digit_text born); String s (digit_text survive)] 0) with (Ok (String b (digit_text born))). cbn [bind tail_of].
  rewrite B1. cbn [bind].
  change (list_getE [String b (digit_text born); String s (digit_text survive)] 1) with (Ok (String s (digit_text survive))). cbn [bind tail_of].
  rewrite S1. reflexivity.
Qed.
Lemma mapM_digit_ok l r : mapM digit l = Ok r -> Forall (fun a => (48 <= nat_of_ascii a <= 57)%nat) l.
Proof.
  revert r. induction l as [|a l IH]; intros r E; [constructor|]. cbn [mapM] in E. apply bind_Ok in E as (d & Ed & E). apply bind_Ok in E as (r' & Er & _). constructor; [|eauto].
  unfold digit in Ed. destruct ((48 <=? _) && _) eqn:B; [|discriminate]. lia.
Qed.
Lemma C53_errors_lemma : forall v, (~ In "/"%char (list_ascii_of_string v) -> exists e, process_variant_string v = Err e) /\
  forall born survive, process_variant_string v = Ok (born, survive) ->
    Forall (fun d => 0 <= d <= 9) (born ++ survive).
Proof.
  assert (MD : forall l r, mapM digit l = Ok r -> Forall (fun d => 0 <= d <= 9) r).
  { induction l as [|a l IH]; intros r E; cbn [mapM] in E; [injection E as <-; constructor|]. apply bind_Ok in E as (d & Ed & E). apply bind_Ok in E as (r' & Er & E). injection E as <-.
    constructor; [|eauto]. unfold digit in Ed. destruct ((48 <=? _) && _) eqn:B; [|discriminate]. injection Ed as <-. lia. }
  intros v. split.
  - intros H. unfold process_variant_string. rewrite split_no by auto. change (list_getE [v] 0) with (Ok v). cbn [bind].
    destruct (mapM digit _); cbn [bind]; eauto. change (list_getE [v] 1) with (@Err string IndexError). cbn [bind]. eauto.
  - intros born survive E. unfold process_variant_string in E. apply bind_Ok in E as (h0 & _ & E). apply bind_Ok in E as (b & Eb & E). apply bind_Ok in E as (h1 & _ & E).
    apply bind_Ok in E as (v' & Ev & E). injection E as <- <-. apply Forall_app. eauto.
Qed.
