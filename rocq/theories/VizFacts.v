(** Colours and legends. *)
From Coq Require Import Permutation.
From Verif Require Import Prelude Dict Val Arith StateModel ResultModel SetupModel AnalyzerModel HashFacts VizModel SpecState SpecAnalyze SpecViz StateFacts NbFacts AnalyzerFacts AnalyzerMore.
Local Open Scope Z_scope.

Definition colour_at (i : Z) : colour := nth (Z.to_nat (i mod 70)) COLORS (0, 0, 0).
Lemma get_colour i : 0 <= i < 70 -> list_getE COLORS i = Ok (nth (Z.to_nat i) COLORS (0, 0, 0)).
Proof.
  intros H. unfold list_getE. change (Z.of_nat (length COLORS)) with 70. destruct (Z.ltb_spec i 0); [lia|]. destruct (Z.ltb_spec i 0); [lia|]. rewrite Z.geb_leb. destruct (Z.leb_spec 70 i); [lia|]. cbn [orb].
  rewrite (nth_error_nth' COLORS (0, 0, 0)); [reflexivity|]. change (length COLORS) with 70%nat. lia.
Qed.
Lemma no_colour i : 70 <= i -> list_getE COLORS i = Err IndexError.
Proof.
  intros H. unfold list_getE. change (Z.of_nat (length COLORS)) with 70. destruct (Z.ltb_spec i 0); [lia|]. destruct (Z.ltb_spec i 0); [lia|]. rewrite Z.geb_leb. destruct (Z.leb_spec 70 i); [reflexivity|lia].
Qed.
Fixpoint coloured (i : Z) (l : list val) : dict val colour := match l with [] => [] | p :: t => (p, colour_at i) :: coloured (i + 1) t end.
Lemma coloured_keys l : forall i, dkeys (coloured i l) = l.
Proof. unfold dkeys. induction l as [|p l IH]; intros i; cbn; [reflexivity|]. now rewrite IH. Qed.
Lemma coloured_nth l : NoDup l -> forallb hashable l = true -> forall j p i, nth_error l j = Some p -> dget p (coloured i l) = Some (colour_at (i + Z.of_nat j)).
Proof.
  induction l as [|q l IH]; intros ND HH j p i E; [destruct j; discriminate|]. inversion ND as [|? ? N1 N2]; subst. pose proof HH as HA. cbn [forallb] in HH. apply Bool.andb_true_iff in HH as [H1 H2]. destruct j as [|j]; cbn [nth_error] in E.
  - injection E as ->. cbn [coloured dget]. rewrite hash_refl by auto. f_equal. f_equal. lia.
  - cbn [coloured dget]. rewrite hash_neq; [|rewrite forallb_forall in H2; apply H2; eapply nth_error_In; eauto|intros ->; apply N1; eapply nth_error_In; eauto]. rewrite (IH N2 H2 j p (i + 1) E). do 2 f_equal. lia.
Qed.
Lemma build_map_go l : forall acc i, NoDup (dkeys acc ++ l) -> forallb hashable l = true -> 0 <= i ->
  foldM (fun (a : dict val colour * Z) p => let '(d, c_idx) := a in do c <- list_getE COLORS (c_idx mod Z.of_nat (length COLORS)); if negb (hashable p) then Err TypeError else Ok (dset p c d, c_idx + 1)) l (acc, i)
  = Ok (acc ++ coloured i l, i + Z.of_nat (length l)).
Proof.
  induction l as [|p l IH]; intros acc i ND HH Hi; [|cbn [forallb] in HH; apply Bool.andb_true_iff in HH as [H1 H2]]; cbn [foldM coloured length].
  - rewrite app_nil_r. do 2 f_equal. lia.
  - change (Z.of_nat (length COLORS)) with 70. rewrite get_colour by (apply Z.mod_pos_bound; lia). cbn [bind]. fold (colour_at i).
    rewrite H1. cbn [negb bind]. rewrite hset_fresh; [|exact H1|apply NoDup_remove_2 in ND; intros X; apply ND, in_or_app; left; exact X]. change 70 with (Z.of_nat (length COLORS)).
    rewrite IH; [|unfold dkeys; rewrite map_app; cbn [map fst]; rewrite <- app_assoc; exact ND|exact H2|lia]. rewrite <- app_assoc. do 2 f_equal. lia.
Qed.
Lemma build_map l : NoDup l -> forallb hashable l = true -> build_color_map l = Ok (coloured 0 l).
Proof. intros ND HH. unfold build_color_map. rewrite build_map_go; [reflexivity|exact ND|exact HH|lia]. Qed.
Lemma color_map_go l : forall acc i, NoDup (dkeys acc ++ l) -> forallb hashable l = true -> 0 <= i ->
  foldM (fun (a : dict val colour * Z) p => let '(d, c_idx) := a in do c <- list_getE COLORS c_idx; if negb (hashable p) then Err TypeError else Ok (dset p c d, c_idx + 1)) l (acc, i)
  = if i + Z.of_nat (length l) <=? 70 then Ok (acc ++ coloured i l, i + Z.of_nat (length l)) else if i <=? 70 then Err IndexError else match l with [] => Ok (acc, i) | _ => Err IndexError end.
Proof.
  induction l as [|p l IH]; intros acc i ND HH Hi; [|cbn [forallb] in HH; apply Bool.andb_true_iff in HH as [H1 H2]]; cbn [foldM coloured length].
  - rewrite app_nil_r. replace (i + Z.of_nat 0) with i by lia. destruct (Z.leb_spec i 70); reflexivity.
  - destruct (Z.ltb_spec i 70) as [L|L].
    + rewrite get_colour by lia. cbn [bind]. assert (E : nth (Z.to_nat i) COLORS (0, 0, 0) = colour_at i) by (unfold colour_at; now rewrite Z.mod_small by lia). rewrite E.
      rewrite H1. cbn [negb bind]. rewrite hset_fresh; [|exact H1|apply NoDup_remove_2 in ND; intros X; apply ND, in_or_app; left; exact X].
      rewrite IH; [|unfold dkeys; rewrite map_app; cbn [map fst]; rewrite <- app_assoc; exact ND|exact H2|lia]. rewrite <- app_assoc. replace (i + 1 + Z.of_nat (length l)) with (i + Z.of_nat (S (length l))) by lia.
      destruct (Z.leb_spec (i + Z.of_nat (S (length l))) 70); [reflexivity|]. destruct (Z.leb_spec (i + 1) 70); [|lia]. destruct (Z.leb_spec i 70); [reflexivity|lia].
    + rewrite no_colour by lia. cbn [bind]. destruct (Z.leb_spec (i + Z.of_nat (S (length l))) 70); [lia|]. now destruct (i <=? 70).
Qed.

Definition small_colours_ok : bool :=
  forallb (fun i => forallb (fun j => negb (eqb (colour_at i) (colour_at j)) || (i =? j)) (zrange 0 22)) (zrange 0 22).
Lemma colour_eqb (c d : colour) : eqb c d = true <-> c = d.
Proof.
  destruct c as [[r g] b], d as [[r' g'] b']. unfold eqb, Eqb_colour. rewrite !Bool.andb_true_iff, !Z.eqb_eq. split; [intros [[-> ->] ->]; auto|intros E; injection E as -> -> ->; auto].
Qed.
Lemma small_colours i j : 0 <= i < 22 -> 0 <= j < 22 -> colour_at i = colour_at j -> i = j.
Proof.
  intros Hi Hj E. assert (S : small_colours_ok = true) by (vm_compute; reflexivity). unfold small_colours_ok in S. rewrite forallb_forall in S. specialize (S i (proj2 (zrange_In _ _ _) Hi)). rewrite forallb_forall in S.
  specialize (S j (proj2 (zrange_In _ _ _) Hj)). cbv beta in S. rewrite (proj2 (colour_eqb _ _) E) in S. cbn [negb orb] in S. now apply Z.eqb_eq.
Qed.
Lemma no_black i : colour_at i <> (0, 0, 0).
Proof.
  assert (S : forallb (fun c : colour => negb (@eqb colour Eqb_colour c (0, 0, 0))) COLORS = true) by (vm_compute; reflexivity). rewrite forallb_forall in S.
  assert (H : In (colour_at i) COLORS) by (apply nth_In; change (length COLORS) with 70%nat; pose proof (Z.mod_pos_bound i 70); lia).
  specialize (S _ H). intros E. rewrite (proj2 (colour_eqb _ _) E) in S. discriminate.
Qed.
Lemma coloured_get l p : NoDup l -> forallb hashable l = true -> hashable p = true -> (exists j, (j < length l)%nat /\ nth_error l j = Some p /\ dget p (coloured 0 l) = Some (colour_at (Z.of_nat j))) \/ (~ In p l /\ dget p (coloured 0 l) = None).
Proof.
  intros ND HH HP. destruct (Classical_Prop.classic (In p l)) as [H|H].
  - left. apply In_nth_error in H as [j E]. exists j. split; [apply nth_error_Some; congruence|]. split; auto. apply (coloured_nth l ND HH j p 0 E).
  - right. split; auto. apply hget_None; auto. now rewrite coloured_keys.
Qed.
Lemma coloured_own l p c : NoDup l -> forallb hashable l = true -> hashable p = true -> dget p (coloured 0 l) = Some c -> exists j, (j < length l)%nat /\ nth_error l j = Some p /\ c = colour_at (Z.of_nat j).
Proof. intros ND HH HP E. destruct (coloured_get l p ND HH HP) as [(j & J1 & J2 & E')|[_ E']]; [|congruence]. exists j. split; auto. split; auto. congruence. Qed.
Lemma C62_lemma : forall phases sk lg, NoDup phases -> forallb hashable phases = true ->
  exists cm ca, build_color_map phases = Ok cm /\ from_phase_list phases sk lg = Ok ca /\ dkeys cm = phases /\
    (forall p c, hashable p = true -> dget p cm = Some c -> c <> (0, 0, 0)) /\
    (forall d p, dget (match sk with Some k => k | None => KStr "DISCRETE_OCCUPANCY" end) d = Some p -> hashable p = true -> get_color ca (Some d) = Ok (shade cm p)) /\
    ((length phases <= 22)%nat -> forall p q c, hashable p = true -> hashable q = true -> dget p cm = Some c -> dget q cm = Some c -> p = q).
Proof.
  intros phases sk lg ND HH. exists (coloured 0 phases). eexists. split; [now apply build_map|]. split; [unfold from_phase_list; rewrite build_map by auto; reflexivity|]. split; [apply coloured_keys|]. split; [|split].
  - intros p c HP E. destruct (coloured_own phases p c ND HH HP E) as (j & _ & _ & ->). apply no_black.
  - intros d p E HP. unfold get_color. cbn [ca_state_key ca_color_map]. unfold dgetE, DISCRETE_OCCUPANCY. rewrite E. cbn [bind]. rewrite HP. reflexivity.
  - intros L p q c HP HQ Ep Eq. destruct (coloured_own phases p c ND HH HP Ep) as (j & J1 & J2 & E1). destruct (coloured_own phases q c ND HH HQ Eq) as (k & K1 & K2 & E2).
    assert (j = k); [|congruence]. apply Nat2Z.inj. apply small_colours; try lia. congruence.
Qed.
Lemma C62_refuted_lemma : forall phases cm, NoDup phases -> forallb hashable phases = true -> (22 < length phases)%nat -> build_color_map phases = Ok cm ->
  exists p q c, p <> q /\ In p phases /\ In q phases /\ dget p cm = Some c /\ dget q cm = Some c.
Proof.
  intros phases cm ND HH L E. rewrite build_map in E by auto. injection E as <-.
  destruct (nth_error phases 15) as [p|] eqn:Ep; [|apply nth_error_None in Ep; lia]. destruct (nth_error phases 22) as [q|] eqn:Eq; [|apply nth_error_None in Eq; lia].
  exists p, q, (0, 128, 0). split; [|split; [eapply nth_error_In; eauto|split; [eapply nth_error_In; eauto|]]].
  - intros ->. assert (15 = 22)%nat; [|lia]. eapply NoDup_nth_error; eauto; [lia|congruence].
  - rewrite (coloured_nth phases ND HH 15 p 0 Ep), (coloured_nth phases ND HH 22 q 0 Eq). split; reflexivity.
Qed.
Lemma C62_helper_lemma : forall phases, NoDup phases -> forallb hashable phases = true -> color_map phases = if (length phases <=? 70)%nat then build_color_map phases else Err IndexError.
Proof.
  intros phases ND HH. unfold color_map. rewrite color_map_go; [|exact ND|exact HH|lia]. rewrite build_map by auto. cbn [app]. destruct (Nat.leb_spec (length phases) 70), (Z.leb_spec (0 + Z.of_nat (length phases)) 70); try lia; reflexivity.
Qed.

(** ** Legends *)
(** The legend of an artist that inherits [get_legend]: one entry for each label, with the colour of the first site labelled so. *)
Lemma base_lemma st color label (colr : key -> colour) (lab : key -> string) : ided st ->
  (forall k, In k (site_ids st) -> color (get_site_state st k) = Ok (colr k) /\ exists d, get_site_state st k = Some d /\ label d = Ok (lab k)) ->
  exists lg, base_legend color label st = Ok lg /\ NoDup (dkeys lg) /\ (forall l, In l (dkeys lg) <-> exists k, In k (site_ids st) /\ lab k = l) /\
    (forall l c, dget l lg = Some c -> exists pre k post, site_ids st = pre ++ k :: post /\ lab k = l /\ (forall k', In k' pre -> lab k' <> l) /\ c = colr k).
Proof.
  intros ID HH. unfold base_legend. pose proof (all_states_keys st ID) as E.
  assert (H : forall ks done ds acc, site_ids st = done ++ ks -> map Some ds = map (get_site_state st) ks -> NoDup (dkeys acc) -> (forall l, In l (dkeys acc) <-> exists k, In k done /\ lab k = l) ->
      (forall l c, dget l acc = Some c -> exists pre k post, site_ids st = pre ++ k :: post /\ lab k = l /\ (forall k', In k' pre -> lab k' <> l) /\ c = colr k) ->
      exists lg, foldM (fun legend d => do l <- label d; if dmem l legend then Ok legend else do c <- color (Some d); Ok (dset l c legend)) ds acc = Ok lg /\
        NoDup (dkeys lg) /\ (forall l, In l (dkeys lg) <-> exists k, In k (site_ids st) /\ lab k = l) /\
        (forall l c, dget l lg = Some c -> exists pre k post, site_ids st = pre ++ k :: post /\ lab k = l /\ (forall k', In k' pre -> lab k' <> l) /\ c = colr k)).
  { induction ks as [|k ks IH]; intros done ds acc ES ED ND HK HC; destruct ds as [|d ds]; try discriminate.
    - exists acc. split; [reflexivity|]. split; auto. split; auto. intros l. rewrite HK, ES, app_nil_r. tauto.
    - cbn [map] in ED. injection ED as E1 E2. assert (Hk : In k (site_ids st)) by (rewrite ES; apply in_or_app; simpl; auto). destruct (HH k Hk) as (EC & d' & Ed & EL). rewrite <- E1 in Ed. injection Ed as <-.
      cbn [foldM]. rewrite EL. cbn [bind]. assert (ES' : site_ids st = (done ++ [k]) ++ ks) by (rewrite <- app_assoc; exact ES).
      assert (IN : forall l, (exists k0, In k0 (done ++ [k]) /\ lab k0 = l) <-> (exists k0, In k0 done /\ lab k0 = l) \/ lab k = l).
      { intros l. split; [intros (k0 & H0 & H1); apply in_app_iff in H0 as [H0|[<-|[]]]; eauto|]. intros [(k0 & H0 & H1)|H1]; [exists k0|exists k]; split; auto; apply in_or_app; simpl; auto. }
      unfold dmem. destruct (dget (lab k) acc) as [c|] eqn:Ea; cbn [bind].
      + apply (IH (done ++ [k])); auto. intros l. rewrite HK, IN. split; [auto|]. intros [X|<-]; auto. apply HK. eapply dget_Some_key; eauto.
      + rewrite E1, EC. cbn [bind]. apply (IH (done ++ [k])); auto.
        * now apply NoDup_dset.
        * intros l. rewrite In_dkeys_dset, HK, IN. intuition congruence.
        * intros l c. rewrite dget_dset. destruct (eqb_spec l (lab k)) as [->|D]; [|auto]. intros X. injection X as <-. exists done, k, ks. split; auto. split; auto. split; auto.
          intros k' Hk' El. apply dget_None in Ea. apply Ea, HK. eauto. }
  destruct (H (site_ids st) [] (all_site_states st) []) as (lg & EL & N & IP & HC); auto; [constructor| |discriminate|eauto]. intros l. split; [intros []|intros (k & [] & _)].
Qed.
Section Legend.
  Variables (st : sstate) (str_ : val -> string) (ca : discrete_artist) (cm : dict val colour).
  Let ky := ca_state_key ca.
  Hypothesis DI : valued ky st.
  Hypothesis CM : ca_color_map ca = Some cm.

  Lemma colour_site k : In k (site_ids st) -> get_color ca (get_site_state st k) = Ok (shade cm (value_of ky st k)).
  Proof.
    intros Hk. destruct (proj2 DI k Hk) as (p & E & HP). unfold value_of. rewrite E. unfold site_entry in E. destruct (get_site_state st k) as [d|]; [|discriminate].
    unfold get_color. rewrite CM. unfold dgetE. fold ky. rewrite E. cbn [bind]. rewrite HP. reflexivity.
  Qed.
  Lemma legend_lemma : ca_legend ca = None -> exists lg, get_legend str_ ca st = Ok lg /\ NoDup (dkeys lg) /\ (forall l, In l (dkeys lg) <-> exists v, held ky st v /\ str_ v = l) /\
    (forall l c, dget l lg = Some c -> exists v, held ky st v /\ str_ v = l /\ c = shade cm v).
  Proof.
    intros CL. unfold get_legend. rewrite CL.
    destruct (base_lemma st (get_color ca) (get_cell_legend_label str_ ca) (fun k => shade cm (value_of ky st k)) (fun k => str_ (value_of ky st k))) as (lg & EL & N & IP & HC).
    - apply DI.
    - intros k Hk. split; [now apply colour_site|]. destruct (proj2 DI k Hk) as (p & E & _). unfold value_of. rewrite E. unfold site_entry in E. destruct (get_site_state st k) as [d|]; [|discriminate].
      exists d. split; auto. unfold get_cell_legend_label, dgetE. fold ky. rewrite E. reflexivity.
    - assert (HV : forall k, In k (site_ids st) -> held ky st (value_of ky st k)) by (intros k Hk; exists k; split; auto; unfold value_of; destruct (proj2 DI k Hk) as (p & -> & _); reflexivity).
      exists lg. split; auto. split; auto. split.
      + intros l. rewrite IP. split.
        * intros (k & Hk & <-). exists (value_of ky st k). auto.
        * intros (v & (k & Hk & E) & <-). exists k. split; auto. unfold value_of. now rewrite E.
      + intros l c G. destruct (HC l c G) as (pre & k & post & ES & EL' & _ & ->). exists (value_of ky st k). split; [apply HV; rewrite ES; apply in_or_app; simpl; auto|auto].
  Qed.
End Legend.
Lemma C62_legend_lemma : forall st str_ ca cm, valued (ca_state_key ca) st -> colours_by ca cm ->
  exists lg, get_legend str_ ca st = Ok lg /\ NoDup (dkeys lg) /\ (forall l, In l (dkeys lg) <-> exists v, held (ca_state_key ca) st v /\ str_ v = l) /\
    (forall l c, dget l lg = Some c -> exists v, held (ca_state_key ca) st v /\ str_ v = l /\ c = shade cm v).
Proof. intros st str_ ca cm DI [C1 C2]; eapply legend_lemma; eauto. Qed.
