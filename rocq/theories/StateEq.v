(** Comparing states (C112). *)
From Verif Require Import Prelude Dict Val ValFacts StateModel SpecState SpecEq StateFacts.

Lemma keys_incl_length {V W} (d : dict key V) (d' : dict key W) : uniq d -> uniq d' -> length d = length d' -> incl (dkeys d) (dkeys d') -> incl (dkeys d') (dkeys d).
Proof.
  intros U U' L I. apply NoDup_length_incl; auto. unfold dkeys. rewrite !map_length. lia.
Qed.
Lemma dget_None_key {V} (d : dict key V) k : dget k d = None <-> ~ In k (dkeys d).
Proof.
  split.
  - intros E H. apply dget_key_Some in H as [v Ev]. congruence.
  - intros H. destruct (dget k d) eqn:E; auto. exfalso. apply H. eapply dget_Some_key; eauto.
Qed.

Lemma same_eqb a : forall b, val_wf a -> val_wf b -> (val_eqb a b = true <-> same a b).
Proof.
  induction a as [|x|z|m e|s|l IH|l IH|d IH] using val_ind'; intros b WA WB.
  - destruct b; cbn; split; try discriminate; try (inversion 1; fail); auto; constructor.
  - destruct b; cbn; split; try discriminate; try (inversion 1; fail); [intros E; apply Bool.eqb_prop in E; subst; constructor|inversion 1; subst; apply Bool.eqb_reflx].
  - destruct b; cbn [val_eqb]; split; try discriminate; try (inversion 1; fail); [intros E; apply Z.eqb_eq in E; subst; constructor|inversion 1; subst; apply Z.eqb_refl].
  - destruct b; cbn [val_eqb]; split; try discriminate; try (inversion 1; fail);
      [intros E; apply andb_true_iff in E as [E1 E2]; apply Z.eqb_eq in E1, E2; subst; constructor|inversion 1; subst; now rewrite !Z.eqb_refl].
  - destruct b; cbn [val_eqb]; split; try discriminate; try (inversion 1; fail); [intros E; apply String.eqb_eq in E; subst; constructor|inversion 1; subst; apply String.eqb_refl].
  - destruct b as [| | | | |l'|l'|]; try (cbn; split; [discriminate|inversion 1]). rewrite val_eqb_list. apply val_wf_list in WA, WB.
    assert (E : Forall2 (fun x y => val_eqb x y = true) l l' <-> Forall2 same l l').
    { clear -IH WA WB. revert l' WB. induction l as [|x l IHl]; intros [|y l'] WB; split; intros H; inversion H; subst; constructor; inversion IH; inversion WA; inversion WB; subst; firstorder. }
    rewrite E. split; [constructor; auto|inversion 1; auto].
  - destruct b as [| | | | |l'|l'|]; try (cbn; split; [discriminate|inversion 1]). rewrite val_eqb_tuple. apply val_wf_tuple in WA, WB.
    assert (E : Forall2 (fun x y => val_eqb x y = true) l l' <-> Forall2 same l l').
    { clear -IH WA WB. revert l' WB. induction l as [|x l IHl]; intros [|y l'] WB; split; intros H; inversion H; subst; constructor; inversion IH; inversion WA; inversion WB; subst; firstorder. }
    rewrite E. split; [constructor; auto|inversion 1; auto].
  - destruct b as [| | | | | | |d']; try (cbn; split; [discriminate|inversion 1]). rewrite val_eqb_dict. apply val_wf_dict in WA as [NA WA], WB as [NB WB]. rewrite Forall_forall in IH, WA, WB.
    assert (WG : forall k v, dget k d = Some v -> val_wf v) by (intros k v E; exact (WA (k, v) (dget_In _ _ _ E))).
    assert (WG' : forall k v, dget k d' = Some v -> val_wf v) by (intros k v E; exact (WB (k, v) (dget_In _ _ _ E))).
    assert (IG : forall k v w, dget k d = Some v -> dget k d' = Some w -> (val_eqb v w = true <-> same v w)) by (intros k v w E E'; apply (IH (k, v) (dget_In _ _ _ E)); eauto).
    rewrite Forall_forall. split.
    + intros [L H]. constructor.
      * assert (I : incl (dkeys d) (dkeys d')).
        { intros k Hk. apply dget_key_Some in Hk as [v Ev]. destruct (H (k, v) (dget_In _ _ _ Ev)) as (w & Ew & _). eapply dget_Some_key; eauto. }
        pose proof (keys_incl_length d d' NA NB L I) as I'. intros k. rewrite !dget_None_key. split; auto.
      * intros k v w Ev Ew. destruct (H (k, v) (dget_In _ _ _ Ev)) as (w' & Ew' & E). cbn [fst snd] in *. rewrite Ew in Ew'. injection Ew' as <-. eapply IG; eauto.
    + intros S. inversion S as [| | | | | | |? ? SN SV]; subst. split.
      * assert (X : forall {V} (a b : dict key V), uniq a -> (forall k, In k (dkeys a) -> In k (dkeys b)) -> (length a <= length b)%nat).
        { intros V a b U I. pose proof (NoDup_incl_length U I) as Y. unfold dkeys in Y. now rewrite !map_length in Y. }
        assert (K : forall k, In k (dkeys d) <-> In k (dkeys d')).
        { intros k. split; intros Hk; apply dget_key_Some in Hk as [v Ev]; [destruct (dget k d') eqn:E|destruct (dget k d) eqn:E]; try (eapply dget_Some_key; eassumption); apply SN in E; congruence. }
        apply Nat.le_antisymm; apply X; auto; apply K.
      * intros [k v] Hk. cbn [fst snd]. pose proof (In_dget _ _ _ NA Hk) as Ev. destruct (dget k d') as [w|] eqn:Ew; [exists w; split; auto; eapply IG; eauto|]. apply SN in Ew. congruence.
Qed.

Lemma same_refl v : val_wf v -> same v v.
Proof. intros W. apply same_eqb; auto. now apply val_eqb_refl. Qed.
Lemma same_sym v : forall w, same v w -> same w v.
Proof.
  induction v as [|b|z|m e|s|l IH|l IH|d IH] using val_ind'; intros w S; inversion S as [| | | | |? ? S'|? ? S'|? ? SN SV]; subst; try constructor.
  - clear S. induction S' as [|x y l l' Sx S' IHl]; constructor; inversion IH; subst; auto.
  - clear S. induction S' as [|x y l l' Sx S' IHl]; constructor; inversion IH; subst; auto.
  - intros k. symmetry. apply SN.
  - rewrite Forall_forall in IH. intros k v w Ev Ew. exact (IH (k, w) (dget_In _ _ _ Ew) _ (SV k w v Ew Ev)).
Qed.
Lemma same_trans v : forall w x, same v w -> same w x -> same v x.
Proof.
  induction v as [|b|z|m e|s|l IH|l IH|d IH] using val_ind'; intros w x S S2; inversion S as [| | | | |? ? S'|? ? S'|? ? SN SV]; subst; try exact S2.
  - inversion S2 as [| | | | |? l2 S2'| |]; subst. constructor. clear S S2. revert l2 S2'. induction S' as [|a c l l' Sx S' IHl]; intros l2 S2'; inversion S2'; inversion IH; subst; constructor; eauto.
  - inversion S2 as [| | | | | |? l2 S2'|]; subst. constructor. clear S S2. revert l2 S2'. induction S' as [|a c l l' Sx S' IHl]; intros l2 S2'; inversion S2'; inversion IH; subst; constructor; eauto.
  - inversion S2 as [| | | | | | |? d2 SN2 SV2]; subst. rewrite Forall_forall in IH. constructor.
    + intros k. rewrite SN. apply SN2.
    + intros k v w Ev Ew. destruct (dget k d') as [u|] eqn:Eu; [exact (IH (k, v) (dget_In _ _ _ Ev) u w (SV k v u Ev Eu) (SV2 k u w Eu Ew))|]. apply SN in Eu. congruence.
Qed.

Lemma state_dict_sites s k : dget k (map (fun kv => (fst kv, VDict (snd kv))) (s_sites s)) = option_map VDict (get_site_state s k).
Proof. unfold get_site_state. induction (s_sites s) as [|[k' d] l IH]; cbn [map dget fst snd]; auto. now destruct (eqb k' k) eqn:E; rewrite ?E; auto; destruct (eqb k k'). Qed.

Lemma same_state s s' : same (state_dict s) (state_dict s') <-> alike s s'.
Proof.
  unfold state_dict, alike, general_entry, get_general_state.
  assert (K : forall s i, In i (site_ids s) <-> get_site_state s i <> None).
  { clear. intros s i. unfold site_ids, get_site_state. rewrite dget_None_key. split; [tauto|]. intros H. destruct (dget i (s_sites s)) eqn:E; [eapply dget_Some_key; eauto|]. exfalso. apply H. now apply dget_None_key. }
  assert (SD : forall d d', same (VDict d) (VDict d') <-> forall k, same_entry (dget k d) (dget k d')).
  { intros d d'. split.
    - intros S k. inversion S as [| | | | | | |? ? SN SV]; subst. destruct (dget k d) eqn:E1, (dget k d') eqn:E2; cbn; auto; [eauto|apply SN in E2; congruence|apply SN in E1; congruence].
    - intros H. constructor.
      + intros k. specialize (H k). destruct (dget k d), (dget k d'); cbn in H; try tauto; split; congruence.
      + intros k v w E1 E2. specialize (H k). rewrite E1, E2 in H. exact H. }
  rewrite SD. split.
  - intros H. pose proof (H SITES) as H1. pose proof (H GENERAL) as H2. cbn in H1, H2. rewrite SD in H1, H2.
    assert (X : forall i, match get_site_state s i, get_site_state s' i with None, None => True | Some d, Some d' => same (VDict d) (VDict d') | _, _ => False end).
    { intros i. specialize (H1 i). rewrite !state_dict_sites in H1. destruct (get_site_state s i), (get_site_state s' i); exact H1. }
    split; [|split].
    + intros i. rewrite !K. specialize (X i). destruct (get_site_state s i), (get_site_state s' i); split; intros; try congruence; tauto.
    + intros i k. specialize (X i). unfold site_entry. destruct (get_site_state s i), (get_site_state s' i); cbn; try tauto. rewrite SD in X. apply X.
    + exact H2.
  - intros (H1 & H2 & H3) k. unfold SITES, GENERAL in *. cbn [dget]. destruct (eqb_spec (KStr "SITES") k) as [<-|N1]; [|destruct (eqb_spec (KStr "GENERAL") k) as [<-|N2]].
    + cbn. rewrite SD. intros i. rewrite !state_dict_sites. specialize (H1 i). rewrite !K in H1. specialize (H2 i). unfold site_entry in H2.
      destruct (get_site_state s i), (get_site_state s' i); cbn; auto; [now rewrite SD| |]; destruct H1 as [HA HB]; [apply HA|apply HB]; congruence.
    + cbn. rewrite SD. exact H3.
    + destruct (eqb_spec k (KStr "SITES")); [congruence|]. destruct (eqb_spec k (KStr "GENERAL")); [congruence|]. cbn. exact I.
Qed.

Lemma C112_equal_lemma : forall s s', val_wf (state_dict s) -> val_wf (state_dict s') -> (state_eqb s s' = true <-> alike s s').
Proof. intros s s' W W'. unfold state_eqb. rewrite same_eqb by auto. apply same_state. Qed.

Lemma C112_equivalence_lemma : forall s s' s'', val_wf (state_dict s) -> val_wf (state_dict s') -> val_wf (state_dict s'') ->
  state_eqb s s = true /\ state_eqb s s' = state_eqb s' s /\ (state_eqb s s' = true -> state_eqb s' s'' = true -> state_eqb s s'' = true).
Proof.
  intros s s' s'' W W' W''. unfold state_eqb. split; [now apply val_eqb_refl|]. split.
  - apply Bool.eq_iff_eq_true. rewrite !same_eqb by auto. split; apply same_sym.
  - rewrite !same_eqb by auto. apply same_trans.
Qed.

Lemma wf_parts s : val_wf (state_dict s) <-> uniq (s_sites s) /\ (forall i d, get_site_state s i = Some d -> val_wf (VDict d)) /\ val_wf (VDict (s_general s)).
Proof.
  unfold state_dict. rewrite val_wf_dict. split.
  - intros [_ H]. inversion H as [|? ? H1 H']; subst. inversion H' as [|? ? H2 _]; subst. cbn [snd] in *. apply val_wf_dict in H1 as [U F]. split; [|split; [|exact H2]].
    + unfold uniq, dkeys in *. now rewrite map_map in U.
    + intros i d E. rewrite Forall_forall in F. apply (F (i, VDict d)). apply dget_In. rewrite state_dict_sites, E. reflexivity.
  - intros (U & F & G). split; [repeat constructor; simpl; intuition discriminate|]. constructor; [|constructor; [exact G|constructor]]. cbn [snd]. apply val_wf_dict. split.
    + unfold uniq, dkeys in *. now rewrite map_map.
    + apply Forall_forall. intros [k v] H. apply in_map_iff in H as ([i d] & E & H). injection E as <- <-. cbn [snd fst]. apply (F i d). unfold get_site_state. now apply In_dget.
Qed.

Lemma wf_set s i u : val_wf (state_dict s) -> val_wf (VDict u) -> val_wf (state_dict (set_site_state s i u)).
Proof.
  rewrite !wf_parts. intros (U & F & G) Wu. pose proof Wu as Wu'. apply val_wf_dict in Wu' as [Uu Fu].
  destruct (C01_lemma s i u Uu) as (E1 & E2 & E3 & E4). unfold get_general_state in E4.
  assert (X : forall d (old : pdict), val_wf (VDict old) -> (forall k v, dget k d = Some v -> exists w, (dget k u = Some w \/ dget k old = Some w \/ w = key_val i) /\ v = w) -> uniq d -> val_wf (VDict d)).
  { intros d old WO H UD. apply val_wf_dict. split; [exact UD|]. apply Forall_forall. intros [k v] Hk. apply (In_dget _ _ _ UD) in Hk. destruct (H k v Hk) as (w & [Ew|[Ew| ->]] & ->); cbn [snd].
    - rewrite Forall_forall in Fu. exact (Fu (k, w) (dget_In _ _ _ Ew)).
    - apply val_wf_dict in WO as [_ WO]. rewrite Forall_forall in WO. exact (WO (k, w) (dget_In _ _ _ Ew)).
    - destruct i; exact I. }
  assert (SW : swf s) by (split; [exact U|split; [intros j d E; apply F, val_wf_dict in E; apply E|apply val_wf_dict in G; apply G]]).
  assert (SW' : swf (set_site_state s i u)) by (apply swf_set_site; auto).
  split; [apply SW'|]. split; [|rewrite E4; exact G].
  intros j d E. destruct (eqb_spec j i) as [->|N]; [|rewrite E2 in E by auto; exact (F j d E)].
  apply (X d (match get_site_state s i with Some o => o | None => [] end)).
  - destruct (get_site_state s i) as [o|] eqn:Eo; [exact (F i o Eo)|exact (conj (NoDup_nil _) I)].
  - intros k v Ek. exists v. split; [|reflexivity]. pose proof (E1 k) as Y. unfold site_entry in Y. rewrite E in Y. rewrite Ek in Y. unfold upd_entry, entry_or_new in Y. destruct (dget k u); [left; auto|]. right. destruct (get_site_state s i); [left; auto|].
    destruct (eqb k SITE_ID); [right; congruence|discriminate].
  - apply (proj1 (proj2 SW') i d E).
Qed.

Lemma C112_updates_lemma : forall s i u, val_wf (state_dict s) -> val_wf (VDict u) ->
  (state_eqb s (set_site_state s i u) = true <-> In i (site_ids s) /\ forall k v, In (k, v) u -> exists w, site_entry s i k = Some w /\ same w v) /\
  forall j w, j <> i -> val_wf (VDict w) -> state_eqb (set_site_state (set_site_state s i u) j w) (set_site_state (set_site_state s j w) i u) = true.
Proof.
  intros s i u W Wu. pose proof Wu as Wu'. apply val_wf_dict in Wu' as [Uu Fu]. destruct (C01_lemma s i u Uu) as (E1 & E2 & E3 & E4).
  assert (K : forall s i, In i (site_ids s) <-> get_site_state s i <> None).
  { clear. intros s i. unfold site_ids, get_site_state. rewrite dget_None_key. split; [tauto|]. intros H. destruct (dget i (s_sites s)) eqn:E; [eapply dget_Some_key; eauto|]. exfalso. apply H. now apply dget_None_key. }
  assert (RE : forall s i k, val_wf (state_dict s) -> same_entry (site_entry s i k) (site_entry s i k)).
  { clear. intros s i k W. apply wf_parts in W as (_ & F & _). unfold site_entry. destruct (get_site_state s i) as [d|] eqn:E; [|exact I]. specialize (F i d E). apply val_wf_dict in F as [_ F]. rewrite Forall_forall in F.
    destruct (dget k d) as [v|] eqn:Ev; [|exact I]. exact (same_refl v (F (k, v) (dget_In _ _ _ Ev))). }
  assert (RG : forall s k, val_wf (state_dict s) -> same_entry (general_entry s k) (general_entry s k)).
  { clear. intros s k W. apply wf_parts in W as (_ & _ & F). unfold general_entry, get_general_state. apply val_wf_dict in F as [_ F]. rewrite Forall_forall in F.
    destruct (dget k (s_general s)) as [v|] eqn:Ev; [|exact I]. exact (same_refl v (F (k, v) (dget_In _ _ _ Ev))). }
  split.
  - rewrite C112_equal_lemma by (auto using wf_set). split.
    + intros (A & B & _). assert (Hi : In i (site_ids s)) by (apply A, K; exact E3). split; [exact Hi|]. intros k v Hk. apply (In_dget _ _ _ Uu) in Hk. specialize (B i k). rewrite E1 in B. unfold upd_entry in B. rewrite Hk in B.
      destruct (site_entry s i k) as [w|]; [exists w; auto|destruct B].
    + intros [Hi H]. split; [|split].
      * intros j. rewrite !K. destruct (eqb_spec j i) as [->|N]; [split; intros _; [exact E3|now apply K]|rewrite (E2 j) by auto; tauto].
      * intros j k. destruct (eqb_spec j i) as [->|N]; [|unfold site_entry at 2; rewrite (E2 j) by auto; apply (RE s j k W)].
        rewrite E1. unfold upd_entry. destruct (dget k u) as [v|] eqn:Ek.
        -- destruct (H k v (dget_In _ _ _ Ek)) as (w & -> & S). exact S.
        -- apply K in Hi. unfold entry_or_new. pose proof (RE s i k W) as X. unfold site_entry in *. destruct (get_site_state s i); [exact X|congruence].
      * intros k. unfold general_entry at 2. rewrite E4. apply (RG s k W).
  - intros j w N Ww. pose proof Ww as Ww'. apply val_wf_dict in Ww' as [Uw Fw].
    pose proof (wf_set s i u W Wu) as W1. pose proof (wf_set s j w W Ww) as W2. pose proof (wf_set _ j w W1 Ww) as W12. pose proof (wf_set _ i u W2 Wu) as W21.
    apply C112_equal_lemma; auto. destruct (C01_lemma s j w Uw) as (J1 & J2 & J3 & J4). destruct (C01_lemma (set_site_state s i u) j w Uw) as (A1 & A2 & A3 & A4). destruct (C01_lemma (set_site_state s j w) i u Uu) as (B1 & B2 & B3 & B4).
    assert (GE : forall h, get_site_state (set_site_state (set_site_state s i u) j w) h = get_site_state (set_site_state (set_site_state s j w) i u) h \/ h = i \/ h = j).
    { intros h. destruct (eqb_spec h i); auto. destruct (eqb_spec h j); auto. left. rewrite A2, B2, E2, J2; auto. }
    split; [|split].
    + intros h. rewrite !K. destruct (GE h) as [->|[->| ->]]; [tauto| |].
      * rewrite (A2 i) by auto. tauto.
      * rewrite (B2 j) by auto. tauto.
    + intros h k. destruct (GE h) as [E|[->| ->]].
      * unfold site_entry at 1. rewrite E. apply (RE _ h k W21).
      * rewrite B1. unfold site_entry. rewrite (A2 i) by auto. fold (site_entry (set_site_state s i u) i k). rewrite E1. unfold entry_or_new. rewrite (J2 i) by auto. pose proof (RE _ i k W1) as X. rewrite E1 in X. exact X.
      * rewrite A1. unfold site_entry. rewrite (B2 j) by auto. fold (site_entry (set_site_state s j w) j k). rewrite J1. unfold entry_or_new. rewrite (E2 j) by auto. pose proof (RE _ j k W2) as X. rewrite J1 in X. exact X.
    + intros k. pose proof (RG s k W) as X. unfold general_entry in *. rewrite A4, B4, E4, J4. exact X.
Qed.
