(** Lemmas about SimulationState. *)
From Verif Require Import Prelude Dict Val ValFacts StateModel SpecState.

Lemma get_set_site s i u j :
  get_site_state (set_site_state s i u) j =
  if eqb j i then
    Some (dmerge (match get_site_state s i with None => [(SITE_ID, key_val i)] | Some d => d end) u)
  else get_site_state s j.
Proof. unfold get_site_state, set_site_state. cbn. now rewrite dget_dset. Qed.

Lemma set_site_general s i u : get_general_state (set_site_state s i u) = get_general_state s.
Proof. reflexivity. Qed.

Lemma site_entry_set s i u j k : uniq u ->
  site_entry (set_site_state s i u) j k =
  if eqb j i then upd_entry u k (entry_or_new s i k) else site_entry s j k.
Proof.
  intros U. unfold site_entry. rewrite get_set_site. destruct (eqb_spec j i) as [->|N]; [|reflexivity].
  rewrite dget_dmerge by assumption. unfold upd_entry, entry_or_new.
  destruct (get_site_state s i); reflexivity.
Qed.

Lemma swf_empty : swf s_empty.
Proof. split; [constructor|split; [discriminate|constructor]]. Qed.

Lemma swf_set_site s i u : swf s -> uniq u -> swf (set_site_state s i u).
Proof.
  intros (A & B & C) U. split; [|split].
  - now apply NoDup_dset.
  - intros j d. rewrite get_set_site. destruct (eqb j i); [|apply B].
    intros E. injection E as <-. apply NoDup_dmerge.
    destruct (get_site_state s i) eqn:G; [now apply (B i)|]. repeat constructor. tauto.
  - exact C.
Qed.
Lemma swf_set_general s u : swf s -> swf (set_general_state s u).
Proof. intros (A & B & C). split; [|split]; auto. now apply NoDup_dmerge. Qed.

(** Site-only part of a batch, as a total function. *)
Definition set_sites_t (s : sstate) (sites : dict key pdict) : sstate :=
  fold_left (fun s kv => set_site_state s (fst kv) (snd kv)) sites s.

Lemma set_sites_vsites s sites : set_sites s (vsites sites) = Ok (set_sites_t s sites).
Proof.
  unfold set_sites, set_sites_t, vsites. revert s.
  induction sites as [|[i u] t IH]; intros s; cbn; [reflexivity|]. apply IH.
Qed.

Lemma dget_vsites i sites : dget i (vsites sites) = option_map VDict (dget i sites).
Proof. unfold vsites. apply (dget_map_vals (fun _ => VDict)). Qed.
Lemma dkeys_vsites sites : dkeys (vsites sites) = dkeys sites.
Proof. unfold dkeys, vsites. rewrite map_map. now apply map_ext. Qed.

Lemma set_sites_t_general s sites : get_general_state (set_sites_t s sites) = get_general_state s.
Proof.
  unfold set_sites_t. revert s. induction sites as [|[i u] t IH]; intros s; cbn; [reflexivity|].
  now rewrite IH.
Qed.

Lemma get_set_sites_t_notin s sites j : ~ In j (dkeys sites) ->
  get_site_state (set_sites_t s sites) j = get_site_state s j.
Proof.
  unfold set_sites_t. revert s. induction sites as [|[i u] t IH]; intros s I; cbn; [reflexivity|].
  cbn in I. rewrite IH by tauto. rewrite get_set_site, eqb_neq; [reflexivity|]. intros ->. tauto.
Qed.

Lemma get_set_sites_t s sites j : uniq sites ->
  get_site_state (set_sites_t s sites) j =
  match dget j sites with
  | Some u => Some (dmerge (match get_site_state s j with None => [(SITE_ID, key_val j)] | Some d => d end) u)
  | None => get_site_state s j
  end.
Proof.
  unfold set_sites_t. revert s. induction sites as [|[i u] t IH]; intros s N; cbn [fold_left fst snd dget]; [reflexivity|].
  inversion N as [|? ? N1 N2]; subst. destruct (eqb_spec j i) as [->|D].
  - fold (set_sites_t (set_site_state s i u) t). rewrite get_set_sites_t_notin by assumption.
    rewrite get_set_site. now rewrite eqb_refl.
  - rewrite IH by assumption. rewrite get_set_site, eqb_neq by assumption. reflexivity.
Qed.

Lemma site_entry_set_sites_t s sites j k :
  uniq sites -> (forall i u, In (i, u) sites -> uniq u) ->
  site_entry (set_sites_t s sites) j k =
  match dget j sites with
  | Some u => upd_entry u k (entry_or_new s j k)
  | None => site_entry s j k
  end.
Proof.
  intros N U. unfold site_entry. rewrite get_set_sites_t by assumption.
  destruct (dget j sites) as [u|] eqn:E; [|reflexivity].
  rewrite dget_dmerge by (eapply U, dget_In, E). unfold upd_entry, entry_or_new.
  destruct (get_site_state s j); reflexivity.
Qed.

Lemma swf_set_sites_t s sites : swf s -> (forall i u, In (i, u) sites -> uniq u) -> swf (set_sites_t s sites).
Proof.
  unfold set_sites_t. revert s. induction sites as [|[i u] t IH]; intros s W U; cbn; [assumption|].
  apply IH.
  - apply swf_set_site; [assumption|]. apply (U i). now left.
  - intros j v I. apply (U j). now right.
Qed.

(** Site ids: the updated ones are added at the end, in order of first occurrence. *)
Lemma site_ids_set s i u :
  site_ids (set_site_state s i u) = if mem i (site_ids s) then site_ids s else site_ids s ++ [i].
Proof.
  unfold site_ids, set_site_state. cbn [s_sites]. rewrite dkeys_dset. unfold dmem.
  destruct (dget i (s_sites s)) eqn:E.
  - assert (M : mem i (dkeys (s_sites s)) = true) by (apply mem_In; eapply dget_Some_key, E).
    now rewrite M.
  - assert (M : mem i (dkeys (s_sites s)) = false) by (apply mem_notIn; now apply dget_None).
    now rewrite M.
Qed.

Lemma batch_full b s sites g :
  dget GENERAL b = Some (VDict g) -> dget SITES b = Some (VDict (vsites sites)) ->
  batch_update s (VDict b) = Ok (set_general_state (set_sites_t s sites) g).
Proof. intros E1 E2. cbn. rewrite E1, E2. cbn. now rewrite set_sites_vsites. Qed.
Lemma batch_general_only b s g :
  dget GENERAL b = Some (VDict g) -> dget SITES b = None ->
  batch_update s (VDict b) = Ok (set_general_state s g).
Proof. intros E1 E2. cbn. now rewrite E1, E2. Qed.
Lemma batch_sites s sites : ~ In GENERAL (dkeys sites) ->
  batch_update s (VDict (vsites sites)) = Ok (set_sites_t s sites).
Proof.
  intros N. cbn. rewrite dget_vsites. assert (E : dget GENERAL sites = None) by now apply dget_None.
  rewrite E. cbn. apply set_sites_vsites.
Qed.

Lemma general_entry_set s u k : uniq u ->
  general_entry (set_general_state s u) k = upd_entry u k (general_entry s k).
Proof. intros U. unfold general_entry, set_general_state. cbn. now rewrite dget_dmerge. Qed.

Lemma get_site_set_general s u j : get_site_state (set_general_state s u) j = get_site_state s j.
Proof. reflexivity. Qed.

(** Applying the same updates again changes nothing. *)
Lemma set_site_again s i u d : uniq u ->
  get_site_state s i = Some d -> dmerge d u = d -> set_site_state s i u = s.
Proof.
  intros U G E. unfold set_site_state. unfold get_site_state in G. rewrite G, E.
  rewrite dset_same by assumption. now destruct s.
Qed.
Lemma set_sites_t_again s sites : uniq sites -> (forall i u, In (i, u) sites -> uniq u) ->
  set_sites_t (set_sites_t s sites) sites = set_sites_t s sites.
Proof.
  intros N U.
  assert (Q : forall s', (forall i u, In (i, u) sites -> exists d, get_site_state s' i = Some d /\ dmerge d u = d) ->
              set_sites_t s' sites = s').
  { clear N. intros s'. unfold set_sites_t. induction sites as [|[i u] t IH]; cbn; intros Q; [reflexivity|].
    destruct (Q i u) as (d & G & E); [now left|].
    rewrite (set_site_again s' i u d); [|apply (U i); now left|assumption|assumption].
    apply IH.
    - intros j v I. apply (U j). now right.
    - intros j v I. apply Q. now right. }
  apply Q. intros i u I. eexists. split.
  - rewrite get_set_sites_t by assumption. rewrite (In_dget i u) by assumption. reflexivity.
  - apply dmerge_idem. now apply (U i).
Qed.
Lemma set_general_again s g : uniq g -> set_general_state (set_general_state s g) g = set_general_state s g.
Proof. intros U. unfold set_general_state. cbn. f_equal. now apply dmerge_idem. Qed.
Lemma set_sites_general_comm s sites g :
  set_sites_t (set_general_state s g) sites = set_general_state (set_sites_t s sites) g.
Proof.
  unfold set_sites_t. revert s. induction sites as [|[i u] t IH]; intros s; cbn; [reflexivity|].
  rewrite <- IH. reflexivity.
Qed.

(** ** Histories *)
Definition sop_state (s : sstate) (o : sop) : sstate :=
  match o with
  | OpSite i u => set_site_state s i u
  | OpGeneral u => set_general_state s u
  | OpBatchFull sites g => set_general_state (set_sites_t s sites) g
  | OpBatchSites sites => set_sites_t s sites
  end.
Lemma apply_sop_eq s o : sop_ok o -> apply_sop s o = Ok (sop_state s o).
Proof.
  destruct o as [i u|u|sites g|sites]; cbn [apply_sop sop_state sop_ok]; intros O; auto.
  - now apply batch_full.
  - apply batch_sites. tauto.
Qed.
Lemma run_sops_eq h s : Forall sop_ok h -> run_sops h s = Ok (fold_left sop_state h s).
Proof.
  unfold run_sops. revert s. induction h as [|o t IH]; intros s F; cbn; [reflexivity|].
  inversion F; subst. rewrite apply_sop_eq by assumption. cbn. now apply IH.
Qed.
Lemma swf_sop s o : sop_ok o -> swf s -> swf (sop_state s o).
Proof.
  destruct o as [i u|u|sites g|sites]; cbn; intros O W.
  - now apply swf_set_site.
  - now apply swf_set_general.
  - apply swf_set_general, swf_set_sites_t; tauto.
  - apply swf_set_sites_t; tauto.
Qed.
Lemma swf_hist h s : Forall sop_ok h -> swf s -> swf (fold_left sop_state h s).
Proof.
  revert s. induction h as [|o t IH]; intros s F W; cbn; [assumption|].
  inversion F; subst. apply IH; [assumption|]. now apply swf_sop.
Qed.

Lemma dedup_snoc {A} `{EqbOk A} (l : list A) x :
  dedup (l ++ [x]) = if mem x l then dedup l else dedup l ++ [x].
Proof.
  induction l as [|y t IH]; cbn [dedup app]; [reflexivity|].
  rewrite IH. cbn [mem existsb]. fold (mem x t). rewrite (eqb_sym x y).
  destruct (mem x t) eqn:M.
  - now rewrite orb_true_r.
  - rewrite orb_false_r, filter_app. cbn. now destruct (eqb y x); cbn; rewrite ?app_nil_r.
Qed.
Lemma site_ids_set_sites_t l h sites : forall s, site_ids s = dedup l ->
  h = dkeys sites -> site_ids (set_sites_t s sites) = dedup (l ++ h).
Proof.
  intros s E ->. unfold set_sites_t. revert l s E. induction sites as [|[i u] t IH]; intros l s E; cbn.
  - now rewrite app_nil_r.
  - change (l ++ i :: map fst t) with (l ++ [i] ++ map fst t). rewrite app_assoc.
    apply IH. rewrite site_ids_set, E, dedup_snoc.
    assert (M : mem i (dedup l) = mem i l).
    { destruct (mem i l) eqn:M; [apply mem_In, dedup_In, mem_In, M|].
      apply mem_notIn. rewrite dedup_In. now apply mem_notIn. }
    now rewrite M.
Qed.
Lemma site_ids_hist h l s : site_ids s = dedup l ->
  site_ids (fold_left sop_state h s) = dedup (l ++ flat_map (fun o => dkeys (sop_sites o)) h).
Proof.
  revert l s. induction h as [|o t IH]; intros l s E; cbn [fold_left flat_map].
  - now rewrite app_nil_r.
  - rewrite app_assoc. apply IH. destruct o as [i u|u|sites g|sites]; cbn [sop_state sop_sites].
    + apply (site_ids_set_sites_t l _ [(i, u)] s E eq_refl).
    + cbn. now rewrite app_nil_r.
    + change (site_ids (set_sites_t s sites) = dedup (l ++ dkeys sites)). now apply site_ids_set_sites_t.
    + now apply site_ids_set_sites_t.
Qed.

Lemma get_site_state_In s i : get_site_state s i <> None <-> In i (site_ids s).
Proof.
  unfold get_site_state, site_ids. rewrite dget_key_Some. destruct (dget i (s_sites s)); split.
  - eauto.
  - discriminate.
  - congruence.
  - intros [v E]; discriminate.
Qed.
Lemma all_site_states_aligned s : uniq (s_sites s) ->
  map Some (all_site_states s) = map (get_site_state s) (site_ids s).
Proof.
  intros N. unfold all_site_states, get_site_state, site_ids, dvals, dkeys. rewrite !map_map.
  apply map_ext_in. intros [i d] I. cbn. symmetry. now apply In_dget.
Qed.

Definition ids_right (s : sstate) : Prop :=
  forall i, In i (site_ids s) -> site_entry s i SITE_ID = Some (key_val i).
Lemma ids_right_set_sites_t s sites :
  ids_right s -> (forall i u, In (i, u) sites -> uniq u /\ dget SITE_ID u = None) ->
  ids_right (set_sites_t s sites).
Proof.
  unfold set_sites_t. revert s. induction sites as [|[i u] t IH]; intros s R U; cbn; [assumption|].
  apply IH; [|intros j v I; apply (U j); now right].
  destruct (U i u) as [U1 U2]; [now left|].
  intros j I. rewrite site_entry_set by assumption.
  destruct (eqb_spec j i) as [->|N].
  - unfold upd_entry. rewrite U2. unfold entry_or_new. destruct (get_site_state s i) eqn:G.
    + assert (J : In i (site_ids s)) by (apply get_site_state_In; congruence).
      specialize (R i J). unfold site_entry in R. now rewrite G in R.
    + now rewrite eqb_refl.
  - apply R. apply get_site_state_In in I. apply get_site_state_In.
    rewrite get_set_site, eqb_neq in I; assumption.
Qed.
Lemma ids_right_hist h s : Forall sop_ok h -> ids_right s ->
  (forall o i u, In o h -> In (i, u) (sop_sites o) -> dget SITE_ID u = None) ->
  ids_right (fold_left sop_state h s).
Proof.
  revert s. induction h as [|o t IH]; intros s F R U; cbn [fold_left]; [assumption|].
  inversion F as [|? ? O F']; subst. apply IH; [assumption| |intros; eapply U; eauto; now right].
  assert (U' : forall i u, In (i, u) (sop_sites o) -> dget SITE_ID u = None) by (intros; eapply U; eauto; now left).
  destruct o as [i u|u|sites g|sites]; cbn [sop_state sop_sites sop_ok] in *.
  - apply (ids_right_set_sites_t s [(i, u)]); [assumption|]. intros j v [E|[]]. injection E as -> ->.
    split; [assumption|]. apply (U' j v). now left.
  - exact R.
  - intros i I. apply (ids_right_set_sites_t s sites); [assumption| |exact I].
    intros j v J. split; [now apply (proj1 (proj2 O) j)|eauto].
  - apply (ids_right_set_sites_t s sites); [assumption|].
    intros j v J. split; [now apply (proj1 (proj2 O) j)|eauto].
Qed.

(** ** Statements used by PropState *)
Lemma C01_lemma : forall (s : sstate) (i : key) (u : pdict), uniq u ->
  (forall k, site_entry (set_site_state s i u) i k = upd_entry u k (entry_or_new s i k)) /\
  (forall j, j <> i -> get_site_state (set_site_state s i u) j = get_site_state s j) /\
  get_site_state (set_site_state s i u) i <> None /\
  get_general_state (set_site_state s i u) = get_general_state s.
Proof.
  intros s i u U. split; [|split; [|split]].
  - intros k. rewrite site_entry_set by assumption. now rewrite eqb_refl.
  - intros j N. now rewrite get_set_site, eqb_neq.
  - rewrite get_set_site, eqb_refl. discriminate.
  - reflexivity.
Qed.

Lemma C02_lemma : forall (h : list sop), Forall sop_ok h ->
  exists s, run_sops h s_empty = Ok s /\
  site_ids s = dedup (flat_map (fun o => dkeys (sop_sites o)) h) /\
  NoDup (site_ids s) /\
  size s = Z.of_nat (length (site_ids s)) /\
  map Some (all_site_states s) = map (get_site_state s) (site_ids s) /\
  (forall i, get_site_state s i <> None <-> In i (site_ids s)) /\
  ((forall o i u, In o h -> In (i, u) (sop_sites o) -> dget SITE_ID u = None) ->
   forall i, In i (site_ids s) -> site_entry s i SITE_ID = Some (key_val i)).
Proof.
  intros h F. exists (fold_left sop_state h s_empty). split; [now apply run_sops_eq|].
  pose proof (swf_hist h s_empty F swf_empty) as W.
  split; [|split; [|split; [|split; [|split]]]].
  - apply (site_ids_hist h [] s_empty). reflexivity.
  - apply W.
  - reflexivity.
  - apply all_site_states_aligned. apply W.
  - intros i. apply get_site_state_In.
  - intros U. apply ids_right_hist; auto. intros i [].
Qed.

Lemma C03_full_lemma : forall (s : sstate) (b : pdict) (sites : dict key pdict) (g : pdict),
  uniq sites -> (forall i u, In (i, u) sites -> uniq u) -> uniq g ->
  dget GENERAL b = Some (VDict g) ->
  dget SITES b = Some (VDict (vsites sites)) \/ (dget SITES b = None /\ sites = []) ->
  exists s', batch_update s (VDict b) = Ok s' /\
  (forall i k, site_entry s' i k = match dget i sites with
                                   | Some u => upd_entry u k (entry_or_new s i k)
                                   | None => site_entry s i k end) /\
  (forall i, ~ In i (dkeys sites) -> get_site_state s' i = get_site_state s i) /\
  (forall k, general_entry s' k = upd_entry g k (general_entry s k)) /\
  run_sops (map (fun iu => OpSite (fst iu) (snd iu)) sites ++ [OpGeneral g]) s = Ok s' /\
  batch_update s' (VDict b) = Ok s'.
Proof.
  intros s b sites g N U Ug E1 E2.
  exists (set_general_state (set_sites_t s sites) g).
  assert (B : forall s, batch_update s (VDict b) = Ok (set_general_state (set_sites_t s sites) g)).
  { intros s0. destruct E2 as [E2|[E2 ->]]; [now apply batch_full|now apply batch_general_only]. }
  split; [apply B|]. split; [|split; [|split; [|split]]].
  - intros i k. exact (site_entry_set_sites_t s sites i k N U).
  - intros i I. exact (get_set_sites_t_notin s sites i I).
  - intros k. rewrite general_entry_set by assumption. unfold general_entry. now rewrite set_sites_t_general.
  - unfold run_sops. rewrite foldM_app.
    assert (Q : forall s, foldM apply_sop (map (fun iu => OpSite (fst iu) (snd iu)) sites) s = Ok (set_sites_t s sites)).
    { clear. unfold set_sites_t. induction sites as [|[i u] t IH]; intros s; cbn; auto. }
    rewrite Q. reflexivity.
  - rewrite B. f_equal. rewrite set_sites_general_comm, set_general_again by assumption.
    now rewrite set_sites_t_again.
Qed.

Lemma C03_sites_lemma : forall (s : sstate) (sites : dict key pdict),
  uniq sites -> (forall i u, In (i, u) sites -> uniq u) -> ~ In GENERAL (dkeys sites) ->
  exists s', batch_update s (VDict (vsites sites)) = Ok s' /\
  (forall i k, site_entry s' i k = match dget i sites with
                                   | Some u => upd_entry u k (entry_or_new s i k)
                                   | None => site_entry s i k end) /\
  (forall i, ~ In i (dkeys sites) -> get_site_state s' i = get_site_state s i) /\
  get_general_state s' = get_general_state s /\
  run_sops (map (fun iu => OpSite (fst iu) (snd iu)) sites) s = Ok s' /\
  batch_update s' (VDict (vsites sites)) = Ok s'.
Proof.
  intros s sites N U G. exists (set_sites_t s sites).
  split; [now apply batch_sites|]. split; [|split; [|split; [|split]]].
  - intros i k. now apply site_entry_set_sites_t.
  - intros i I. now apply get_set_sites_t_notin.
  - apply set_sites_t_general.
  - clear N U G. unfold run_sops, set_sites_t. revert s. induction sites as [|[i u] t IH]; intros s; cbn; auto.
  - rewrite batch_sites by assumption. now rewrite set_sites_t_again.
Qed.

Lemma C04_refuted_lemma : forall (s : sstate) (sites : pdict),
  exists s', batch_update s (VDict [(SITES, VDict sites)]) = Ok s' /\
  (forall i, i <> SITES -> get_site_state s' i = get_site_state s i) /\
  In SITES (site_ids s') /\ get_general_state s' = get_general_state s.
Proof.
  intros s sites. exists (set_site_state s SITES sites). split; [reflexivity|]. split; [|split].
  - intros i N. now rewrite get_set_site, eqb_neq.
  - apply get_site_state_In. rewrite get_set_site, eqb_refl. discriminate.
  - reflexivity.
Qed.
