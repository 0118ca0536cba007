(** The state analyzers. *)
From Coq Require Import Reals Lra Permutation.
From Verif Require Import Prelude Dict Val ValFacts Arith RealArith LatticeModel StructModel StateModel ResultModel SetupModel AnalyzerModel HashFacts
  SpecState SpecResult SpecGeom SpecNb SpecSetup SpecAnalyze StateFacts ResultFacts StructFacts StructMore NbFacts.
Local Open Scope Z_scope.

Lemma meets_pure crit d : meets (map on_state crit) (Some d) = Ok (forallb (fun c => c d) crit).
Proof. induction crit as [|c t IH]; [reflexivity|]. cbn [map meets on_state bind forallb]. destruct (c d); cbn [negb andb]; auto. Qed.
Lemma lookup_key st k : site_state_of st (key_val k) = Ok (get_site_state st k).
Proof. destruct k; reflexivity. Qed.

(** The loop of [get_sites] on the states of the sites [ks]. *)
Lemma get_sites_loop st (crit : criterion) (b : pdict -> bool) (cs : list criterion) : (forall d, meets cs (Some d) = Ok (b d)) -> ided st -> forall ks, (forall k, In k ks -> In k (site_ids st)) -> forall acc,
  foldM (fun matching_sites site => match site with
      | None => Err TypeError
      | Some d => do id <- dgetE SITE_ID d; do site_state <- site_state_of st id; do meets_criteria <- meets cs site_state;
          Ok (if meets_criteria : bool then matching_sites ++ [id] else matching_sites) end) (map (get_site_state st) ks) acc
  = Ok (acc ++ map key_val (filter (fun k => match get_site_state st k with Some d => b d | None => false end) ks)).
Proof.
  intros HB [U ID]. induction ks as [|k ks IH]; intros HK acc; cbn [map foldM filter].
  - now rewrite app_nil_r.
  - assert (Hk : In k (site_ids st)) by (apply HK; simpl; auto). unfold site_ids in Hk. apply dget_key_Some in Hk as [d Ed]. change (get_site_state st k = Some d) in Ed.
    rewrite Ed. unfold dgetE. unfold SITE_ID. rewrite (ID k d Ed). cbn [bind]. rewrite lookup_key, Ed. cbn [bind]. rewrite HB. cbn [bind].
    rewrite IH by (intros; apply HK; simpl; auto). destruct (b d); [|reflexivity]. cbn [map]. now rewrite <- app_assoc.
Qed.
Lemma all_states_keys st : ided st -> map Some (all_site_states st) = map (get_site_state st) (site_ids st).
Proof. intros [U _]. now apply all_site_states_aligned. Qed.

Definition dummy : criterion := fun _ => Ok true.
Lemma get_sites_state {F} st cls cs b : (forall d, meets cs (Some d) = Ok (b d)) -> ided st ->
  get_sites (F := F) None st cls cs = Ok (map key_val (filter (fun k => match get_site_state st k with Some d => b d | None => false end) (site_ids st))).
Proof. intros HB ID. unfold get_sites. rewrite all_states_keys by auto. rewrite (get_sites_loop st dummy b cs HB ID); auto. Qed.
Lemma get_sites_struct {F} (s : structure F) st cls cs b : (forall d, meets cs (Some d) = Ok (b d)) -> ided st -> (forall x, In x (sites s cls) -> In (KInt (s_id x)) (site_ids st)) ->
  get_sites (Some s) st cls cs = Ok (map VInt (filter (fun i => match get_site_state st (KInt i) with Some d => b d | None => false end) (map s_id (sites s cls)))).
Proof.
  intros HB ID HS. unfold get_sites. rewrite <- (map_map (fun x => KInt (s_id x)) (get_site_state st)). rewrite (get_sites_loop st dummy b cs HB ID).
  - cbn [app]. f_equal. rewrite <- (map_map s_id KInt). induction (map s_id (sites s cls)) as [|i l IH]; [reflexivity|]. cbn [map filter].
    destruct (get_site_state st (KInt i)) as [d|]; [|exact IH]. destruct (b d); cbn [map key_val]; congruence.
  - intros k Hk. apply in_map_iff in Hk as (x & <- & Hx). auto.
Qed.

Lemma C57_state_lemma : forall F st cls crit, ided st ->
  get_sites (F := F) None st cls (map on_state crit) =
    Ok (map key_val (filter (fun k => match get_site_state st k with Some d => forallb (fun c => c d) crit | None => false end) (site_ids st))).
Proof. intros F st cls crit ID. apply get_sites_state; auto. intros d. apply meets_pure. Qed.
Lemma C57_structure_lemma : forall F A (L : lattice F) s st cls crit, built A L s -> ided st ->
  (forall i x, get_site s i = Some x -> In (KInt i) (site_ids st)) ->
  exists l, get_sites (Some s) st cls (map on_state crit) = Ok (map VInt l) /\
    get_site_count (Some s) st cls (map on_state crit) = Ok (Z.of_nat (length l)) /\
    l = filter (fun i => match get_site_state st (KInt i) with Some d => forallb (fun c => c d) crit | None => false end) (map s_id (sites s cls)) /\
    (forall i, In i l <-> exists x d, get_site s i = Some x /\ in_class cls (s_class x) /\ get_site_state st (KInt i) = Some d /\ forall c, In c crit -> c d = true).
Proof.
  intros F A L s st cls crit HB ID HS. destruct (built_inv A L s HB) as [h I].
  assert (SUB : forall x, In x (sites s cls) <-> get_site s (s_id x) = Some x /\ in_class cls (s_class x)).
  { intros x. rewrite (inv_get_site A L h s _ x I). destruct cls as [c|]; [|cbn; tauto]. rewrite sites_class. cbn. tauto. }
  assert (HS' : forall x, In x (sites s cls) -> In (KInt (s_id x)) (site_ids st)) by (intros x Hx; apply SUB in Hx as [Hx _]; eauto).
  eexists. split; [apply get_sites_struct with (b := fun d => forallb (fun c => c d) crit); auto; intros d; apply meets_pure|].
  split; [unfold get_site_count; rewrite (get_sites_struct s st cls _ (fun d => forallb (fun c => c d) crit)); auto; [cbn [bind]; now rewrite map_length|intros d; apply meets_pure]|].
  split; [reflexivity|]. intros i. rewrite filter_In, in_map_iff. split.
  - intros [(x & <- & Hx) E]. apply SUB in Hx as [Hx Hc]. destruct (get_site_state st (KInt (s_id x))) as [d|] eqn:Ed; [|discriminate]. exists x, d. split; auto. split; auto. split; auto.
    intros c Hin. rewrite forallb_forall in E. auto.
  - intros (x & d & Gx & Cx & Ed & HC). apply (inv_get_site A L h s _ x I) in Gx as Gx'. destruct Gx' as [Hx Ei]. split.
    + exists x. split; auto. apply SUB. rewrite Ei. auto.
    + rewrite Ed. apply forallb_forall. auto.
Qed.
Lemma C57_missing_lemma : forall F (s : structure F) st cls crit, ided st ->
  (exists x, In x (sites s cls) /\ get_site_state st (KInt (s_id x)) = None) ->
  get_sites (Some s) st cls (map on_state crit) = Err TypeError.
Proof.
  intros F s st cls crit [U ID] (x & Hx & Ex). unfold get_sites. match goal with |- foldM ?f _ _ = _ => set (g := f) end. generalize (@nil val) as acc. revert Hx. induction (sites s cls) as [|y l IH]; intros Hx acc; [destruct Hx|]. cbn [map foldM]. unfold g at 1.
  destruct (get_site_state st (KInt (s_id y))) as [d|] eqn:Ed; [|reflexivity]. unfold dgetE. unfold SITE_ID. rewrite (ID _ d Ed). cbn [bind]. rewrite lookup_key, Ed. cbn [bind].
  rewrite meets_pure. cbn [bind]. destruct Hx as [->|Hx]; [congruence|]. apply IH; auto.
Qed.

Lemma simple_eqb a v : simple v -> val_eqb a v = true <-> a = v.
Proof.
  destruct v; cbn; try tauto; intros _; destruct a; cbn; split; intros E; try discriminate; try congruence.
  - apply Bool.eqb_prop in E. congruence.
  - injection E as ->. apply Bool.eqb_reflx.
  - apply Z.eqb_eq in E. congruence.
  - injection E as ->. apply Z.eqb_refl.
  - apply String.eqb_eq in E. congruence.
  - injection E as ->. apply String.eqb_refl.
Qed.
Definition pairs_hold (pairs : pdict) (d : pdict) : bool :=
  forallb (fun kv => val_eqb (match dget (fst kv) d with Some v => v | None => VNone end) (snd kv)) pairs.
Lemma meets_equal pairs d : meets [equal_criterion pairs] (Some d) = Ok (pairs_hold pairs d).
Proof.
  cbn [meets]. assert (E : equal_criterion pairs (Some d) = Ok (pairs_hold pairs d)) by (destruct pairs; reflexivity). rewrite E. cbn [bind]. now destruct (pairs_hold pairs d).
Qed.
Lemma pairs_hold_simple pairs d : (forall k v, In (k, v) pairs -> simple v) -> pairs_hold pairs d = true <-> forall k v, In (k, v) pairs -> dget k d = Some v.
Proof.
  intros HS. unfold pairs_hold. rewrite forallb_forall. split.
  - intros H k v Hin. specialize (H _ Hin). cbn [fst snd] in H. apply simple_eqb in H; [|eauto]. destruct (dget k d); [congruence|]. specialize (HS _ _ Hin). subst v. destruct HS.
  - intros H [k v] Hin. cbn [fst snd]. rewrite (H _ _ Hin). apply simple_eqb; eauto.
Qed.
Lemma C57_equal_lemma : forall F A (L : lattice F) s st cls pairs, built A L s -> ided st ->
  (forall i x, get_site s i = Some x -> In (KInt i) (site_ids st)) -> (forall k v, In (k, v) pairs -> simple v) ->
  exists l, get_sites_where_equal (Some s) st pairs cls = Ok (map VInt l) /\
    get_site_count_where_equal (Some s) st pairs cls = Ok (Z.of_nat (length l)) /\ NoDup l /\
    (forall i, In i l <-> exists x, get_site s i = Some x /\ in_class cls (s_class x) /\ forall k v, In (k, v) pairs -> site_entry st (KInt i) k = Some v).
Proof.
  intros F A L s st cls pairs HB ID HS SI. destruct (C57_structure_lemma F A L s st cls [pairs_hold pairs] HB ID HS) as (l & _ & _ & El & IL).
  assert (HS' : forall x, In x (sites s cls) -> In (KInt (s_id x)) (site_ids st)).
  { intros x Hx. destruct (built_inv A L s HB) as [h I]. apply HS with x. apply (inv_get_site A L h s _ x I). split; auto. eapply sites_sub; eauto. }
  assert (E : get_sites_where_equal (Some s) st pairs cls = Ok (map VInt l)).
  { unfold get_sites_where_equal. rewrite (get_sites_struct s st cls _ (pairs_hold pairs)); auto; [|intros d; apply meets_equal]. rewrite El. do 2 f_equal. apply filter_ext.
    intros i. destruct (get_site_state st (KInt i)); auto. cbn [forallb]. now rewrite Bool.andb_true_r. }
  exists l. split; auto. split; [unfold get_site_count_where_equal; rewrite E; cbn [bind]; now rewrite map_length|]. split.
  - rewrite El. apply NoDup_filter, dense_NoDup. eapply built_dense; eauto.
  - intros i. rewrite IL. split.
    + intros (x & d & G & C & Ed & HC). exists x. split; auto. split; auto. intros k v Hkv. unfold site_entry. rewrite Ed. apply (proj1 (pairs_hold_simple pairs d SI)); auto. apply HC. simpl; auto.
    + intros (x & G & C & HC). assert (Hk : In (KInt i) (site_ids st)) by eauto. apply dget_key_Some in Hk as [d Ed]. exists x, d. split; auto. split; auto. split; [exact Ed|].
      intros c [<-|[]]. apply pairs_hold_simple; auto. intros k v Hkv. specialize (HC k v Hkv). unfold site_entry, get_site_state in HC. rewrite Ed in HC. exact HC.
Qed.

(** ** Classes *)
Lemma config_ided {F} (A : arith F) L (s : structure F) st P : built A L s -> configuration s st P -> ided st.
Proof.
  intros HB (E1 & E2 & HC). destruct (built_inv A L s HB) as [h I].
  assert (U : uniq (s_sites st)).
  { unfold uniq. fold (site_ids st). change (NoDup (site_ids st)). rewrite E1, <- (map_map s_id KInt). apply FinFun.Injective_map_NoDup; [intros a b X; congruence|]. apply dense_NoDup. eapply built_dense; eauto. }
  split; auto. intros k d E. assert (Hk : In k (site_ids st)) by (eapply dget_Some_key; exact E).
  rewrite E1 in Hk. apply in_map_iff in Hk as (x & <- & Hx). destruct (HC (s_id x) x) as (p & Ep & _); [apply (inv_get_site A L h s _ x I); auto|].
  rewrite E in Ep. injection Ep as ->. reflexivity.
Qed.
Lemma config_discrete {F} (A : arith F) L (s : structure F) st P : built A L s -> configuration s st P -> discrete st.
Proof.
  intros HB HC. split; [eapply config_ided; eauto|]. destruct HC as (E1 & E2 & HC). destruct (built_inv A L s HB) as [h I]. intros k Hk. rewrite E1 in Hk. apply in_map_iff in Hk as (x & <- & Hx).
  destruct (HC (s_id x) x) as (p & Ep & _); [apply (inv_get_site A L h s _ x I); auto|]. exists (VStr p). unfold site_entry. rewrite Ep. split; reflexivity.
Qed.
Lemma C58_lemma : forall F A (L : lattice F) s st c crit, built A L s -> ided st ->
  (forall i x, get_site s i = Some x -> In (KInt i) (site_ids st)) ->
  exists l, get_sites (Some s) st (Some c) (map on_state crit) = Ok (map VInt l) /\ forall i, In i l -> exists x, get_site s i = Some x /\ s_class x = c.
Proof.
  intros F A L s st c crit HB ID HS. destruct (C57_structure_lemma F A L s st (Some c) crit HB ID HS) as (l & E & _ & _ & IL). exists l. split; auto.
  intros i Hi. apply IL in Hi as (x & d & G & Cx & _). exists x. auto.
Qed.
Lemma C58_refuted_lemma : forall F A (L : lattice F) (s : structure F) st P c i x, built A L s -> configuration s st P -> get_site s i = Some x -> s_class x <> c ->
  exists l, get_sites (F := F) None st (Some c) [] = Ok l /\ In (VInt i) l.
Proof.
  intros F A L s st P c i x HB HC G _. pose proof (config_ided A L s st P HB HC) as ID. eexists. split; [apply (C57_state_lemma F st (Some c) []); auto|].
  change (VInt i) with (key_val (KInt i)). apply in_map. apply filter_In. destruct HC as (E1 & _ & HC). destruct (HC i x G) as (p & Ep & _). rewrite Ep. split; auto.
  eapply dget_Some_key. exact Ep.
Qed.

(** ** Counts and fractions *)
Lemma filter_perm {B} (f : B -> bool) l m : Permutation l m -> Permutation (filter f l) (filter f m).
Proof.
  intros P. induction P as [|x l1 l2 _ IH|x y l1|l1 l2 l3 _ IH1 _ IH2]; cbn [filter].
  - constructor.
  - destruct (f x); auto.
  - destruct (f x), (f y); auto. constructor.
  - etransitivity; eauto.
Qed.
Definition value_of (ky : key) (st : sstate) (k : key) : val := match site_entry st k ky with Some q => q | None => VNone end.
Section Counts.
  Variable st : sstate.
  Hypothesis DI : discrete st.
  Let ids := site_ids st.

  Lemma ids_nodup : NoDup ids.
  Proof. destruct DI as [[U _] _]. exact U. Qed.
  Lemma phase_val k p : In k ids -> (has_phase st p k = true <-> site_entry st k (KStr "DISCRETE_OCCUPANCY") = Some p).
  Proof.
    intros Hk. unfold has_phase. destruct (proj2 DI k Hk) as (q & -> & Hq). change (val_eqb q p) with (eqb q p). rewrite (hash_sym q p Hq). split; [intros ->|intros E; injection E as ->]; auto.
  Qed.
  Definition name_of (k : key) : val := value_of (KStr "DISCRETE_OCCUPANCY") st k.
  Lemma name_hash k : In k ids -> hashable (name_of k) = true.
  Proof. intros Hk. unfold name_of, value_of. destruct (proj2 DI k Hk) as (q & -> & Hq). exact Hq. Qed.
  Lemma name_has k p : In k ids -> has_phase st p k = eqb (name_of k) p.
  Proof. intros Hk. unfold has_phase, name_of, value_of. destruct (proj2 DI k Hk) as (q & -> & _). reflexivity. Qed.
  Lemma name_entry k p : In k ids -> name_of k = p <-> site_entry st k (KStr "DISCRETE_OCCUPANCY") = Some p.
  Proof. intros Hk. unfold name_of, value_of. destruct (proj2 DI k Hk) as (q & -> & _). split; congruence. Qed.
  Lemma present_hash p : present st p -> hashable p = true.
  Proof. intros (k & Hk & E). destruct (proj2 DI k Hk) as (q & Eq & Hq). congruence. Qed.

  Lemma count_lemma {F} (so : option (structure F)) p : suits so st -> cell_count so st p = Ok (occurrences st p).
  Proof.
    intros SU. unfold cell_count, get_site_count_where_equal, get_sites_where_equal. fold DISCRETE_OCCUPANCY.
    set (pr := [(DISCRETE_OCCUPANCY, p)]).
    assert (EQ : forall k, In k ids -> (match get_site_state st k with Some d => pairs_hold pr d | None => false end) = has_phase st p k).
    { intros k Hk. destruct (proj2 DI k Hk) as (q & Eq & _). unfold has_phase. rewrite Eq. unfold site_entry in Eq. destruct (get_site_state st k) as [d|]; [|discriminate].
      unfold pairs_hold, pr. cbn [forallb fst snd]. rewrite Bool.andb_true_r. unfold DISCRETE_OCCUPANCY. now rewrite Eq. }
    destruct so as [s|].
    - cbn [suits] in SU. rewrite (get_sites_struct s st None _ (pairs_hold pr)); [|intros d; apply meets_equal|apply DI|].
      + cbn [bind]. rewrite map_length. unfold occurrences. do 2 f_equal. rewrite (filter_ext_in _ (fun i => has_phase st p (KInt i)) (map s_id (sites s None))).
        2: { intros i Hi. apply EQ. apply in_map_iff in Hi as (x & <- & Hx). eapply Permutation_in; [symmetry; exact SU|]. apply in_map_iff. eauto. }
        transitivity (length (filter (has_phase st p) (map (fun x => KInt (s_id x)) (sites s None)))).
        * generalize (sites s None). clear. induction l as [|x l IH]; [reflexivity|]. cbn [map filter]. destruct (has_phase st p (KInt (s_id x))); cbn [length]; congruence.
        * symmetry. apply Permutation_length, filter_perm, SU.
      + intros x Hx. eapply Permutation_in; [symmetry; exact SU|]. apply in_map_iff. eauto.
    - rewrite (get_sites_state st None _ (pairs_hold pr)); [|intros d; apply meets_equal|apply DI]. cbn [bind]. rewrite map_length. unfold occurrences. do 3 f_equal. apply filter_ext_in. exact EQ.
  Qed.
  Lemma fraction_gen {F G} (A : arith G) (so : option (structure F)) p : suits so st ->
    cell_fraction so A st p = if size st =? 0 then Err ZeroDivisionError else Ok (a_div A (a_ofZ A (occurrences st p)) (a_ofZ A (size st))).
  Proof. intros SU. unfold cell_fraction. rewrite count_lemma by auto. cbn [bind]. unfold int_div. destruct (size st =? 0); auto. Qed.
  Lemma ratio_gen {F G} (A : arith G) (so : option (structure F)) p q : suits so st ->
    cell_ratio so A st p q = if occurrences st q =? 0 then Err ZeroDivisionError else Ok (a_div A (a_ofZ A (occurrences st p)) (a_ofZ A (occurrences st q))).
  Proof. intros SU. unfold cell_ratio. rewrite !count_lemma by auto. cbn [bind]. unfold int_div. destruct (occurrences st q =? 0); auto. Qed.
  Lemma fraction_lemma {F} (so : option (structure F)) p : suits so st ->
    cell_fraction so RA st p = if size st =? 0 then Err ZeroDivisionError else Ok (IZR (occurrences st p) / IZR (size st))%R.
  Proof. intros SU. exact (fraction_gen RA so p SU). Qed.

  Lemma occ_nonneg p : 0 <= occurrences st p. Proof. unfold occurrences. lia. Qed.
  Lemma occ_pos p : 0 < occurrences st p <-> present st p.
  Proof.
    unfold occurrences, present. split.
    - intros H. destruct (filter (has_phase st p) (site_ids st)) as [|k l] eqn:E; [cbn in H; lia|]. assert (Hk : In k (filter (has_phase st p) (site_ids st))) by (rewrite E; simpl; auto).
      apply filter_In in Hk as [Hk Hp]. exists k. split; auto. now apply phase_val.
    - intros (k & Hk & E). assert (Hk' : In k (filter (has_phase st p) (site_ids st))) by (apply filter_In; split; auto; now apply phase_val). destruct (filter (has_phase st p) (site_ids st)); [destruct Hk'|cbn [length]; lia].
  Qed.
  (** Summing the counts over distinct phases. *)
  Lemma sum_counts ps : NoDup ps -> zsum (map (occurrences st) ps) = Z.of_nat (length (filter (fun k => existsb (eqb (name_of k)) ps) ids)).
  Proof.
    intros ND. assert (H : forall ks, (forall k, In k ks -> In k ids) -> zsum (map (fun p => Z.of_nat (length (filter (has_phase st p) ks))) ps) = Z.of_nat (length (filter (fun k => existsb (eqb (name_of k)) ps) ks))).
    { induction ks as [|k ks IH]; intros HK.
      - cbn [filter length]. clear. induction ps as [|p ps IH]; cbn [map zsum fold_right]; auto.
      - cbn [filter]. transitivity (zsum (map (fun p => Z.of_nat (length (filter (has_phase st p) ks))) ps) + (if existsb (eqb (name_of k)) ps then 1 else 0)).
        + assert (Hk : In k ids) by (apply HK; simpl; auto). clear IH HK. induction ps as [|p qs IHq]; cbn [map zsum fold_right existsb]; [reflexivity|].
          rewrite (name_has k p Hk). inversion ND as [|? ? N1 N2]; subst. specialize (IHq N2).
          fold (zsum (map (fun p => Z.of_nat (length (filter (has_phase st p) ks))) qs)). fold (zsum (map (fun p => Z.of_nat (length (if has_phase st p k then k :: filter (has_phase st p) ks else filter (has_phase st p) ks))) qs)).
          rewrite IHq. destruct (eqb (name_of k) p) eqn:E; cbn [orb length].
          * assert (X : existsb (eqb (name_of k)) qs = false).
            { destruct (existsb (eqb (name_of k)) qs) eqn:X; auto. apply existsb_exists in X as (q & Hq & Eq). apply (hash_sym _ _ (name_hash k Hk)) in E, Eq. congruence. }
            rewrite X. lia.
          * destruct (existsb (eqb (name_of k)) qs); lia.
        + rewrite IH by (intros; apply HK; simpl; auto). destruct (existsb (eqb (name_of k)) ps); cbn [length]; lia. }
    apply H. auto.
  Qed.
  Lemma size_ids : size st = Z.of_nat (length ids).
  Proof. reflexivity. Qed.
  Lemma sum_all ps : NoDup ps -> zsum (map (occurrences st) ps) <= size st /\ (zsum (map (occurrences st) ps) = size st <-> forall p, present st p -> In p ps).
  Proof.
    intros ND. rewrite sum_counts, size_ids by auto. set (f := fun k => existsb (eqb (name_of k)) ps).
    assert (LE : forall l, (length (filter f l) <= length l)%nat) by (induction l; cbn; auto; destruct (f a); cbn; lia).
    assert (ALL : forall l, length (filter f l) = length l <-> forall k, In k l -> f k = true).
    { induction l as [|k l IH]; cbn [filter length]; [split; [intros _ k []|auto]|]. split.
      - intros E. specialize (LE l). destruct (f k) eqn:Ek; cbn [length] in E; [|lia]. injection E as E. intros k' [<-|H]; auto. now apply IH.
      - intros H. rewrite (H k) by (simpl; auto). cbn [length]. f_equal. apply IH. intros; apply H; simpl; auto. }
    split; [specialize (LE ids); lia|]. split.
    - intros E p (k & Hk & Ep). apply Nat2Z.inj in E. apply (proj1 (ALL ids)) with (k := k) in E; auto. unfold f in E. apply existsb_exists in E as (q & Hq & Eq). apply (name_entry k p Hk) in Ep. apply (hash_sym _ _ (name_hash k Hk)) in Eq. congruence.
    - intros H. f_equal. apply ALL. intros k Hk. apply existsb_exists. exists (name_of k). split; [|apply hash_refl, name_hash, Hk]. apply H. exists k. split; auto. now apply name_entry.
  Qed.

  Lemma occs : mapM (dgetE DISCRETE_OCCUPANCY) (all_site_states st) = Ok (map name_of ids).
  Proof.
    pose proof (all_states_keys st (proj1 DI)) as E. fold ids in E. assert (H : forall k, In k ids -> In k ids) by auto. revert E H. generalize ids at 1 2 4. generalize (all_site_states st).
    induction l as [|d l IH]; intros ks E HK; destruct ks as [|k ks]; try discriminate; [reflexivity|]. cbn [map] in E. injection E as E1 E2. cbn [mapM map].
    destruct (proj2 DI k (HK k (or_introl eq_refl))) as (p & Ep & _). unfold name_of at 1, value_of at 1. rewrite Ep. unfold site_entry in Ep. rewrite <- E1 in Ep. unfold dgetE, DISCRETE_OCCUPANCY. rewrite Ep. cbn [bind].
    fold DISCRETE_OCCUPANCY. fold (dgetE (V := val) DISCRETE_OCCUPANCY). rewrite (IH ks); auto. intros; apply HK; simpl; auto.
  Qed.
  Lemma phases_lemma ord : any_order ord -> exists ps, phases_present ord st = Ok ps /\ NoDup ps /\ forall p, In p ps <-> present st p.
  Proof.
    intros O. unfold phases_present. rewrite occs. cbn [bind].
    assert (H : forallb hashable (map name_of ids) = true) by (apply forallb_forall; intros v Hv; apply in_map_iff in Hv as (k & <- & Hk); now apply name_hash). rewrite H.
    exists (ord (dedup (map name_of ids))). split; auto. split.
    - eapply Permutation_NoDup; [apply O|]. now apply hdedup_NoDup.
    - intros p. split.
      + intros Hp. apply (Permutation_in _ (Permutation_sym (O _))) in Hp. apply (hdedup_In _ _ H) in Hp. apply in_map_iff in Hp as (k & E & Hk). exists k. split; auto. now apply name_entry.
      + intros (k & Hk & Ep). apply (Permutation_in _ (O _)), (hdedup_In _ _ H), in_map_iff. exists k. split; auto. now apply name_entry.
  Qed.
End Counts.

Lemma sum_fracs {B} (f : B -> Z) n l : (n <> 0)%Z -> fold_right Rplus 0%R (map (fun p => IZR (f p) / IZR n)%R l) = (IZR (zsum (map f l)) / IZR n)%R.
Proof.
  intros N. assert (IZR n <> 0)%R by (apply not_0_IZR; auto). induction l as [|p l IH]; cbn [map fold_right zsum].
  - unfold Rdiv. now rewrite Rmult_0_l.
  - rewrite IH. fold (zsum (map f l)). rewrite plus_IZR. field; auto.
Qed.

Lemma C59_lemma : forall F (so : option (structure F)) st ord, discrete st -> suits so st -> any_order ord ->
  exists ps, phases_present ord st = Ok ps /\ NoDup ps /\ phase_count ord st = Ok (Z.of_nat (length ps)) /\
    (forall p, In p ps <-> exists k, In k (site_ids st) /\ site_entry st k (KStr "DISCRETE_OCCUPANCY") = Some p) /\
    (forall p, exists n, cell_count so st p = Ok n /\ n = occurrences st p /\ 0 <= n /\ (0 < n <-> In p ps)) /\
    zsum (map (occurrences st) ps) = size st /\
    (0 < size st -> exists fs, mapM (cell_fraction so RA st) ps = Ok fs /\ fold_right Rplus 0%R fs = 1%R /\ Forall (fun x => 0 < x)%R fs) /\
    (size st = 0 -> forall p, cell_fraction so RA st p = Err ZeroDivisionError).
Proof.
  intros F so st ord DI SU O. destruct (phases_lemma st DI ord O) as (ps & E & ND & IP). exists ps. split; auto. split; auto.
  split; [unfold phase_count; now rewrite E|]. split; [|split; [|split; [|split]]].
  - exact IP.
  - intros p. exists (occurrences st p). split; [apply count_lemma; auto|]. split; auto. split; [apply occ_nonneg|]. rewrite IP. now apply occ_pos.
  - apply (sum_all st DI ps ND). intros p. apply IP.
  - intros HS. exists (map (fun p => IZR (occurrences st p) / IZR (size st))%R ps). split; [|split].
    + clear -HS SU DI. induction ps as [|p ps IH]; [reflexivity|]. cbn [mapM map]. rewrite fraction_lemma by auto. rewrite (proj2 (Z.eqb_neq _ _)) by lia. cbn [bind]. rewrite IH. reflexivity.
    + rewrite sum_fracs by lia. rewrite (proj2 (proj2 (sum_all st DI ps ND))) by (intros p; apply IP). field. apply not_0_IZR. lia.
    + apply Forall_forall. intros x Hx. apply in_map_iff in Hx as (p & <- & Hp). apply IP, (occ_pos st DI) in Hp. apply Rdiv_lt_0_compat; apply IZR_lt; lia.
  - intros HS p. rewrite fraction_lemma by auto. now rewrite HS.
Qed.
Lemma C59_ratio_lemma : forall F (so : option (structure F)) st p q, discrete st -> suits so st ->
  cell_ratio so RA st p q = if occurrences st q =? 0 then Err ZeroDivisionError else Ok (IZR (occurrences st p) / IZR (occurrences st q))%R.
Proof. intros F so st p q DI SU. unfold cell_ratio. rewrite !count_lemma by auto. cbn [bind]. unfold int_div. destruct (occurrences st q =? 0); auto. Qed.
