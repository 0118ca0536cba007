(** Round-trip lemmas for the (de)serialisation code. *)
From Verif Require Import Prelude Dict Val ValFacts StateModel ResultModel JsonModel SpecState SpecResult StateFacts ResultFacts.
From Coq Require Import DecimalString DecimalZ DecimalPos Decimal.

Lemma to_int_not_nil z : Z.to_int z <> Pos Nil /\ Z.to_int z <> Neg Nil.
Proof.
  destruct z as [|p|p]; cbn; split; try discriminate; intros E; injection E as E;
  pose proof (DecimalPos.Unsigned.to_uint_nonnil p) as N; congruence.
Qed.
Lemma int_of_str_of_Z z : int_of_str (str_of_Z z) = Ok z.
Proof.
  unfold int_of_str, str_of_Z. destruct (to_int_not_nil z) as [A B].
  rewrite NilZero.isi by assumption. now rewrite DecimalZ.of_to.
Qed.
Lemma str_of_Z_inj a b : str_of_Z a = str_of_Z b -> a = b.
Proof. intros E. pose proof (int_of_str_of_Z a) as A. rewrite E, int_of_str_of_Z in A. congruence. Qed.

Lemma json_clean_list l : json_clean (VList l) <-> Forall json_clean l.
Proof. cbn. induction l as [|x t IH]; [split; constructor|]. rewrite Forall_cons_iff. tauto. Qed.
Lemma json_clean_dict d : json_clean (VDict d) <->
  uniq d /\ Forall (fun kv => (exists s, fst kv = KStr s) /\ json_clean (snd kv)) d.
Proof.
  cbn. enough (E : (fix go (d : list (key * val)) :=
         match d with [] => True | (k, x) :: t => (exists s, k = KStr s) /\ json_clean x /\ go t end) d <->
     Forall (fun kv => (exists s, fst kv = KStr s) /\ json_clean (snd kv)) d) by tauto.
  induction d as [|[k x] t IH]; [split; constructor|]. rewrite Forall_cons_iff. cbn. tauto.
Qed.

Lemma json_roundtrip_clean v : json_clean v -> json_roundtrip v = v.
Proof.
  unfold json_roundtrip.
  induction v as [|b|z|m e|s|l IH|l IH|d IH] using val_ind'; intros W; cbn [to_json of_json]; try reflexivity.
  - apply json_clean_list in W. f_equal. rewrite map_map.
    induction l as [|x t IHl]; [reflexivity|]. inversion IH; inversion W; subst. cbn. f_equal; auto.
  - destruct W.
  - apply json_clean_dict in W as [N W]. f_equal. rewrite map_map. cbn [fst snd].
    rewrite (map_ext_in _ (fun kv => kv)).
    + rewrite map_id. now apply dict_of_id.
    + rewrite Forall_forall in *. intros [k x] I. destruct (W _ I) as [[s Es] Wx]. cbn in *. subst k.
      cbn. f_equal. now apply (IH (KStr s, x) I).
Qed.

(** Dictionaries with integer keys come back with string keys. *)
Definition strkeys (d : pdict) : pdict := map (fun kv => (KStr (key_string (fst kv)), snd kv)) d.

Lemma strkeys_uniq d : uniq d -> Forall (fun kv => exists z, fst kv = KInt z) d -> uniq (strkeys d).
Proof.
  unfold uniq, dkeys, strkeys. rewrite map_map. cbn.
  induction d as [|[k v] t IH]; cbn; intros N F; [constructor|].
  inversion N as [|? ? N1 N2]; subst. inversion F as [|? ? [z Ez] F']; subst. cbn in Ez. subst k.
  constructor; [|now apply IH].
  rewrite in_map_iff. intros ([k' v'] & E & I). apply N1.
  rewrite Forall_forall in F'. destruct (F' _ I) as [z' Ez']. cbn in *. subst k'. cbn in E.
  injection E as E. apply str_of_Z_inj in E. subst z'. now apply (in_map fst) in I.
Qed.

Lemma json_roundtrip_int_keyed d : int_keyed d -> json_roundtrip (VDict d) = VDict (strkeys d).
Proof.
  intros [N F]. unfold json_roundtrip. cbn [to_json of_json]. f_equal. rewrite map_map. cbn [fst snd].
  rewrite (map_ext_in _ (fun kv => (KStr (key_string (fst kv)), snd kv))).
  - fold (strkeys d). apply dict_of_id, strkeys_uniq; [assumption|].
    eapply Forall_impl; [|exact F]. cbn. tauto.
  - rewrite Forall_forall in F. intros [k x] I. destruct (F _ I) as [_ W]. cbn in *. f_equal.
    now apply json_roundtrip_clean.
Qed.

Lemma mapM_strkeys {B} (g : val -> res B) (d : pdict) (l : list (key * B)) :
  Forall (fun kv => exists z, fst kv = KInt z) d ->
  Forall2 (fun kv kb => fst kv = fst kb /\ g (snd kv) = Ok (snd kb)) d l ->
  mapM (fun kv => do k <- int_key (fst kv); do b <- g (snd kv); Ok (k, b)) (strkeys d) = Ok l.
Proof.
  intros F G. apply mapM_Forall2. induction G as [|[k v] [k' b] t l' [E1 E2] G IH]; cbn; [constructor|].
  inversion F as [|? ? [z Ez] F']; subst. cbn in *. subst k k'. constructor; [|now apply IH].
  cbn. rewrite int_of_str_of_Z. cbn. now rewrite E2.
Qed.

Lemma dget_strs k v : index (VDict v) k = dgetE k v.
Proof. reflexivity. Qed.

(** The dictionaries that as_dict builds, after the JSON round trip. *)
Lemma json_roundtrip_dict2 (l : list (string * val)) :
  NoDup (map fst l) ->
  json_roundtrip (VDict (map (fun kv => (KStr (fst kv), snd kv)) l)) =
  VDict (map (fun kv => (KStr (fst kv), json_roundtrip (snd kv))) l).
Proof.
  intros N. unfold json_roundtrip. cbn [to_json of_json]. f_equal. rewrite !map_map. cbn [fst snd key_string].
  apply dict_of_id. unfold dkeys. rewrite map_map. cbn.
  rewrite <- (map_map fst KStr). apply FinFun.Injective_map_NoDup; [|assumption]. intros a b E. congruence.
Qed.

Lemma state_dict_roundtrip s : json_state s ->
  json_roundtrip (state_dict s) =
  VDict [(SITES, VDict (strkeys (vsites (s_sites s)))); (GENERAL, VDict (s_general s))].
Proof.
  intros (N & F & G). unfold state_dict.
  assert (I : int_keyed (vsites (s_sites s))).
  { split.
    - unfold uniq. rewrite dkeys_vsites. exact N.
    - unfold vsites. rewrite Forall_map. eapply Forall_impl; [|exact F]. cbn. tauto. }
  pose proof (json_roundtrip_int_keyed _ I) as E1. unfold vsites in E1.
  pose proof (json_roundtrip_clean _ G) as E2.
  unfold json_roundtrip in *. cbn [to_json of_json map fst snd key_string SITES GENERAL] in *.
  rewrite E1. rewrite E2. reflexivity.
Qed.

Lemma state_from_dict_ok s extra : json_state s ->
  state_from_dict (VDict ((KStr "state", VDict [(SITES, VDict (strkeys (vsites (s_sites s)))); (GENERAL, VDict (s_general s))]) :: extra)) = Ok s.
Proof.
  intros (N & F & G).
  transitivity (do its' <- mapM (fun kv => do k <- int_key (fst kv); do d <- as_mapping (snd kv); Ok (k, d))
                               (strkeys (vsites (s_sites s)));
                Ok (mkS (dict_of its') (s_general s))); [reflexivity|].
  rewrite (mapM_strkeys as_mapping (vsites (s_sites s)) (s_sites s)).
  - cbn. rewrite dict_of_id by assumption. now destruct s.
  - unfold vsites. rewrite Forall_map. eapply Forall_impl; [|exact F]. cbn. tauto.
  - unfold vsites. clear. induction (s_sites s) as [|[k d] t IH]; cbn; constructor; auto.
Qed.

Lemma C06_lemma : forall s, json_state s -> state_from_dict (json_roundtrip (state_as_dict s)) = Ok s.
Proof.
  intros s J. unfold state_as_dict.
  pose proof (state_dict_roundtrip s J) as E. 
  assert (Q : json_roundtrip (VDict ((KStr "state", state_dict s) :: class_keys "pylattica.core.simulation_state" "SimulationState"))
    = VDict ((KStr "state", json_roundtrip (state_dict s)) :: class_keys "pylattica.core.simulation_state" "SimulationState")) by reflexivity.
  rewrite Q, E. now apply state_from_dict_ok.
Qed.

Lemma str_of_Z_not_GENERAL z : KStr (str_of_Z z) <> GENERAL.
Proof.
  unfold GENERAL. intros E. injection E as E. pose proof (int_of_str_of_Z z) as Q. rewrite E in Q.
  discriminate.
Qed.

Lemma format_diff_ok d : int_keyed d -> format_diff (json_roundtrip (VDict d)) = Ok (VDict d).
Proof.
  intros I. rewrite json_roundtrip_int_keyed by assumption. destruct I as [N F].
  assert (F' : Forall (fun kv => exists z, fst kv = KInt z) d) by (eapply Forall_impl; [|exact F]; cbn; tauto).
  unfold format_diff. cbn [items bind].
  assert (E : filter (fun kv => negb (eqb (fst kv) GENERAL)) (strkeys d) = strkeys d).
  { unfold strkeys. clear N F. induction d as [|[k v] t IH]; cbn [map filter]; [reflexivity|].
    inversion F' as [|? ? [z Ez] F'']; subst. cbn in Ez. subst k. cbn [fst key_string].
    rewrite eqb_neq by apply str_of_Z_not_GENERAL. cbn. f_equal. now apply IH. }
  rewrite E.
  pose proof (mapM_strkeys (fun v => Ok v) d d F') as M. cbn in M. rewrite M.
  - cbn. now rewrite dict_of_id.
  - clear. induction d; constructor; auto.
Qed.

Lemma json_roundtrip_list l : json_roundtrip (VList l) = VList (map json_roundtrip l).
Proof. unfold json_roundtrip. cbn. now rewrite map_map. Qed.

Lemma result_roundtrip_dict r :
  json_roundtrip (result_as_dict r) =
  VDict ((KStr "initial_state", json_roundtrip (state_as_dict (r_init r)))
           :: (KStr "diffs", VList (map json_roundtrip (r_diffs r)))
           :: class_keys "pylattica.core.simulation_result" "SimulationResult").
Proof. rewrite <- json_roundtrip_list. reflexivity. Qed.

Lemma result_from_dict_unfold r :
  result_from_dict (json_roundtrip (result_as_dict r)) =
  do s <- state_from_dict (json_roundtrip (state_as_dict (r_init r)));
  foldM (fun r diff => do f <- format_diff diff; Ok (add_step r f)) (map json_roundtrip (r_diffs r)) (new_result s).
Proof. rewrite result_roundtrip_dict. reflexivity. Qed.

Lemma C10_lemma : forall (r : sresult),
  json_state (r_init r) ->
  Forall (fun v => exists d, v = VDict d /\ int_keyed d) (r_diffs r) ->
  result_from_dict (json_roundtrip (result_as_dict r)) = Ok (mkR (r_init r) (r_diffs r) []).
Proof.
  intros r J F. rewrite result_from_dict_unfold, C06_lemma by assumption. cbn [bind].
  enough (Q : forall ds r0, Forall (fun v => exists d, v = VDict d /\ int_keyed d) ds ->
     foldM (fun r diff => do f <- format_diff diff; Ok (add_step r f)) (map json_roundtrip ds) r0 =
     Ok (mkR (r_init r0) (r_diffs r0 ++ ds) (r_stored r0))) by (now rewrite Q).
  induction ds as [|v t IH]; intros r0 F0; cbn [map foldM].
  - rewrite app_nil_r. now destruct r0.
  - inversion F0 as [|? ? (d & -> & I) F1]; subst. rewrite format_diff_ok by assumption. cbn [bind].
    rewrite IH by assumption. cbn. now rewrite <- app_assoc.
Qed.
