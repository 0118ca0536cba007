(** Proof for C10: exactly which recorded updates reload, and to what. *)
From Verif Require Import Prelude Dict Val ValFacts StateModel ResultModel JsonModel SpecState SpecResult SpecReload StateFacts ResultFacts JsonFacts.

Lemma str_of_Z_not_SITES z : KStr (str_of_Z z) <> SITES.
Proof.
  unfold SITES. intros E. injection E as E. pose proof (int_of_str_of_Z z) as Q. rewrite E in Q. discriminate.
Qed.

Lemma recorded_roundtrip d : uniq d -> Forall recorded_entry d ->
  json_roundtrip (VDict d) = VDict (map (fun kv => (KStr (key_string (fst kv)), json_roundtrip (snd kv))) d).
Proof.
  intros N F. unfold json_roundtrip at 1. cbn [to_json of_json]. f_equal. rewrite map_map. cbn [fst snd]. fold json_roundtrip.
  apply dict_of_id. unfold dkeys. rewrite map_map. cbn [fst].
  unfold uniq, dkeys in N. induction d as [|[k v] t IH]; cbn [map] in *; [constructor|].
  inversion N as [|? ? N1 N2]; subst. inversion F as [|? ? F1 F2]; subst. constructor; [|now apply IH].
  rewrite in_map_iff. intros ([k' v'] & E & I). apply N1. cbn [fst] in *.
  rewrite Forall_forall in F2. specialize (F2 _ I). replace k with k'; [now apply (in_map fst) in I|].
  assert (KS : forall w x, recorded_entry (w, x) -> w = SITES \/ w = GENERAL \/ exists z, w = KInt z) by (intros w x [((z & Hz) & _)|[H|H]]; cbn in *; eauto).
  pose proof (str_of_Z_not_SITES) as NS. pose proof str_of_Z_not_GENERAL as NG.
  destruct (KS _ _ F1) as [-> |[-> |(z & ->)]], (KS _ _ F2) as [-> |[-> |(z' & ->)]]; cbn [key_string SITES GENERAL] in E; try reflexivity; try discriminate;
    try (exfalso; first [eapply NS; exact E|eapply NS; symmetry; exact E|eapply NG; exact E|eapply NG; symmetry; exact E]).
  injection E as E. apply str_of_Z_inj in E. now subst.
Qed.

Lemma format_recorded d : uniq d -> Forall recorded_entry d ->
  format_diff (json_roundtrip (VDict d)) = if dmem SITES d then Err ValueError else Ok (VDict (without_general d)).
Proof.
  intros N F. rewrite recorded_roundtrip by assumption. unfold format_diff. cbn [items bind].
  assert (M : mapM (fun kv => do k <- int_key (fst kv); Ok (k, snd kv))
     (filter (fun kv => negb (eqb (fst kv) GENERAL)) (map (fun kv => (KStr (key_string (fst kv)), json_roundtrip (snd kv))) d)) =
     if dmem SITES d then Err ValueError else Ok (without_general d)).
  { clear N. induction d as [|[k v] t IH]; [reflexivity|]. inversion F as [|? ? F1 F2]; subst. specialize (IH F2).
    unfold without_general in *. cbn [map filter fst snd].
    destruct F1 as [((z & Hz) & W)|[H|H]]; cbn [fst snd] in *; subst k.
    - cbn [key_string]. rewrite eqb_neq by apply str_of_Z_not_GENERAL. cbn [negb].
      rewrite (eqb_neq (KInt z) GENERAL) by discriminate. cbn [negb mapM fst snd int_key]. rewrite int_of_str_of_Z. cbn [bind].
      rewrite IH. unfold dmem. cbn [dget]. rewrite (eqb_neq SITES (KInt z)) by discriminate. fold (dmem SITES t).
      change (match dget SITES t with Some _ => true | None => false end) with (dmem SITES t).
      destruct (dmem SITES t); cbn [bind]; [reflexivity|]. now rewrite json_roundtrip_clean.
    - cbn [key_string]. change (KStr "SITES") with SITES. reflexivity.
    - change (KStr (key_string GENERAL)) with GENERAL. rewrite eqb_refl. cbn [negb]. rewrite IH. unfold dmem. cbn [dget].
      rewrite (eqb_neq SITES GENERAL) by discriminate. reflexivity. }
  rewrite M. destruct (dmem SITES d); cbn [bind]; [reflexivity|]. rewrite dict_of_id; [reflexivity|].
  unfold without_general, uniq, dkeys in *. clear - N. induction d as [|[k v] t IH]; cbn [filter map] in *; [constructor|].
  inversion N as [|? ? N1 N2]; subst. destruct (negb (eqb (fst (k, v)) GENERAL)); [|now apply IH]. cbn [map]. constructor; [|now apply IH].
  intros I. apply N1. cbn [fst] in *. apply in_map_iff in I as ([k' v'] & E & I). apply filter_In in I as (I & _). cbn in E. subst k'. now apply (in_map fst) in I.
Qed.

Lemma C10_exactly_lemma : forall r, json_state (r_init r) -> Forall recorded (r_diffs r) ->
  (Exists (has_key SITES) (r_diffs r) -> result_from_dict (json_roundtrip (result_as_dict r)) = Err ValueError) /\
  (~ Exists (has_key SITES) (r_diffs r) ->
   exists r', result_from_dict (json_roundtrip (result_as_dict r)) = Ok r' /\ r_init r' = r_init r /\
     Forall2 (fun v v' => exists d, v = VDict d /\ v' = VDict (without_general d)) (r_diffs r) (r_diffs r')) /\
  (result_from_dict (json_roundtrip (result_as_dict r)) = Ok (mkR (r_init r) (r_diffs r) []) <->
   ~ Exists (has_key SITES) (r_diffs r) /\ ~ Exists (has_key GENERAL) (r_diffs r)).
Proof.
  intros r J F. rewrite result_from_dict_unfold, C06_lemma by assumption. cbn [bind].
  assert (HK : forall k d, has_key k (VDict d) <-> dmem k d = true).
  { intros k d. unfold has_key, dmem. split; [intros (d' & v & E & D); injection E as <-; now rewrite D|].
    destruct (dget k d) as [v|] eqn:D; [eauto|discriminate]. }
  assert (Q : forall ds r0, Forall recorded ds ->
     foldM (fun r diff => do f <- format_diff diff; Ok (add_step r f)) (map json_roundtrip ds) r0 =
     if existsb (fun v => match v with VDict d => dmem SITES d | _ => false end) ds then Err ValueError
     else Ok (mkR (r_init r0) (r_diffs r0 ++ map (fun v => match v with VDict d => VDict (without_general d) | _ => v end) ds) (r_stored r0))).
  { induction ds as [|v t IH]; intros r0 F0; cbn [map foldM existsb].
    - rewrite app_nil_r. now destruct r0.
    - inversion F0 as [|? ? (d & -> & N & FE) F1]; subst. rewrite format_recorded by assumption.
      destruct (dmem SITES d); cbn [bind orb]; [reflexivity|]. rewrite IH by assumption. unfold add_step. cbn [r_init r_diffs r_stored].
      rewrite <- app_assoc. reflexivity. }
  rewrite Q by assumption. clear Q. cbn [new_result r_init r_diffs r_stored app].
  assert (B : existsb (fun v => match v with VDict d => dmem SITES d | _ => false end) (r_diffs r) = true <-> Exists (has_key SITES) (r_diffs r)).
  { rewrite existsb_exists, Exists_exists. rewrite Forall_forall in F. split; intros (v & I & H); exists v; (split; [assumption|]).
    - destruct (F v I) as (d & -> & _). now apply HK.
    - destruct (F v I) as (d & -> & _). now apply HK. }
  destruct (existsb _ (r_diffs r)) eqn:EB.
  - split; [reflexivity|]. split; [intros NE; exfalso; apply NE, B; reflexivity|]. split; [discriminate|]. intros (NE & _). exfalso. apply NE, B. reflexivity.
  - assert (NE : ~ Exists (has_key SITES) (r_diffs r)) by (intros E; apply B in E; discriminate).
    split; [contradiction|]. split.
    + intros _. eexists. split; [reflexivity|]. split; [reflexivity|]. cbn [r_diffs]. clear - F. induction F as [|v t (d & -> & _) F IH]; cbn [map]; constructor; eauto.
    + assert (G : map (fun v => match v with VDict d => VDict (without_general d) | _ => v end) (r_diffs r) = r_diffs r <-> ~ Exists (has_key GENERAL) (r_diffs r)).
      { clear - F HK. induction F as [|v t (d & -> & N & FE) F IH]; cbn [map]; [split; [intros _ E; inversion E|reflexivity]|].
        assert (D : without_general d = d <-> dmem GENERAL d = false).
        { clear. unfold without_general, dmem. induction d as [|[k v] t IH]; cbn [filter dget fst]; [tauto|].
          destruct (eqb_spec k GENERAL) as [E|E]; cbn [negb].
          - subst k. rewrite eqb_refl. split; [|discriminate]. intros H. exfalso.
            assert (L : (length (filter (fun kv => negb (eqb (fst kv) GENERAL)) t) <= length t)%nat) by (clear; induction t as [|x t IH]; cbn; [lia|]; destruct (negb _); cbn; lia).
            rewrite H in L. cbn in L. lia.
          - assert (E' : eqb GENERAL k = false) by (apply eqb_neq; congruence). rewrite E'. rewrite <- IH. split; [intros H; injection H; auto|intros H; now rewrite H]. }
        split.
        - intros H EX. injection H as H1 H2. apply D in H1. inversion EX as [? ? HG|? ? HG]; subst.
          + apply HK in HG. congruence.
          + apply IH in H2. contradiction.
        - intros NX. rewrite (proj2 D), (proj2 IH); [reflexivity| |].
          + intros E. apply NX. now apply Exists_cons_tl.
          + destruct (dmem GENERAL d) eqn:E; auto. exfalso. apply NX, Exists_cons_hd, HK. assumption. }
      split.
      * intros E. injection E as E. split; [assumption|]. now apply G.
      * intros (_ & NG). f_equal. f_equal. now apply G.
Qed.
