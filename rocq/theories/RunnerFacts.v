(** Lemmas about merging updates and about the asynchronous and serial runners. *)
From Verif Require Import Prelude Dict Val ValFacts StateModel ResultModel RunnerModel SpecState SpecResult SpecRunner StateFacts ResultFacts.
From Coq Require Import Permutation.

(** ** merge_updates *)
Definition canon (o : option (pdict * pdict)) : val :=
  match o with None => VNone | Some (a, b) => full_update a b end.
Definition csites (o : option (pdict * pdict)) : pdict := match o with None => [] | Some (a, _) => a end.
Definition cgen (o : option (pdict * pdict)) : pdict := match o with None => [] | Some (_, b) => b end.

Lemma all_int_keys_spec u : all_int_keys u = true <-> site_map u.
Proof.
  unfold all_int_keys, site_map. destruct u as [|kv t]; [split; [discriminate|tauto]|].
  rewrite forallb_forall. split.
  - intros F. split; [discriminate|]. intros k I. unfold dkeys in I. apply in_map_iff in I as (kv' & <- & I).
    specialize (F kv' I). destruct (fst kv') as [z|s]; [eauto|discriminate].
  - intros [_ F] kv' I. destruct (F (fst kv')) as [z E]; [now apply in_map|]. now rewrite E.
Qed.
Lemma all_int_keys_false u : all_int_keys u = false <-> ~ site_map u.
Proof. rewrite <- all_int_keys_spec. destruct (all_int_keys u); split; congruence. Qed.

Lemma reserved_spec u : (dmem SITES u || dmem GENERAL u)%bool = true <-> ~ no_reserved u.
Proof.
  unfold no_reserved, dmem. destruct (dget SITES u), (dget GENERAL u); cbn; split; try tauto; try discriminate;
  intros _ [A B]; discriminate.
Qed.

Lemma update_in_sites S G d : update_in SITES d [(SITES, VDict S); (GENERAL, VDict G)] =
  Ok [(SITES, VDict (dmerge S d)); (GENERAL, VDict G)].
Proof. reflexivity. Qed.
Lemma update_in_general S G d : update_in GENERAL d [(SITES, VDict S); (GENERAL, VDict G)] =
  Ok [(SITES, VDict S); (GENERAL, VDict (dmerge G d))].
Proof. reflexivity. Qed.

Lemma upd_arg_Ok o d : upd_arg o = Ok d <-> (o = Some (VDict d) \/ o = None /\ d = []).
Proof.
  destruct o as [[]|]; cbn; split; try discriminate; try (intros [E|[E ?]]; discriminate).
  - intros E; injection E as ->; auto.
  - intros [E|[E _]]; [congruence|discriminate].
  - intros E; injection E as <-; auto.
  - intros [E|[_ ->]]; [discriminate|reflexivity].
Qed.

(** Merging an answer into a normal-form update, and what success implies. *)
Lemma merge_dict_means u o id r :
  merge_updates (VDict u) (canon o) (Some id) = Ok r ->
  exists S G, means id (VDict u) S G /\ r = full_update (dmerge (csites o) S) (dmerge (cgen o) G).
Proof.
  intros E. unfold merge_updates in E.
  assert (Q : (match canon o with VNone => Ok [(SITES, VDict []); (GENERAL, VDict [])] | VDict c => Ok c | _ => Err TypeError end)
              = Ok [(SITES, VDict (csites o)); (GENERAL, VDict (cgen o))]) by (destruct o as [[S G]|]; reflexivity).
  rewrite Q in E. cbn [bind] in E. clear Q.
  destruct (dmem SITES u || dmem GENERAL u)%bool eqn:R.
  - apply reserved_spec in R. apply bind_Ok in E as (ns & E1 & E). rewrite update_in_sites in E. cbn [bind] in E.
    apply bind_Ok in E as (ng & E2 & E). rewrite update_in_general in E. cbn [bind] in E. injection E as <-.
    apply upd_arg_Ok in E1. apply upd_arg_Ok in E2.
    exists ns, ng. split; [|reflexivity]. now apply means_full.
  - assert (NR : no_reserved u).
    { unfold no_reserved, dmem in *. destruct (dget SITES u), (dget GENERAL u); try discriminate. auto. }
    destruct (all_int_keys u) eqn:A.
    + rewrite update_in_sites in E. cbn [bind] in E. injection E as <-.
      apply all_int_keys_spec in A. exists u, []. split; [now constructor|reflexivity].
    + rewrite update_in_sites in E. cbn [bind] in E. injection E as <-.
      apply all_int_keys_false in A. exists [(id, VDict u)], []. split; [now constructor|reflexivity].
Qed.

Lemma merge_means_dict u S G o id : means id (VDict u) S G ->
  merge_updates (VDict u) (canon o) (Some id) = Ok (full_update (dmerge (csites o) S) (dmerge (cgen o) G)).
Proof.
  intros M. unfold merge_updates.
  assert (Q : (match canon o with VNone => Ok [(SITES, VDict []); (GENERAL, VDict [])] | VDict c => Ok c | _ => Err TypeError end)
              = Ok [(SITES, VDict (csites o)); (GENERAL, VDict (cgen o))]) by (destruct o as [[? ?]|]; reflexivity).
  rewrite Q. cbn [bind]. clear Q.
  inversion M as [|u' N1 N2|u' N1 N2|b S' G' E1 E2 R]; subst.
  - destruct N1 as [N1 N1']. unfold dmem. rewrite N1, N1'. cbn [orb].
    apply all_int_keys_false in N2. now rewrite N2.
  - destruct N1 as [N1 N1']. unfold dmem. rewrite N1, N1'. cbn [orb].
    apply all_int_keys_spec in N2. now rewrite N2.
  - apply reserved_spec in R. rewrite R. apply upd_arg_Ok in E1. apply upd_arg_Ok in E2.
    rewrite E1. cbn [bind]. rewrite update_in_sites. cbn [bind]. rewrite E2. cbn [bind].
    rewrite update_in_general. reflexivity.
Qed.

Lemma merge_Ok_cases v o id r : merge_updates v (canon o) (Some id) = Ok r ->
  (v = VNone /\ r = canon o) \/
  (exists S G, v <> VNone /\ means id v S G /\ r = canon (Some (dmerge (csites o) S, dmerge (cgen o) G))).
Proof.
  destruct v as [| | | | | | |u]; intros E; try discriminate.
  - left. cbn in E. injection E as <-. auto.
  - right. apply merge_dict_means in E as (S & G & M & ->). exists S, G. split; [discriminate|]. auto.
Qed.

Lemma means_fun id v S G S' G' : means id v S G -> means id v S' G' -> S = S' /\ G = G'.
Proof.
  intros M M'. destruct v as [| | | | | | |u]; try (inversion M; fail).
  - inversion M; inversion M'; subst; auto.
  - inversion M as [|? N1 N2|? N1 N2|b1 S1 G1 E1 E2 R]; inversion M' as [|? N1' N2'|? N1' N2'|b1' S1' G1' E1' E2' R']; subst;
    try (exfalso; tauto); auto.
    split.
    + destruct E1 as [E1|[E1 ->]], E1' as [E1'|[E1' ->]]; congruence.
    + destruct E2 as [E2|[E2 ->]], E2' as [E2'|[E2' ->]]; congruence.
Qed.

(** ** Applying a normal-form update *)
Lemma vdicts_vsites (S : pdict) : (forall i v, In (i, v) S -> exists u, v = VDict u) -> exists sites, S = vsites sites.
Proof.
  induction S as [|[i v] t IH]; intros F; [now exists []|].
  destruct (F i v) as [u ->]; [now left|]. destruct IH as [sites ->]; [intros j w J; apply (F j w); now right|].
  exists ((i, u) :: sites). reflexivity.
Qed.

Lemma set_sites_Ok s S s' : set_sites s S = Ok s' -> exists sites, S = vsites sites /\ s' = set_sites_t s sites.
Proof.
  unfold set_sites. revert s. induction S as [|[i v] t IH]; intros s E; cbn in E.
  - injection E as <-. now exists [].
  - destruct v as [| | | | | | |u]; try discriminate. cbn in E.
    destruct (IH _ E) as (sites & -> & ->). exists ((i, u) :: sites). split; reflexivity.
Qed.

Lemma batch_full_update s S G : batch_update s (full_update S G) =
  do s1 <- set_sites s S; Ok (set_general_state s1 G).
Proof. reflexivity. Qed.

Lemma batch_full_Ok s S G s' : batch_update s (full_update S G) = Ok s' ->
  exists sites, S = vsites sites /\ s' = set_general_state (set_sites_t s sites) G.
Proof.
  rewrite batch_full_update. intros E. apply bind_Ok in E as (s1 & E1 & E). injection E as <-.
  apply set_sites_Ok in E1 as (sites & -> & ->). eauto.
Qed.

Lemma uniq_vsites sites : uniq (vsites sites) <-> uniq sites.
Proof. unfold uniq. now rewrite dkeys_vsites. Qed.
Lemma In_vsites i v sites : In (i, v) (vsites sites) <-> exists u, v = VDict u /\ In (i, u) sites.
Proof.
  unfold vsites. rewrite in_map_iff. split.
  - intros ([j u] & E & I). cbn in E. injection E as <- <-. eauto.
  - intros (u & -> & I). exists (i, u). auto.
Qed.

Lemma batch_full_updated s S G s' :
  uniq S -> uniq G -> (forall i w, In (i, w) S -> forall u, w = VDict u -> uniq u) ->
  batch_update s (full_update S G) = Ok s' -> updated s S G s'.
Proof.
  intros US UG U E. apply batch_full_Ok in E as (sites & -> & ->).
  rewrite uniq_vsites in US.
  assert (U' : forall i u, In (i, u) sites -> uniq u).
  { intros i u I. apply (U i (VDict u)); [|reflexivity]. apply In_vsites. eauto. }
  split; [|split].
  - intros i k. pose proof (site_entry_set_sites_t s sites i k US U') as E.
    unfold site_entry in *. rewrite get_site_set_general, E, dget_vsites. now destruct (dget i sites).
  - intros i N. rewrite dkeys_vsites in N. exact (get_set_sites_t_notin s sites i N).
  - intros k. rewrite general_entry_set by assumption. unfold general_entry. now rewrite set_sites_t_general.
Qed.

(** ** The asynchronous loop *)
Section Async.
  Context {C : Type} (ctl : controller C).

  (** What one recorded step did. *)
  Record event : Type := mkE {
    e_site : key;           (* the site visited *)
    e_next : list key;      (* sites requested by the answer *)
    e_rand : list key       (* sites obtained from get_random_site after the step *)
  }.

  (** One step, spelled out. *)
  Definition stepped (a : astate (C:=C)) (e : event) (d : val) (a' : astate (C:=C)) : Prop :=
    exists q1 resp c1 ups nx S G,
      a_queue a = e_site e :: q1 /\
      c_update ctl (a_ctl a) (e_site e) (a_live a) = Ok (resp, c1) /\
      split_response resp = Ok (ups, nx) /\
      ups <> VNone /\
      means (e_site e) ups S G /\
      d = full_update (dmerge [] S) (dmerge [] G) /\
      batch_update (a_live a) d = Ok (a_live a') /\
      extend_arg nx = Ok (e_next e) /\
      a_diffs a' = a_diffs a ++ [d] /\
      ((q1 ++ e_next e <> [] /\ e_rand e = [] /\ a_queue a' = q1 ++ e_next e /\ a_ctl a' = c1) \/
       (q1 ++ e_next e = [] /\ a_queue a' = e_rand e /\
        add_sites ctl (a_live a') [] c1 = Ok (e_rand e, a_ctl a'))).

  Lemma async_step_stepped a a' : async_step ctl a = Ok a' -> exists e d, stepped a e d a'.
  Proof.
    unfold async_step. destruct (a_queue a) as [|site q1] eqn:Q; [discriminate|]. intros E.
    apply bind_Ok in E as ([resp c1] & E1 & E). apply bind_Ok in E as ([ups nx] & E2 & E).
    apply bind_Ok in E as (su & E3 & E). apply bind_Ok in E as (live' & E4 & E).
    apply bind_Ok in E as (ks & E5 & E).
    destruct (merge_Ok_cases ups None site su E3) as [[-> ->]|(S & G & NN & M & ->)]; [discriminate|].
    change (canon (Some (dmerge (csites None) S, dmerge (cgen None) G))) with (full_update (dmerge [] S) (dmerge [] G)) in *.
    destruct (q1 ++ ks) as [|k0 q2] eqn:Q2.
    - apply bind_Ok in E as ([q3 c2] & E6 & E). injection E as <-.
      exists (mkE site ks q3), (full_update (dmerge [] S) (dmerge [] G)).
      exists q1, resp, c1, ups, nx, S, G. cbn. rewrite Q2. intuition auto.
    - injection E as <-.
      exists (mkE site ks []), (full_update (dmerge [] S) (dmerge [] G)).
      exists q1, resp, c1, ups, nx, S, G. cbn. rewrite Q2. intuition (auto; discriminate).
  Qed.

  (** Chains of steps. *)
  Inductive chain : astate (C:=C) -> list event -> list val -> astate (C:=C) -> Prop :=
  | chain_nil a : chain a [] [] a
  | chain_cons a e d a1 es ds a2 : stepped a e d a1 -> chain a1 es ds a2 -> chain a (e :: es) (d :: ds) a2.

  Lemma chain_diffs a es ds a' : chain a es ds a' -> a_diffs a' = a_diffs a ++ ds /\ length es = length ds.
  Proof.
    induction 1 as [a|a e d a1 es ds a2 St Ch [IH1 IH2]]; [now rewrite app_nil_r|].
    split; [|cbn; congruence]. rewrite IH1. destruct St as (q1 & resp & c1 & ups & nx & S & G & St).
    destruct St as (_ & _ & _ & _ & _ & _ & _ & _ & -> & _). now rewrite <- app_assoc.
  Qed.
  Lemma chain_replay a es ds a' : chain a es ds a' -> foldM batch_update ds (a_live a) = Ok (a_live a').
  Proof.
    induction 1 as [a|a e d a1 es ds a2 St Ch IH]; [reflexivity|].
    destruct St as (q1 & resp & c1 & ups & nx & S & G & St). destruct St as (_ & _ & _ & _ & _ & _ & B & _).
    cbn. rewrite B. exact IH.
  Qed.
  Lemma chain_split a es ds a' t e d : chain a es ds a' ->
    nth_error es t = Some e -> nth_error ds t = Some d ->
    exists a1 a2, chain a (firstn t es) (firstn t ds) a1 /\ stepped a1 e d a2.
  Proof.
    intros Ch. revert t. induction Ch as [a|a e0 d0 a1 es ds a2 St Ch IH]; intros [|t] E1 E2; cbn in *; try discriminate.
    - injection E1 as ->. injection E2 as ->. exists a, a1. split; [constructor|assumption].
    - destruct (IH t E1 E2) as (b1 & b2 & H1 & H2). exists b1, b2. split; [|assumption].
      econstructor; eassumption.
  Qed.

  Lemma async_loop_chain n a a' : async_loop ctl n a = Ok a' ->
    exists es ds, chain a es ds a' /\ (length ds <= n)%nat /\
      (length ds < n -> a_queue a' = [])%nat.
  Proof.
    revert a. induction n as [|n IH]; intros a E; cbn in E.
    - injection E as <-. exists [], []. split; [constructor|]. cbn. lia.
    - apply bind_Ok in E as (a1 & E1 & E). apply async_step_stepped in E1 as (e & d & St).
      destruct (a_queue a1) eqn:Q.
      + injection E as <-. exists [e], [d]. split; [econstructor; [eassumption|constructor]|]. cbn. split; [lia|auto].
      + apply IH in E as (es & ds & Ch & L1 & L2). exists (e :: es), (d :: ds).
        split; [econstructor; eassumption|]. cbn. split; [lia|]. intros. apply L2. lia.
  Qed.

  (** First-in first-out: visited sites plus the final queue are all requests in order. *)
  Definition ev_requests (e : event) : list key := e_next e ++ e_rand e.
  Lemma chain_fifo a es ds a' : chain a es ds a' ->
    map e_site es ++ a_queue a' = a_queue a ++ flat_map ev_requests es.
  Proof.
    induction 1 as [a|a e d a1 es ds a2 St Ch IH]; cbn; [now rewrite app_nil_r|].
    rewrite IH. destruct St as (q1 & resp & c1 & ups & nx & S & G & Q & _ & _ & _ & _ & _ & _ & _ & _ & D).
    rewrite Q. unfold ev_requests at 2. cbn. f_equal.
    destruct D as [(_ & R & Q' & _)|(N & Q' & _)].
    - rewrite Q', R, app_nil_r. now rewrite <- !app_assoc.
    - rewrite Q'. apply app_eq_nil in N as [-> ->]. cbn. reflexivity.
  Qed.

  Lemma run_async_Ok c0 init n o : run_async ctl c0 init n = Ok o ->
    exists c1 q c2 es ds a,
      c_pre_run ctl c0 init = Ok c1 /\ add_sites ctl init [] c1 = Ok (q, c2) /\ q <> [] /\
      chain (mkA init [] q c2) es ds a /\ (length ds <= Z.to_nat n)%nat /\
      ((length ds < Z.to_nat n)%nat -> a_queue a = []) /\
      o_result o = mkR init ds [] /\ o_output o = a_live a.
  Proof.
    unfold run_async. intros E. apply bind_Ok in E as (c1 & E1 & E). apply bind_Ok in E as ([q c2] & E2 & E).
    destruct q as [|k q]; [discriminate|]. apply bind_Ok in E as (a & E3 & E). injection E as <-.
    apply async_loop_chain in E3 as (es & ds & Ch & L1 & L2).
    exists c1, (k :: q), c2, es, ds, a. repeat split; auto; try discriminate.
    cbn. destruct (chain_diffs _ _ _ _ Ch) as [D _]. cbn in D. now rewrite D.
  Qed.
End Async.

Lemma get_step_fresh init ds n : (n <= length ds)%nat -> get_step (mkR init ds []) (Z.of_nat n) = replay init ds n.
Proof. intros L. apply (get_step_replay (mkR init ds [])); [|exact L]. intros i s E. discriminate. Qed.

Lemma replay_all init ds : replay init ds (length ds) = foldM batch_update ds init.
Proof. unfold replay. now rewrite firstn_all. Qed.

Lemma means_dmerge_nil id v S G : uniq S -> uniq G -> means id v S G -> dmerge [] S = S /\ dmerge [] G = G.
Proof. intros US UG _. split; apply (dict_of_id (V:=val)); assumption. Qed.

Lemma split_answer resp ups nx : split_response resp = Ok (ups, nx) <-> answer_of resp ups nx.
Proof.
  unfold answer_of. split.
  - intros Sp. unfold split_response in Sp.
    destruct resp as [| | | | | |l|]; try (injection Sp as <- <-; right; repeat split; congruence).
    destruct l as [|x [|y [|z l]]]; try discriminate. injection Sp as <- <-. now left.
  - intros [->|(-> & -> & N)]; [reflexivity|]. destruct ups; try reflexivity. exfalso. eapply N. reflexivity.
Qed.

(** C12 *)
Lemma C12_lemma : forall (C : Type) (ctl : controller C) (c0 : C) (init : sstate) (n : Z) o,
  proper ctl ->
  run_async ctl c0 init n = Ok o ->
  get_step (o_result o) 0 = Ok init /\
  last_step (o_result o) = Ok (o_output o) /\
  forall t, 0 <= t < rlen (o_result o) - 1 ->
    exists s s' c c' site resp ups nx S G,
      get_step (o_result o) t = Ok s /\ get_step (o_result o) (t + 1) = Ok s' /\
      c_update ctl c site s = Ok (resp, c') /\
      answer_of resp ups nx /\ means site ups S G /\ updated s S G s'.
Proof.
  intros C ctl c0 init n o P R. apply run_async_Ok in R as (c1 & q & c2 & es & ds & a & E1 & E2 & NQ & Ch & L1 & L2 & Er & Eo).
  rewrite Er, Eo. pose proof (chain_replay _ _ _ _ _ Ch) as RP. cbn in RP.
  destruct (chain_diffs _ _ _ _ _ Ch) as [_ Len].
  split; [|split].
  - change 0 with (Z.of_nat 0). rewrite get_step_fresh by lia. reflexivity.
  - unfold last_step, rlen. cbn [r_diffs]. replace (Z.of_nat (length ds) + 1 - 1) with (Z.of_nat (length ds)) by lia.
    rewrite get_step_fresh by lia. now rewrite replay_all.
  - intros t Rt. unfold rlen in Rt. cbn [r_diffs] in Rt.
    assert (Ht : exists m, t = Z.of_nat m) by (exists (Z.to_nat t); lia). destruct Ht as [m ->].
    destruct (nth_error ds m) as [d|] eqn:Ed; [|apply nth_error_None in Ed; lia].
    destruct (nth_error es m) as [e|] eqn:Ee; [|apply nth_error_None in Ee; lia].
    destruct (chain_split _ _ _ _ _ _ _ _ Ch Ee Ed) as (a1 & a2 & Ch1 & St).
    pose proof (chain_replay _ _ _ _ _ Ch1) as RP1. cbn in RP1.
    assert (G1 : get_step (mkR init ds []) (Z.of_nat m) = Ok (a_live a1)) by (rewrite get_step_fresh by lia; exact RP1).
    destruct St as (q1 & resp & c1' & ups & nx & S & G & Q & U & Sp & NN & M & D & B & X & _).
    assert (G2 : get_step (mkR init ds []) (Z.of_nat m + 1) = Ok (a_live a2)).
    { replace (Z.of_nat m + 1) with (Z.of_nat (Datatypes.S m)) by lia. rewrite get_step_fresh by lia.
      rewrite (replay_S _ _ _ _ Ed). unfold replay. rewrite RP1. exact B. }
    exists (a_live a1), (a_live a2), (a_ctl a1), c1', (e_site e), resp, ups, nx, S, G.
    split; [exact G1|]. split; [exact G2|]. split; [exact U|]. split; [|split; [exact M|]].
    + now apply split_answer.
    + apply split_answer in Sp. destruct (P _ _ _ _ _ _ _ _ _ U Sp M) as (US & UG & UU).
      destruct (means_dmerge_nil _ _ _ _ US UG M) as [EqS EqG]. rewrite EqS, EqG in D. subst d.
      now apply batch_full_updated.
Qed.

(** C13 *)
Lemma C13_lemma : forall (C : Type) (ctl : controller C) (c0 : C) (init : sstate) (n : Z) o,
  run_async ctl c0 init n = Ok o ->
  exists c1 q c2 (evs : list (key * list key * list key)) rest,
    c_pre_run ctl c0 init = Ok c1 /\ add_sites ctl init [] c1 = Ok (q, c2) /\ q <> [] /\
    (* one event per recorded step; visited sites are the requests, first come first served *)
    Z.of_nat (length evs) = rlen (o_result o) - 1 /\
    map (fun e => fst (fst e)) evs ++ rest = q ++ flat_map (fun e => snd (fst e) ++ snd e) evs /\
    (* each event is a rule application at that site, on that step's state *)
    (forall t e, nth_error evs t = Some e ->
       exists s c c' resp ups nx, get_step (o_result o) (Z.of_nat t) = Ok s /\
         c_update ctl c (fst (fst e)) s = Ok (resp, c') /\ split_response resp = Ok (ups, nx) /\
         extend_arg nx = Ok (snd (fst e)) /\
         (snd e <> [] -> exists s' c'' , get_step (o_result o) (Z.of_nat t + 1) = Ok s' /\
                           add_sites ctl s' [] c' = Ok (snd e, c''))) /\
    (* the number of steps is as requested unless no site is left *)
    rlen (o_result o) - 1 <= Z.max 0 n /\
    (rlen (o_result o) - 1 < n -> rest = []).
Proof.
  intros C ctl c0 init n o R. apply run_async_Ok in R as (c1 & q & c2 & es & ds & a & E1 & E2 & NQ & Ch & L1 & L2 & Er & Eo).
  destruct (chain_diffs _ _ _ _ _ Ch) as [_ Len].
  exists c1, q, c2, (map (fun e => (e_site e, e_next e, e_rand e)) es), (a_queue a).
  rewrite Er. unfold rlen. cbn [r_diffs].
  split; [exact E1|]. split; [exact E2|]. split; [exact NQ|]. split; [rewrite map_length; lia|].
  split; [|split; [|split]].
  - pose proof (chain_fifo _ _ _ _ _ Ch) as F. cbn in F. rewrite map_map.
    rewrite flat_map_concat_map, map_map. cbn [fst snd]. rewrite flat_map_concat_map in F. exact F.
  - intros t e Ht. rewrite nth_error_map in Ht. destruct (nth_error es t) as [e0|] eqn:Ee; [|discriminate].
    cbn in Ht. injection Ht as <-. cbn [fst snd].
    assert (t < length es)%nat by (apply nth_error_Some; congruence).
    destruct (nth_error ds t) as [d|] eqn:Ed; [|apply nth_error_None in Ed; lia].
    destruct (chain_split _ _ _ _ _ _ _ _ Ch Ee Ed) as (a1 & a2 & Ch1 & St).
    pose proof (chain_replay _ _ _ _ _ Ch1) as RP1. cbn in RP1.
    destruct St as (q1 & resp & c1' & ups & nx & S & G & Q & U & Sp & NN & M & D & B & X & _ & RR).
    exists (a_live a1), (a_ctl a1), c1', resp, ups, nx.
    split; [rewrite get_step_fresh by lia; exact RP1|]. split; [exact U|]. split; [exact Sp|]. split; [exact X|].
    intros NE. destruct RR as [(_ & R & _)|(_ & Q' & AS)]; [congruence|].
    exists (a_live a2), (a_ctl a2). split; [|exact AS].
    replace (Z.of_nat t + 1) with (Z.of_nat (Datatypes.S t)) by lia. rewrite get_step_fresh by lia.
    rewrite (replay_S _ _ _ _ Ed). unfold replay. rewrite RP1. exact B.
  - lia.
  - intros L. apply L2. lia.
Qed.

Lemma C13_no_site_lemma : forall (C : Type) (ctl : controller C) (c0 c1 c2 : C) (init : sstate) (n : Z),
  c_pre_run ctl c0 init = Ok c1 -> add_sites ctl init [] c1 = Ok ([], c2) ->
  run_async ctl c0 init n = Err RuntimeError.
Proof. intros C ctl c0 c1 c2 init n E1 E2. unfold run_async. rewrite E1. cbn [bind]. rewrite E2. reflexivity. Qed.

(** C14 *)
Lemma C14_lemma : forall (C : Type) (ctl : controller C) (c0 : C) (init : sstate) (n : Z) o (A : Type) (Q : sstate -> A),
  run_async ctl c0 init n = Ok o ->
  (forall c site s resp c' ups nx u s',
     c_update ctl c site s = Ok (resp, c') -> split_response resp = Ok (ups, nx) ->
     merge_updates ups VNone (Some site) = Ok u -> batch_update s u = Ok s' -> Q s' = Q s) ->
  forall t s, 0 <= t < rlen (o_result o) -> get_step (o_result o) t = Ok s -> Q s = Q init.
Proof.
  intros C ctl c0 init n o A Q R Cons. apply run_async_Ok in R as (c1 & q & c2 & es & ds & a & E1 & E2 & NQ & Ch & L1 & L2 & Er & Eo).
  rewrite Er. unfold rlen. cbn [r_diffs].
  destruct (chain_diffs _ _ _ _ _ Ch) as [_ Len].
  assert (K : forall m, (m <= length ds)%nat -> forall s, replay init ds m = Ok s -> Q s = Q init).
  { induction m as [|m IH]; intros L s Hs.
    - cbn in Hs. injection Hs as <-. reflexivity.
    - destruct (nth_error ds m) as [d|] eqn:Ed; [|apply nth_error_None in Ed; lia].
      destruct (nth_error es m) as [e|] eqn:Ee; [|apply nth_error_None in Ee; lia].
      destruct (chain_split _ _ _ _ _ _ _ _ Ch Ee Ed) as (a1 & a2 & Ch1 & St).
      pose proof (chain_replay _ _ _ _ _ Ch1) as RP1. cbn in RP1.
      assert (RP : replay init ds m = Ok (a_live a1)) by exact RP1.
      rewrite (replay_S _ _ _ _ Ed), RP in Hs. cbn [bind] in Hs.
      rewrite <- (IH ltac:(lia) _ RP).
      destruct St as (q1 & resp & c1' & ups & nx & S & G & Qu & U & Sp & NN & M & D & B & X & _).
      eapply Cons; try eassumption.
      rewrite D. destruct ups as [| | | | | | |u]; try (inversion M; fail); [congruence|].
      exact (merge_means_dict u S G None _ M). }
  intros t s Rt Hs. assert (Ht : exists m, t = Z.of_nat m) by (exists (Z.to_nat t); lia). destruct Ht as [m ->].
  rewrite get_step_fresh in Hs by lia. eapply K; [|exact Hs]. lia.
Qed.
