(** Whatever a motif builder returns is exact, in every arithmetic (C39). *)
From Verif Require Import Prelude Dict Arith LatticeModel JsonModel StructModel NbModel SpecGeom SpecNb StructFacts NbFacts.
Local Open Scope Z_scope.

Section Built.
  Context {F : Type} (A : arith F).

  Lemma add_edge_inv (g g' : graph F) a b w : g_add_edge g a b w = Ok g' ->
    (exists j, b = Some j /\ 0 <= j < Z.of_nat (length (g_nodes g))) /\ g_nodes g' = g_nodes g.
  Proof.
    unfold g_add_edge. destruct b as [j|]; [|discriminate].
    destruct ((0 <=? a) && (a <? Z.of_nat (length (g_nodes g))) && (0 <=? j) && (j <? Z.of_nat (length (g_nodes g)))) eqn:E; [|discriminate].
    intros [= <-]. split; auto. exists j. split; auto. lia.
  Qed.
  Lemma add_edges_inv cur nbs : forall g g' : graph F, foldM (fun g nw => g_add_edge g cur (fst nw) (snd nw)) nbs g = Ok g' ->
    Forall (fun x : option Z * option F => exists j, fst x = Some j /\ 0 <= j < Z.of_nat (length (g_nodes g))) nbs /\ g_nodes g' = g_nodes g.
  Proof.
    induction nbs as [|x nbs IH]; intros g g' E; cbn [foldM] in E; [injection E as <-; split; auto|].
    destruct (g_add_edge g cur (fst x) (snd x)) as [g1|e] eqn:E1; cbn [bind] in E; [|discriminate].
    apply add_edge_inv in E1 as [H1 N1]. apply IH in E as [H2 N2]. rewrite N1 in H2. split; [constructor; auto|congruence].
  Qed.

  Lemma graph_inv b s cls g : get_graph A b s cls = Ok g ->
    forall cur, In cur (sites s cls) -> exists nbs, get_neighbors A b s cur = Ok nbs /\
      Forall (fun x => exists j, fst x = Some j /\ 0 <= j < Z.of_nat (length (sites s None))) nbs.
  Proof.
    unfold get_graph. cbv zeta. destruct (add_nodes (sites s None) g_empty eq_refl) as [N0 _]. set (g0 := fold_left _ _ _) in *.
    assert (M0 : length (g_nodes g0) = length (sites s None)) by (rewrite N0; simpl; now rewrite map_length). clearbody g0. clear N0.
    revert g0 M0. generalize (sites s cls) as l. induction l as [|x l IH]; intros g0 M0 E cur Hc; [contradiction|]. cbn [foldM] in E.
    destruct (get_neighbors A b s x) as [nbs|e] eqn:En; cbn [bind] in E; [|discriminate].
    destruct (foldM (fun g nw => g_add_edge g (s_id x) (fst nw) (snd nw)) nbs g0) as [g1|e] eqn:E1; cbn [bind] in E; [|discriminate].
    apply add_edges_inv in E1 as [H1 N1]. rewrite M0 in H1. destruct Hc as [<-|Hc]; [eauto|]. apply (IH g1); auto. congruence.
  Qed.

  Lemma motif_neighbors_inv motif d s cur ys : motif_neighbors A motif d s cur = Ok ys ->
    forall o x, In (o, x) ys <-> exists v, In v motif /\ id_at A s (zipwith (a_add A) (s_loc cur) v) = Ok o /\
      is_other o (s_id cur) = true /\ x = get_dist A d v.
  Proof.
    unfold motif_neighbors.
    assert (G : forall acc, foldM (fun nbs vec => do nb_id <- id_at A s (zipwith (a_add A) (s_loc cur) vec);
        Ok (if is_other nb_id (s_id cur) then nbs ++ [(nb_id, get_dist A d vec)] else nbs)) motif acc = Ok ys ->
      forall o x, In (o, x) ys <-> In (o, x) acc \/ exists v, In v motif /\ id_at A s (zipwith (a_add A) (s_loc cur) v) = Ok o /\
        is_other o (s_id cur) = true /\ x = get_dist A d v).
    { induction motif as [|v motif IH]; intros acc E o x; cbn [foldM] in E.
      - injection E as <-. split; auto. intros [H|(? & [] & _)]; auto.
      - destruct (id_at A s (zipwith (a_add A) (s_loc cur) v)) as [o1|e] eqn:E1; cbn [bind] in E; [|discriminate].
        rewrite (IH _ E o x). destruct (is_other o1 (s_id cur)) eqn:IO.
        + rewrite in_app_iff. split.
          * intros [[H|[H|[]]]|(u & Hu & R)]; auto; [injection H as <- <-; right; exists v; simpl; auto|right; exists u; simpl; auto].
          * intros [H|(u & [<-|Hu] & R)]; auto; [left; right; left; destruct R as (R1 & _ & ->); congruence|right; exists u; auto].
        + split.
          * intros [H|(u & Hu & R)]; auto. right. exists u. simpl; auto.
          * intros [H|(u & [<-|Hu] & R)]; auto; [destruct R as (R1 & R2 & _); congruence|right; exists u; auto]. }
    intros E o x. rewrite (G [] E). simpl. tauto.
  Qed.
End Built.

Lemma C39_built_lemma : forall F (A : arith F) L s motif b cls N, built A L s -> motif_builder A motif = Ok b -> nb_get A b s cls = Ok N ->
  forall i x, get_site s i = Some x -> in_class cls (s_class x) ->
    neighbours N i (fun j => j <> i /\ exists v, In v motif /\ id_at A s (zipwith (a_add A) (s_loc x) v) = Ok (Some j)) /\
    (forall v, In v motif -> exists j, id_at A s (zipwith (a_add A) (s_loc x) v) = Ok (Some j)).
Proof.
  intros F A L s motif b cls N HB Eb EN i x G C. unfold motif_builder in Eb.
  destruct (find_distances A (euclidean_distance A) motif) as [d|e]; cbn [bind] in Eb; [|discriminate]. injection Eb as <-.
  cbn [nb_get] in EN. destruct (get_graph A (BMotif motif d) s cls) as [g|e] eqn:Eg; cbn [bind] in EN; [|discriminate]. injection EN as <-.
  pose proof (built_dense A L s HB) as DS. pose proof (graph_inv A _ s cls g Eg) as GI.
  destruct (graph_of A (BMotif motif d) s cls DS GI) as (g' & Eg' & H1 & _). rewrite Eg in Eg'. injection Eg' as <-.
  destruct (built_inv A L s HB) as [h I]. pose proof G as G'. apply (inv_get_site A L h s) in G' as [Hx Eid]; auto.
  assert (Hc : In x (sites s cls)).
  { destruct cls as [c|]; auto. apply sites_class. split; auto. }
  destruct (H1 x Hc) as (ys & E & O). cbn [get_neighbors] in E. pose proof (motif_neighbors_inv A motif d s x _ E) as IY. rewrite Eid in *.
  split.
  - apply graph_neighbours. intros j. rewrite O, map_rev, <- in_rev.
    assert (M : In j (map fst ys) <-> exists w, In (Some j, w) (map (fun y : Z * option F => (Some (fst y), snd y)) ys)).
    { split.
      - intros Hk. apply in_map_iff in Hk as ([k' w] & <- & Hk). exists w. apply in_map_iff. exists (k', w). auto.
      - intros (w & Hw). apply in_map_iff in Hw as ([k' w'] & Ew & Hk). injection Ew as <- <-. apply in_map_iff. exists (k', w'). auto. }
    rewrite M. split.
    + intros (Nj & v & Hv & Eo). exists (get_dist A d v). apply IY. exists v. split; [exact Hv|]. split; [exact Eo|]. split; [|reflexivity]. cbn [is_other]. lia.
    + intros (w & Hw). apply IY in Hw as (v & Hv & Eo & IO & _). cbn [is_other] in IO. split; [lia|]. eauto.
  - intros v Hv. destruct (GI x Hc) as (nbs & En & FN). cbn [get_neighbors] in En. rewrite E in En. injection En as <-.
    rewrite Forall_forall in FN.
    assert (T : exists o, id_at A s (zipwith (a_add A) (s_loc x) v) = Ok o).
    { clear -E Hv. revert E. unfold motif_neighbors. generalize (map (fun y : Z * option F => (Some (fst y), snd y)) ys) as out. generalize (@nil (option Z * option F)) at 2 as acc.
      induction motif as [|u motif IH]; intros acc out E; [contradiction|]. cbn [foldM] in E.
      destruct (id_at A s (zipwith (a_add A) (s_loc x) u)) as [o|e] eqn:Eo; cbn [bind] in E; [|discriminate]. destruct Hv as [<-|Hv]; [eauto|]. eapply IH; [exact Hv|exact E]. }
    destruct T as [o Eo]. destruct o as [j|]; [eauto|]. exfalso.
    destruct (FN (None, get_dist A d v)) as (j & Ej & _); [|discriminate]. apply IY. exists v. auto.
Qed.
