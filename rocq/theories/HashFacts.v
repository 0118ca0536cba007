(** Hashable values: comparison, sets and dictionaries of them. *)
From Verif Require Import Prelude Dict Val ValFacts AnalyzerModel.
Local Open Scope Z_scope.

Lemma hash_eqb a b : hashable b = true -> (eqb a b = true <-> a = b).
Proof.
  unfold eqb, Eqb_val. revert b. induction a as [|x|z|m e|s|l IH|l IH|d IH] using val_ind'; intros b H; destruct b as [|x'|z'|m' e'|s'|l'|l'|d']; try discriminate H; cbn [val_eqb]; try (split; discriminate).
  - split; auto.
  - split; [intros E; apply Bool.eqb_prop in E; congruence|intros E; injection E as ->; apply Bool.eqb_reflx].
  - rewrite Z.eqb_eq. split; congruence.
  - rewrite Bool.andb_true_iff, !Z.eqb_eq. split; [intros [-> ->]; auto|intros E; injection E; auto].
  - rewrite String.eqb_eq. split; congruence.
  - change (val_eqb (VTuple l) (VTuple l') = true <-> VTuple l = VTuple l'). rewrite val_eqb_tuple. cbn [hashable] in H. revert l' H.
    induction IH as [|x l IHx _ IHl]; intros [|y l'] H.
    + split; auto. 
    + split; [intros E; inversion E|discriminate].
    + split; [intros E; inversion E|discriminate].
    + cbn [forallb] in H. apply Bool.andb_true_iff in H as [H1 H2]. split.
      * intros E. inversion E as [|? ? ? ? E1 E2]; subst. apply IHx in E1; auto. apply IHl in E2; auto. congruence.
      * intros E. injection E as <- <-. constructor; [now apply IHx|now apply IHl].
Qed.
Lemma hash_refl a : hashable a = true -> eqb a a = true.
Proof. intros H. now apply hash_eqb. Qed.
Lemma hash_sym a b : hashable a = true -> (eqb a b = true <-> a = b).
Proof.
  intros H. split.
  - unfold eqb, Eqb_val. revert b H. induction a as [|x|z|m e|s|l IH|l IH|d IH] using val_ind'; intros b H E; destruct b as [|x'|z'|m' e'|s'|l'|l'|d']; try discriminate H; try discriminate E; cbn [val_eqb] in E.
    + auto.
    + apply Bool.eqb_prop in E. congruence.
    + apply Z.eqb_eq in E. congruence.
    + apply Bool.andb_true_iff in E as [E1 E2]. apply Z.eqb_eq in E1, E2. congruence.
    + apply String.eqb_eq in E. congruence.
    + change (val_eqb (VTuple l) (VTuple l') = true) in E. apply val_eqb_tuple in E. cbn [hashable] in H. f_equal. revert l' E H.
      induction IH as [|x l IHx _ IHl]; intros l' E H; inversion E as [|? y ? t E1 E2]; subst; auto. cbn [forallb] in H. apply Bool.andb_true_iff in H as [H1 H2].
      f_equal; [now apply IHx|now apply IHl].
  - intros <-. now apply hash_refl.
Qed.
Lemma hash_neq a b : hashable a = true -> a <> b -> eqb a b = false.
Proof. intros H N. destruct (eqb a b) eqn:E; auto. apply hash_sym in E; auto. contradiction. Qed.

Section HDict.
  Context {V : Type}.
  Implicit Types d : dict val V.
  Lemma hget_In k v d : hashable k = true -> dget k d = Some v -> In (k, v) d.
  Proof. intros H. induction d as [|[k' v'] d IH]; cbn [dget]; [discriminate|]. destruct (eqb k k') eqn:E; [|simpl; auto]. apply hash_sym in E; auto. intros X. injection X as <-. subst. simpl; auto. Qed.
  Lemma hget_key k v d : hashable k = true -> dget k d = Some v -> In k (dkeys d).
  Proof. intros H E. apply hget_In in E; auto. apply (in_map fst) in E. exact E. Qed.
  Lemma hget_None k d : hashable k = true -> ~ In k (dkeys d) -> dget k d = None.
  Proof. intros H N. destruct (dget k d) as [v|] eqn:E; auto. apply hget_key in E; auto. contradiction. Qed.
  Lemma hget_some k d : hashable k = true -> In k (dkeys d) -> exists v, dget k d = Some v.
  Proof.
    intros H. induction d as [|[k' v'] d IH]; cbn [dget dkeys map fst]; [intros []|]. intros [->|I]; [rewrite hash_refl by auto; eauto|]. destruct (eqb k k'); eauto.
  Qed.
  Lemma hset_fresh k (v : V) d : hashable k = true -> ~ In k (dkeys d) -> dset k v d = d ++ [(k, v)].
  Proof.
    intros H. induction d as [|[k' v'] d IH]; intros N; [reflexivity|]. cbn [dset]. rewrite hash_neq; auto; [|intros ->; apply N; simpl; auto]. cbn [app]. f_equal. apply IH. intros X. apply N. simpl. auto.
  Qed.
End HDict.
Lemma hdedup_In x l : forallb hashable l = true -> In x (dedup l) <-> In x l.
Proof.
  induction l as [|y l IH]; cbn [dedup forallb]; intros H; [tauto|]. apply Bool.andb_true_iff in H as [H1 H2]. cbn [In]. rewrite filter_In, (IH H2). split; [tauto|].
  intros [->|I]; auto. destruct (eqb y x) eqn:E; [left; now apply hash_sym|right; split; auto].
Qed.
Lemma hdedup_NoDup l : forallb hashable l = true -> NoDup (dedup l).
Proof.
  induction l as [|y l IH]; cbn [dedup forallb]; intros H; constructor; apply Bool.andb_true_iff in H as [H1 H2].
  - rewrite filter_In. intros [_ E]. rewrite hash_refl in E by auto. discriminate.
  - apply NoDup_filter. auto.
Qed.
