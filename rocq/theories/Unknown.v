(** Looking up ids that were not given out (C28). *)
From Verif Require Import Prelude Dict Arith LatticeModel StructModel SpecGeom SpecNb StructFacts NbFacts.
Local Open Scope Z_scope.

Lemma C28_unknown_lemma : forall F (A : arith F) L s i, built A L s ->
  (0 <= i < Z.of_nat (length (sites s None)) -> exists x, get_site s i = Some x /\ site_class s i = Ok (s_class x) /\ site_location s i = Ok (s_loc x)) /\
  (i < 0 \/ Z.of_nat (length (sites s None)) <= i -> get_site s i = None /\ site_class s i = Err TypeError /\ site_location s i = Err TypeError).
Proof.
  intros F A L s i B. pose proof (built_dense A L s B) as D. destruct (built_inv A L s B) as [h I]. unfold dense in D.
  assert (G : (exists x, get_site s i = Some x) <-> 0 <= i < Z.of_nat (length (sites s None))).
  { rewrite <- zrange_In, <- D, in_map_iff. split.
    - intros [x E]. apply (inv_get_site A L h s i x I) in E as [H1 H2]. eauto.
    - intros (x & E & H). exists x. apply (inv_get_site A L h s i x I). auto. }
  split.
  - intros H. apply G in H as [x E]. exists x. unfold site_class, site_location. rewrite E. auto.
  - intros H. assert (E : get_site s i = None) by (destruct (get_site s i) as [x|] eqn:E; auto; assert (X : exists y, Some x = Some y) by eauto; apply G in X; lia).
    unfold site_class, site_location. rewrite E. auto.
Qed.
