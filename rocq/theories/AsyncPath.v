(** Which sites an asynchronous growth run occupies (C93). *)
From Verif Require Import Prelude Dict Val ValFacts Arith LatticeModel StructModel StateModel ResultModel RunnerModel NbModel GridModel SimModel SetupModel RulesModel
  SpecState SpecResult SpecRunner SpecGeom SpecNb SpecGrid SpecSetup SpecRules StateFacts ResultFacts RunnerFacts RulesFacts AsyncGrow.
Local Open Scope Z_scope.

Lemma in_order_nil_l m : in_order [] m.
Proof. induction m; constructor; auto. Qed.
Lemma in_order_snoc d m : forall l, in_order l (m ++ [d]) <-> in_order l m \/ exists l', l = l' ++ [d] /\ in_order l' m.
Proof.
  induction m as [|a m IH]; intros l; cbn [app].
  - split.
    + intros H. inversion H as [|a l1 m1 H1|a l1 m1 H1]; subst; inversion H1; subst; [right; exists []; split; auto; constructor|left; constructor].
    + intros [H|(l' & -> & H)]; inversion H; subst; repeat constructor.
  - split.
    + intros H. inversion H as [|b l1 m1 H1|b l1 m1 H1]; subst; apply IH in H1 as [H1|(l' & -> & H1)].
      * left. now constructor.
      * right. exists (a :: l'). split; auto. now constructor.
      * left. now constructor.
      * right. exists l'. split; auto. now constructor.
    + intros [H|(l' & -> & H)].
      * inversion H as [|b l1 m1 H1|b l1 m1 H1]; subst; constructor; apply IH; auto.
      * inversion H as [|b l1 m1 H1|b l1 m1 H1]; subst; cbn [app]; constructor; apply IH; eauto.
Qed.
Lemma walk_snoc nbr l : forall j d i, walk nbr j (l ++ [d]) i <-> i = d /\ exists k, walk nbr j l k /\ nbr d k.
Proof.
  induction l as [|a l IH]; intros j d i; cbn [app walk].
  - split; [intros [H ->]; eauto|]. intros (-> & k & -> & H). auto.
  - rewrite IH. split.
    + intros (H & E & k & W & B). eauto.
    + intros (E & k & [H W] & B). eauto.
Qed.

Lemma C93_lemma : forall F (N : nbhood F) bg ords rnd m c0 init n nbr,
  (forall t, legal (ords t)) -> 0 < m -> has_neighbours (zrange 0 m) N -> phased (zrange 0 m) init ->
  (forall o i l j, legal o -> In i (zrange 0 m) -> neighbors_of o N i = Ok l -> (In j l <-> nbr i j)) ->
  exists o, run_async (growth_controller N bg ords rnd) c0 init n = Ok o /\
   forall t i, 0 <= t <= Z.max 0 n -> In i (zrange 0 m) -> exists st, get_step (o_result o) t = Ok st /\
     (occupied bg st i <-> exists j l, occupied bg init j /\ walk nbr j l i /\
        in_order l (map (fun k => Z.of_nat (rnd (c0 + 2 * k)%nat) mod m) (seq 0 (Z.to_nat t)))).
Proof.
  intros F N bg ords rnd m c0 init n nbr LO HM HN PI HB. destruct (async_facts N bg ords rnd m LO HM HN c0 init PI) as (f & F0 & HF & HI & HK & HW & R).
  destruct (R n) as (o & E & RL & _ & G). exists o. split; auto. intros t i Ht Hi. exists (f (Z.to_nat t)). split; [now apply G|].
  generalize (Z.to_nat t) as u. clear t Ht. intros u. revert i Hi. set (draw := fun k => Z.of_nat (rnd (c0 + 2 * k)%nat) mod m).
  assert (DI : forall k, In (draw k) (zrange 0 m)) by (intros k; apply zrange_In, Z.mod_pos_bound, HM).
  induction u as [|u IH]; intros i Hi.
  - rewrite F0. split; [intros O; exists i, []; repeat split; auto; constructor|]. intros (j & l & O & W & I). inversion I; subst. cbn [walk] in W. now subst.
  - rewrite seq_S, map_app. cbn [map Nat.add]. destruct (HF u) as [PH V]. fold (draw u) in V.
    assert (ST : occupied bg (f (S u)) i <-> occupied bg (f u) i \/ i = draw u /\ exists k, nbr i k /\ occupied bg (f u) k).
    { split.
      - intros (p & Hp & D). destruct (visited_new N bg m HN _ _ _ _ i p PH (DI u) (LO _) V Hp) as [H|(-> & _ & l & k & EL & Hk & _ & H)]; [left; exists p; auto|].
        right. split; auto. exists k. split; [eapply HB; eauto|exists p; auto].
      - intros [(p & Hp & D)|(-> & k & B & O)].
        + exists p. split; auto. replace (S u) with (u + 1)%nat by lia. now apply HK.
        + destruct (proj2 PH _ (DI u)) as [q Hq]. destruct (eqb_spec q bg) as [->|D].
          * destruct V as (_ & l & EL & _ & P). destruct P as (r & Hr & Dr & _); auto; [exists k; split; auto; eapply HB; eauto|]. exists r. auto.
          * exists q. split; auto. replace (S u) with (u + 1)%nat by lia. now apply HK. }
    rewrite ST. split.
    + intros [O|(-> & k & B & O)].
      * apply IH in O as (j & l & O & W & I); auto. exists j, l. split; auto. split; auto. apply in_order_snoc. auto.
      * assert (Ik : In k (zrange 0 m)). { destruct (HN (ords 0%nat) _ (LO _) (DI u)) as (l & EL & IL). apply IL. eapply HB; eauto. }
        apply IH in O as (j & l & O & W & I); auto. exists j, (l ++ [draw u]). split; auto. split; [apply walk_snoc; eauto|]. apply in_order_snoc. eauto.
    + intros (j & l & O & W & I). apply in_order_snoc in I as [I|(l' & -> & I)].
      * left. apply IH; eauto.
      * apply walk_snoc in W as (-> & k & W & B). right. split; auto. exists k. split; auto. apply IH; eauto.
        destruct (HN (ords 0%nat) _ (LO _) (DI u)) as (l & EL & IL). apply IL. eapply HB; eauto.
Qed.
