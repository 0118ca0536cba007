(** What merging a malformed answer of a controller raises. *)
From Verif Require Import Prelude Dict Val ValFacts StateModel RunnerModel SpecMalformed.

Lemma no_entries_arg v : no_entries v -> upd_arg (Some v) = Err TypeError.
Proof. intros [->|[[b ->]|[[z ->]|[m [e ->]]]]]; reflexivity. Qed.
Lemma upd_dict v d : v = None \/ v = Some (VDict d) -> exists d', upd_arg v = Ok d'.
Proof. intros [->| ->]; eexists; reflexivity. Qed.
Lemma mem_some (k : key) (d : pdict) v : dget k d = Some v -> dmem k d = true.
Proof. intros E. unfold dmem. now rewrite E. Qed.
Lemma mem_none (k : key) (d : pdict) : dget k d = None -> dmem k d = false.
Proof. intros E. unfold dmem. now rewrite E. Qed.

Lemma C128_merge_lemma : forall curr id,
  (forall v, no_entries v -> v <> VNone -> merge_updates v curr id = Err TypeError) /\
  (forall nu c, curr = VDict c -> (exists v, dget (KStr "SITES") nu = Some v) \/ (exists v, dget (KStr "GENERAL") nu = Some v) ->
     (forall v d, dget (KStr "SITES") nu = Some v -> no_entries v -> dget (KStr "SITES") c = Some (VDict d) -> merge_updates (VDict nu) curr id = Err TypeError) /\
     (dget (KStr "SITES") nu = None \/ (exists d, dget (KStr "SITES") nu = Some (VDict d)) ->
        (dget (KStr "SITES") c = None -> merge_updates (VDict nu) curr id = Err KeyError) /\
        (forall v, dget (KStr "SITES") c = Some v -> (forall d, v <> VDict d) -> merge_updates (VDict nu) curr id = Err AttributeError) /\
        (forall d, dget (KStr "SITES") c = Some (VDict d) ->
           (forall v g, dget (KStr "GENERAL") nu = Some v -> no_entries v -> dget (KStr "GENERAL") c = Some (VDict g) -> merge_updates (VDict nu) curr id = Err TypeError) /\
           (dget (KStr "GENERAL") nu = None \/ (exists d, dget (KStr "GENERAL") nu = Some (VDict d)) ->
              (dget (KStr "GENERAL") c = None -> merge_updates (VDict nu) curr id = Err KeyError) /\
              (forall v, dget (KStr "GENERAL") c = Some v -> (forall d, v <> VDict d) -> merge_updates (VDict nu) curr id = Err AttributeError))))) /\
  (forall nu, id = None -> curr = VNone \/ (exists c, curr = VDict c) -> dget (KStr "SITES") nu = None -> dget (KStr "GENERAL") nu = None ->
     nu = [] \/ (exists s v, In (KStr s, v) nu) -> merge_updates (VDict nu) curr id = Err ValueError).
Proof.
  intros curr id. split; [|split].
  - intros v [->|[[b ->]|[[z ->]|[m [e ->]]]]] N; [congruence|reflexivity|reflexivity|reflexivity].
  - intros nu c -> HM. change (KStr "SITES") with SITES in *. change (KStr "GENERAL") with GENERAL in *.
    assert (M : dmem SITES nu || dmem GENERAL nu = true).
    { destruct HM as [[v E]|[v E]]; rewrite (mem_some _ _ _ E); [reflexivity|apply Bool.orb_true_r]. }
    unfold merge_updates. rewrite M. cbn [bind]. split.
    + intros v d E NE _. rewrite E, (no_entries_arg v NE). reflexivity.
    + intros HS. assert (US : exists ns, upd_arg (dget SITES nu) = Ok ns) by (destruct HS as [->|[d ->]]; eexists; reflexivity). destruct US as [ns US]. rewrite US. cbn [bind].
      assert (OTH : forall x v, dget GENERAL (dset SITES x c) = v <-> dget GENERAL c = v).
      { intros x v. rewrite dget_dset_other by discriminate. tauto. }
      split; [|split].
      * intros E. unfold update_in. now rewrite E.
      * intros v E ND. unfold update_in. rewrite E. destruct v; try reflexivity. now destruct (ND d).
      * intros d E. unfold update_in at 1 3 5. rewrite E. cbn [bind]. split.
        -- intros v g Ev NE _. rewrite Ev, (no_entries_arg v NE). reflexivity.
        -- intros HG. assert (UG : exists ng, upd_arg (dget GENERAL nu) = Ok ng) by (destruct HG as [->|[d' ->]]; eexists; reflexivity). destruct UG as [ng UG]. rewrite UG. cbn [bind]. split.
           ++ intros EG. unfold update_in. rewrite (proj2 (OTH _ _) EG). reflexivity.
           ++ intros v EG ND. unfold update_in. rewrite (proj2 (OTH _ _) EG). destruct v; try reflexivity. now destruct (ND d0).
  - intros nu -> HC ES EG HK. change (KStr "SITES") with SITES in *. change (KStr "GENERAL") with GENERAL in *.
    unfold merge_updates. rewrite (mem_none _ _ ES), (mem_none _ _ EG). cbn [orb].
    assert (AI : all_int_keys nu = false).
    { destruct HK as [->|(s & v & I)]; [reflexivity|]. unfold all_int_keys. destruct nu as [|p nu]; [reflexivity|].
      destruct (forallb _ (p :: nu)) eqn:Q; [|reflexivity]. rewrite forallb_forall in Q. specialize (Q _ I). discriminate Q. }
    rewrite AI. destruct HC as [->|[c ->]]; reflexivity.
Qed.
