(** Which batches are accepted, and what the others raise. *)
From Verif Require Import Prelude Dict Val ValFacts StateModel SpecMalformed.

Lemma set_sites_bad b : forall s, (exists k v, In (k, v) b /\ forall d, v <> VDict d) -> set_sites s b = Err TypeError.
Proof.
  induction b as [|[k v] b IH]; intros s (k' & v' & I & N); [destruct I|]. unfold set_sites in *. cbn [foldM fst snd].
  destruct v; try reflexivity. cbn [as_mapping bind]. apply IH. destruct I as [E|I]; [|eauto]. injection E as <- <-. now destruct (N d).
Qed.
Lemma set_sites_good b : forall s, (forall k v, In (k, v) b -> exists d, v = VDict d) -> exists s', set_sites s b = Ok s'.
Proof.
  induction b as [|[k v] b IH]; intros s H; [eexists; reflexivity|]. unfold set_sites in *. cbn [foldM fst snd].
  destruct (H k v) as [d ->]; [now left|]. cbn [as_mapping bind]. apply IH. intros; eapply H; right; eassumption.
Qed.

Lemma C128_batch_lemma : forall st,
  (forall v, no_entries v -> batch_update st v = Err TypeError) /\
  (forall b, dget (KStr "GENERAL") b = None ->
     ((exists k v, In (k, v) b /\ forall d, v <> VDict d) -> batch_update st (VDict b) = Err TypeError) /\
     ((forall k v, In (k, v) b -> exists d, v = VDict d) -> exists st', batch_update st (VDict b) = Ok st')) /\
  (forall b g, dget (KStr "GENERAL") b = Some g ->
     (forall v, dget (KStr "SITES") b = Some v -> (forall d, v <> VDict d) -> batch_update st (VDict b) = Err AttributeError) /\
     (forall sb, dget (KStr "SITES") b = Some (VDict sb) \/ (dget (KStr "SITES") b = None /\ sb = []) ->
        ((exists k v, In (k, v) sb /\ forall d, v <> VDict d) -> batch_update st (VDict b) = Err TypeError) /\
        ((forall d, g <> VDict d) -> batch_update st (VDict b) = Err TypeError) /\
        ((forall k v, In (k, v) sb -> exists d, v = VDict d) -> (exists d, g = VDict d) -> exists st', batch_update st (VDict b) = Ok st'))).
Proof.
  intros st. split; [|split].
  - intros v [->|[[b ->]|[[z ->]|[m [e ->]]]]]; reflexivity.
  - intros b E. cbn [batch_update]. change GENERAL with (KStr "GENERAL"). rewrite E. split; [apply set_sites_bad|apply set_sites_good].
  - intros b g E. cbn [batch_update]. change GENERAL with (KStr "GENERAL"). change SITES with (KStr "SITES"). rewrite E. split.
    + intros v Ev N. rewrite Ev. destruct v; try reflexivity. now destruct (N d).
    + intros sb HS. assert (Q : match dget (KStr "SITES") b with None => Ok [] | Some (VDict d) => Ok d | Some _ => Err AttributeError end = Ok sb) by (destruct HS as [->|[-> ->]]; reflexivity).
      rewrite Q. cbn [bind]. split; [|split].
      * intros H. now rewrite set_sites_bad.
      * intros N. destruct (set_sites st sb) as [s1|e] eqn:ES; cbn [bind].
        -- destruct g; try reflexivity. now destruct (N d).
        -- assert (D : (exists k v, In (k, v) sb /\ forall d, v <> VDict d) \/ (forall k v, In (k, v) sb -> exists d, v = VDict d)).
           { clear. induction sb as [|[k v] sb IH]; [right; intros ? ? []|]. destruct IH as [(k' & v' & I & N)|IH]; [left; exists k', v'; split; [now right|exact N]|].
             destruct v; try (left; eexists _, _; split; [now left|discriminate]); right; intros k' v' [E|I]; [injection E as <- <-; eauto|eauto]. }
           destruct D as [D|D]; [rewrite (set_sites_bad sb st D) in ES; congruence|]. destruct (set_sites_good sb st D) as [s1 E1]. congruence.
      * intros H [d ->]. destruct (set_sites_good sb st H) as [s1 ->]. cbn [bind as_mapping]. eauto.
Qed.
