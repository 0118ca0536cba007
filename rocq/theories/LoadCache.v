(** Proofs for C108: what load_steps caches when it raises. *)
From Verif Require Import Prelude Dict Val StateModel ResultModel SpecResult.

Lemma load_loop_cache : forall ds k live stored i S' out, k <> 0 -> load_loop k live stored i ds = (S', out) ->
  (forall j, dget j S' = match dget j stored with
     | Some s => Some s
     | None => if (i <? j) && (j <=? i + Z.of_nat (length ds)) && (j mod k =? 0)
               then match foldM batch_update (firstn (Z.to_nat (j - i)) ds) live with Ok s => Some s | Err _ => None end
               else None end) /\
  out = match foldM batch_update ds live with Ok _ => Ok tt | Err e => Err e end.
Proof.
  induction ds as [|d ds IH]; intros k live stored i S' out K H; cbn [load_loop] in H.
  - injection H as <- <-. split; auto. intros j. destruct (dget j stored); auto.
    replace ((i <? j) && (j <=? i + Z.of_nat (length (@nil val)))) with false; auto. cbn [length]. symmetry. apply andb_false_iff. lia.
  - cbn [foldM]. destruct (batch_update live d) as [live'|e] eqn:B; cbn [bind].
    2: { injection H as <- <-. split; auto. intros j. destruct (dget j stored); auto.
         destruct ((i <? j) && _ && _) eqn:C; auto. apply andb_prop in C as (C & _). apply andb_prop in C as (C & _).
         replace (Z.to_nat (j - i)) with (S (Z.to_nat (j - i - 1))) by lia. cbn [firstn foldM]. rewrite B. auto. }
    replace (k =? 0) with false in H by lia.
    apply IH in H as (HG & HO); auto. split; auto. intros j. rewrite HG. clear HG HO IH.
    assert (ST : dget j (if ((i + 1) mod k =? 0) && match dget (i + 1) stored with None => true | Some _ => false end then dset (i + 1) live' stored else stored) =
       match dget j stored with Some s => Some s | None => if (j =? i + 1) && (j mod k =? 0) then Some live' else None end).
    { destruct (j =? i + 1) eqn:J.
      - assert (j = i + 1) as -> by lia. destruct ((i + 1) mod k =? 0); cbn [andb]; [|destruct (dget (i + 1) stored); auto].
        destruct (dget (i + 1) stored) eqn:D; auto. apply dget_dset_same.
      - cbn [andb]. destruct (_ && _); [|destruct (dget j stored); auto]. rewrite dget_dset_other by lia. destruct (dget j stored); auto. }
    rewrite ST. destruct (dget j stored); auto.
    destruct (j =? i + 1) eqn:J; cbn [andb].
    + assert (j = i + 1) as -> by lia. replace (i <? i + 1) with true by lia. replace (i + 1 <=? i + Z.of_nat (length (d :: ds))) with true by (cbn [length]; lia).
      cbn [andb]. destruct ((i + 1) mod k =? 0); auto.
      * replace (Z.to_nat (i + 1 - i)) with 1%nat by lia. cbn [firstn foldM]. rewrite B. auto.
      * rewrite andb_false_r. auto.
    + cbn [length]. replace (i + 1 <? j) with (i <? j) by lia. replace (i + 1 + Z.of_nat (length ds)) with (i + Z.of_nat (S (length ds))) by lia.
      destruct ((i <? j) && _ && _) eqn:C; auto. apply andb_prop in C as (C & _). apply andb_prop in C as (C & _).
      replace (Z.to_nat (j - i)) with (S (Z.to_nat (j - (i + 1)))) by lia. cbn [firstn foldM]. rewrite B. auto.
Qed.

Lemma C108_cache_lemma : forall r k r' out, k <> 0 -> load_steps r k = (r', out) ->
  r_init r' = r_init r /\ r_diffs r' = r_diffs r /\
  out = match replay (r_init r) (r_diffs r) (length (r_diffs r)) with Ok _ => Ok tt | Err e => Err e end /\
  (forall i s, dget i (r_stored r') = Some s <->
     (i = 0 /\ s = r_init r) \/ (i <> 0 /\ dget i (r_stored r) = Some s) \/
     (dget i (r_stored r) = None /\ 0 < i < rlen r /\ (k | i) /\ replay (r_init r) (r_diffs r) (Z.to_nat i) = Ok s)).
Proof.
  intros r k r' out K H. unfold load_steps in H.
  destruct (load_loop k (r_init r) (dset 0 (r_init r) (r_stored r)) 0 (r_diffs r)) as [S' o] eqn:L. injection H as <- <-.
  apply load_loop_cache in L as (LG & LO); auto. cbn [r_init r_diffs r_stored]. split; auto. split; auto.
  unfold replay. rewrite firstn_all. split; auto. intros i s. rewrite LG. unfold rlen.
  destruct (Z.eq_dec i 0) as [->|NZ].
  - rewrite dget_dset_same. split; [intros E; injection E as <-; auto|]. intros [(_ & ->)|[(N & _)|(_ & N & _)]]; auto; lia.
  - rewrite dget_dset_other by auto. destruct (dget i (r_stored r)) as [s0|] eqn:D.
    + split; [intros E; auto|]. intros [(-> & _)|[(_ & E)|(E & _)]]; try congruence; lia.
    + destruct ((0 <? i) && (i <=? 0 + Z.of_nat (length (r_diffs r))) && (i mod k =? 0)) eqn:C.
      * apply andb_prop in C as (C & C3). apply andb_prop in C as (C1 & C2). replace (i - 0) with i by lia.
        assert (DV : (k | i)) by (apply Z.mod_divide; lia).
        destruct (foldM batch_update (firstn (Z.to_nat i) (r_diffs r)) (r_init r)) as [s1|e].
        -- split; [intros E; injection E as <-; right; right; repeat split; auto; lia|].
           intros [(-> & _)|[(_ & E)|(_ & _ & _ & E)]]; congruence.
        -- split; [discriminate|]. intros [(-> & _)|[(_ & E)|(_ & _ & _ & E)]]; congruence.
      * split; [discriminate|]. intros [(-> & _)|[(_ & E)|(_ & R & DV & _)]]; try congruence.
        apply Z.mod_divide in DV; auto. exfalso. revert C. replace (i mod k =? 0) with true by lia.
        replace (0 <? i) with true by lia. replace (i <=? 0 + Z.of_nat (length (r_diffs r))) with true by lia. discriminate.
Qed.

Lemma C108_interval_lemma : forall r r' out, load_steps r 0 = (r', out) ->
  r_init r' = r_init r /\ r_diffs r' = r_diffs r /\ (out = Ok tt <-> r_diffs r = []) /\
  (forall i s, dget i (r_stored r') = Some s <-> (i = 0 /\ s = r_init r) \/ (i <> 0 /\ dget i (r_stored r) = Some s)).
Proof.
  intros r r' out H. unfold load_steps in H.
  assert (E : exists o, load_loop 0 (r_init r) (dset 0 (r_init r) (r_stored r)) 0 (r_diffs r) = (dset 0 (r_init r) (r_stored r), o) /\ (o = Ok tt <-> r_diffs r = [])).
  { destruct (r_diffs r) as [|d ds]; cbn [load_loop]; [eexists; split; [reflexivity|tauto]|].
    destruct (batch_update (r_init r) d); cbn [Z.eqb]; (eexists; split; [reflexivity|]); split; discriminate. }
  destruct E as (o & E & O). rewrite E in H. injection H as <- <-. cbn [r_init r_diffs r_stored]. split; auto. split; auto. split; auto.
  intros i s. destruct (Z.eq_dec i 0) as [->|NZ].
  - rewrite dget_dset_same. split; [intros E1; injection E1 as <-; auto|]. intros [(_ & ->)|(N & _)]; [auto|lia].
  - rewrite dget_dset_other by auto. split; auto. intros [(-> & _)|(_ & D)]; auto. lia.
Qed.
