(** Saving and loading (C92). *)
From Verif Require Import Prelude Dict Val ValFacts StateModel ResultModel JsonModel FileModel SpecState SpecResult SpecFile ResultFacts JsonFacts.
Local Open Scope Z_scope.
Local Open Scope string_scope.

Lemma append_inj a : forall b x y, String.length a = String.length b -> a ++ x = b ++ y -> a = b /\ x = y.
Proof.
  induction a as [|c a IH]; intros [|d b] x y L E; try discriminate; simpl in *; auto. injection E as <- E. injection L as L.
  destruct (IH b x y L E) as [-> ->]. auto.
Qed.
Lemma append_len a b : String.length (a ++ b) = (String.length a + String.length b)%nat.
Proof. induction a; simpl; auto. Qed.
Lemma append_inj_r a b x y : String.length x = String.length y -> a ++ x = b ++ y -> a = b /\ x = y.
Proof.
  intros L E. apply append_inj; auto. apply (f_equal String.length) in E. rewrite !append_len in E. lia.
Qed.
Lemma pad2_facts : forall z, 0 <= z < 100 -> String.length (pad2 z) = 2%nat /\ forall z', 0 <= z' < 100 -> pad2 z = pad2 z' -> z = z'.
Proof.
  assert (H : forallb (fun z => Nat.eqb (String.length (pad2 z)) 2) (zrange 0 100) = true) by (vm_compute; reflexivity).
  rewrite forallb_forall in H. intros z Hz. split.
  - apply Nat.eqb_eq, H, zrange_In. lia.
  - intros z' Hz' E. unfold pad2 in E. destruct (z <? 10)%Z eqn:E1, (z' <? 10)%Z eqn:E2.
    + injection E as E. now apply str_of_Z_inj.
    + assert (H10 : forallb (fun z => match String.get 0 (str_of_Z z) with Some c => negb (Ascii.eqb c (Ascii.ascii_of_nat 48)) | None => false end) (zrange 10 100) = true) by (vm_compute; reflexivity).
      rewrite forallb_forall in H10. specialize (H10 z'). rewrite zrange_In in H10. rewrite <- E in H10. cbn in H10. assert (false = true) by (apply H10; lia). discriminate.
    + assert (H10 : forallb (fun z => match String.get 0 (str_of_Z z) with Some c => negb (Ascii.eqb c (Ascii.ascii_of_nat 48)) | None => false end) (zrange 10 100) = true) by (vm_compute; reflexivity).
      rewrite forallb_forall in H10. specialize (H10 z). rewrite zrange_In in H10. rewrite E in H10. cbn in H10. assert (false = true) by (apply H10; lia). discriminate.
    + now apply str_of_Z_inj.
Qed.
Lemma date_inj t t' : calendar t -> calendar t' -> date_string t = date_string t' -> t = t'.
Proof.
  destruct t as [y m d h i], t' as [y' m' d' h' i']. unfold calendar, date_string. cbn [c_year c_month c_day c_hour c_minute]. intros C C' E.
  destruct (pad2_facts m ltac:(lia)) as [Lm Im], (pad2_facts d ltac:(lia)) as [Ld Id], (pad2_facts h ltac:(lia)) as [Lh Ih], (pad2_facts i ltac:(lia)) as [Li Ii].
  destruct (pad2_facts m' ltac:(lia)) as [Lm' _], (pad2_facts d' ltac:(lia)) as [Ld' _], (pad2_facts h' ltac:(lia)) as [Lh' _], (pad2_facts i' ltac:(lia)) as [Li' _].
  apply append_inj in E as [E1 E]; [|congruence]. apply Im in E1; [|lia]. apply append_inj in E as [_ E]; auto.
  apply append_inj in E as [E2 E]; [|congruence]. apply Id in E2; [|lia]. apply append_inj in E as [_ E]; auto.
  apply append_inj_r in E as [E3 E]; [|rewrite !append_len, Lh, Li, Lh', Li'; reflexivity]. apply str_of_Z_inj in E3.
  apply append_inj in E as [_ E]; auto. apply append_inj in E as [E4 E]; [|congruence]. apply Ih in E4; [|lia]. apply append_inj in E as [_ E]; auto.
  apply Ii in E; [|lia]. congruence.
Qed.

Lemma C92_names_lemma : forall r r' t t' fs fs', calendar t -> calendar t' ->
  (fst (to_file r None t fs) = fst (to_file r' None t' fs') <-> t = t').
Proof.
  intros r r' t t' fs fs' C C'. unfold to_file. cbn [fst]. split; [|now intros ->]. intros E. apply append_inj_r in E as [E _]; auto. now apply date_inj.
Qed.

Lemma load_saved r : plain_result r -> process_decoded (of_json (to_json (result_as_dict r))) = Ok (LResult (uncached r)).
Proof.
  intros [HI HD]. pose proof (C10_lemma r HI HD) as H. unfold json_roundtrip in H.
  assert (D : of_json (to_json (result_as_dict r)) = VDict [(KStr "initial_state", of_json (to_json (state_as_dict (r_init r)))); (KStr "diffs", of_json (to_json (VList (r_diffs r))));
    (KStr "@module", VStr "pylattica.core.simulation_result"); (KStr "@class", VStr "SimulationResult")]) by reflexivity.
  rewrite D in *. revert H. generalize (of_json (to_json (state_as_dict (r_init r)))) as a, (of_json (to_json (VList (r_diffs r)))) as b. intros a b H.
  assert (E : forall a b, process_decoded (VDict [(KStr "initial_state", a); (KStr "diffs", b); (KStr "@module", VStr "pylattica.core.simulation_result"); (KStr "@class", VStr "SimulationResult")]) =
    (do r <- result_from_dict (VDict [(KStr "initial_state", a); (KStr "diffs", b)]); Ok (LResult r))) by reflexivity.
  rewrite E. change (result_from_dict (VDict [(KStr "initial_state", a); (KStr "diffs", b)])) with
    (result_from_dict (VDict [(KStr "initial_state", a); (KStr "diffs", b); (KStr "@module", VStr "pylattica.core.simulation_result"); (KStr "@class", VStr "SimulationResult")])).
  rewrite H. reflexivity.
Qed.

Lemma C92_lemma : forall calls fs, NoDup (fst (save_all calls fs)) ->
  let paths := fst (save_all calls fs) in let fs' := snd (save_all calls fs) in
  length paths = length calls /\
  (forall i r p t, nth_error calls i = Some (r, p, t) -> exists path, nth_error paths i = Some path /\ (forall q, p = Some q -> path = q) /\
     (plain_result r -> from_file path fs' = Ok (LResult (uncached r)))) /\
  (forall q, ~ In q paths -> from_file q fs' = from_file q fs).
Proof.
  induction calls as [|[[r p] t] calls IH]; intros fs ND; cbn zeta.
  - split; auto. split; auto. intros [|i]; discriminate.
  - cbn [save_all fst snd] in *. inversion ND as [|? ? NI ND']; subst. destruct (IH _ ND') as (L & A & B). split; [simpl; now rewrite L|]. split.
    + intros [|i] r0 p0 t0 E; cbn [nth_error] in *.
      * injection E as <- <- <-. eexists. split; [reflexivity|]. split; [now intros q ->|]. intros PR. rewrite B by auto. unfold from_file, to_file. cbn [snd fst]. rewrite dget_dset_same. now apply load_saved.
      * now apply (A i r0 p0 t0).
    + intros q Hq. rewrite B by (intros X; apply Hq; now right). unfold from_file. cbn [to_file snd]. rewrite dget_dset_other; auto. intros ->. apply Hq. now left.
Qed.

Lemma C92_minutes_lemma : forall rts fs, Forall (fun x => calendar (snd x)) rts -> NoDup (map snd rts) -> Forall (fun x => plain_result (fst x)) rts ->
  let s := save_all (map (fun x => (fst x, None, snd x)) rts) fs in
  forall i r t, nth_error rts i = Some (r, t) -> exists path, nth_error (fst s) i = Some path /\ from_file path (snd s) = Ok (LResult (uncached r)).
Proof.
  intros rts fs HC ND HP s i r t E.
  assert (PN : forall rts fs, fst (save_all (map (fun x : sresult * clock => (fst x, None, snd x)) rts) fs) = map (fun x => date_string (snd x) ++ ".json") rts).
  { clear. induction rts as [|[r t] rts IH]; intros fs; auto. cbn [map save_all fst snd to_file]. now rewrite IH. }
  assert (NP : NoDup (fst s)).
  { unfold s. rewrite PN. clear -HC ND. induction rts as [|[r t] rts IH]; cbn [map]; constructor; cbn [fst snd] in *; inversion ND; subst; inversion HC; subst; auto.
    intros X. apply in_map_iff in X as ([r' t'] & X & HX). cbn [snd] in *. apply append_inj_r in X as [X _]; auto. rewrite Forall_forall in H4. apply date_inj in X; auto; [|now apply (H4 (r', t'))].
    subst t'. apply H1. apply in_map_iff. now exists (r', t). }
  destruct (C92_lemma _ _ NP) as (_ & A & _). rewrite Forall_forall in HP. pose proof (HP (r, t) (nth_error_In _ _ E)) as PR.
  destruct (A i r None t) as (path & E1 & _ & E2); [rewrite nth_error_map, E; reflexivity|]. exists path. auto.
Qed.

Lemma C92_refuted_lemma : forall r r' t t' fs, plain_result r' -> c_year t = c_year t' -> c_month t = c_month t' -> c_day t = c_day t' -> c_hour t = c_hour t' -> c_minute t = c_minute t' ->
  exists path fs1 fs2, to_file r None t fs = (path, fs1) /\ to_file r' None t' fs1 = (path, fs2) /\ from_file path fs2 = Ok (LResult (uncached r')).
Proof.
  intros r r' [y m d h i] [y' m' d' h' i'] fs PR. cbn [c_year c_month c_day c_hour c_minute]. intros <- <- <- <- <-. unfold to_file. do 3 eexists. split; [reflexivity|]. split; [reflexivity|].
  unfold from_file. rewrite dget_dset_same. now apply load_saved.
Qed.

Lemma C92_last_lemma : forall calls fs q, let paths := fst (save_all calls fs) in let fs' := snd (save_all calls fs) in
  (forall i r p t, nth_error calls i = Some (r, p, t) -> nth_error paths i = Some q -> (forall k, (i < k)%nat -> nth_error paths k <> Some q) ->
     plain_result r -> from_file q fs' = Ok (LResult (uncached r))) /\
  (~ In q paths -> from_file q fs' = from_file q fs) /\
  (~ In q paths -> ~ In q (dkeys fs) -> from_file q fs' = Err FileNotFoundError).
Proof.
  induction calls as [|[[r p] t] calls IH]; intros fs q; cbn zeta.
  - split; [intros [|i]; discriminate|]. split; auto. intros _ NI. unfold from_file. cbn [save_all snd]. apply dget_None in NI. now rewrite NI.
  - cbn [save_all fst snd] in *. destruct (IH (snd (to_file r p t fs)) q) as (A & B & _).
    assert (KEEP : q <> fst (to_file r p t fs) -> from_file q (snd (to_file r p t fs)) = from_file q fs).
    { intros NE. unfold from_file, to_file in *. cbn [snd fst] in *. now rewrite dget_dset_other by auto. }
    split; [|split].
    + intros [|i] r0 p0 t0 E1 E2 LAST PR; cbn [nth_error] in E1, E2.
      * injection E1 as -> -> ->. injection E2 as E2. rewrite B.
        -- rewrite <- E2. unfold from_file, to_file. cbn [snd fst]. rewrite dget_dset_same. now apply load_saved.
        -- intros X. apply In_nth_error in X as [k Ek]. apply (LAST (S k)); [lia|]. exact Ek.
      * apply (A i r0 p0 t0); auto. intros k Hk. apply (LAST (S k)). lia.
    + intros NI. rewrite B by (intros X; apply NI; now right). apply KEEP. intros X. apply NI. left. now symmetry.
    + intros NI NF. rewrite B by (intros X; apply NI; now right). rewrite KEEP by (intros X; apply NI; left; now symmetry). unfold from_file. apply dget_None in NF. now rewrite NF.
Qed.
