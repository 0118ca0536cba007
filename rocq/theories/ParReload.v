(** Proof for C10: results of parallel runs do not reload either. *)
From Verif Require Import Prelude Dict Val ValFacts StateModel ResultModel RunnerModel JsonModel SpecState SpecResult SpecRunner StateFacts ResultFacts JsonFacts RunnerFacts SyncFacts RunnerShapes.

Lemma starmap_canon {C} (ctl : controller C) sched last batches : forall b ws us ws',
  starmap ctl sched last b batches ws = Ok (us, ws') -> exists os, us = map canon os.
Proof.
  induction batches as [|x t IH]; intros b ws us ws' E; cbn [starmap] in E.
  - injection E as <- <-. now exists [].
  - apply bind_Ok in E as ([u l'] & E1 & E). apply bind_Ok in E as ([us1 ws1] & E2 & E). injection E as <- <-.
    destruct (IH _ _ _ _ E2) as (os & ->). unfold worker_task in E1. apply bind_Ok in E1 as (s & _ & E1).
    apply bind_Ok in E1 as ([u1 c1] & E1 & E3). injection E3 as <- <-. apply step_batch_Ok in E1 as (vs & o & _ & _ & ->). now exists (o :: os).
Qed.

Lemma merge_canon o o' r : merge_updates (canon o) (canon o') None = Ok r -> exists q, r = canon q.
Proof.
  destruct o as [[S G]|]; [|intros E; injection E as <-; now exists o'].
  destruct o' as [[S' G']|]; intros E; injection E as <-; eexists (Some (_, _)); reflexivity.
Qed.

Lemma merge_results_canon os : forall q r, foldM (fun a b => merge_updates a b None) (map canon os) (canon q) = Ok r -> exists q', r = canon q'.
Proof.
  induction os as [|o t IH]; intros q r E; cbn [map foldM] in E; [injection E as <-; now exists q|].
  apply bind_Ok in E as (m & Em & E). apply merge_canon in Em as (q' & ->). now apply (IH q').
Qed.

Lemma par_loop_app {C} (ctl : controller C) sched ids ck n : forall t u ds ws r, par_loop ctl sched t n ids ck u ds ws = Ok r -> exists l, r = ds ++ l.
Proof.
  induction n as [|n IH]; intros t u ds ws r E; cbn [par_loop] in E; [injection E as <-; exists []; now rewrite app_nil_r|].
  apply bind_Ok in E as ([u' ws'] & _ & E). apply IH in E as (l & ->). rewrite <- app_assoc. eauto.
Qed.

Lemma C10_parallel_refuted_lemma : forall (C : Type) (ctl : controller C) p sched (c0 : C) (init : sstate) (n : Z) o,
  json_state init -> run_parallel ctl p sched c0 init n = Ok o -> 0 < n ->
  result_from_dict (json_roundtrip (result_as_dict (o_result o))) =
    Err (match r_diffs (o_result o) with VNone :: _ => AttributeError | _ => ValueError end).
Proof.
  intros C ctl p sched c0 init n o J R L. unfold run_parallel in R. apply bind_Ok in R as (c1 & _ & R). apply bind_Ok in R as (ck & _ & R).
  destruct (p <? 1); [discriminate|]. apply bind_Ok in R as (ds & E & R). injection R as <-. cbn [o_result r_diffs].
  destruct (Z.to_nat n) as [|m] eqn:En; [lia|]. cbn [par_loop] in E. apply bind_Ok in E as ([u ws] & E1 & E).
  apply par_loop_app in E as (l & ->). cbn [app]. unfold take_step_parallel in E1. apply bind_Ok in E1 as (bs & _ & E1).
  apply bind_Ok in E1 as ([us ws1] & Es & E1). apply bind_Ok in E1 as (a & Em & E1). injection E1 as <- <-.
  apply starmap_canon in Es as (os & ->). apply (merge_results_canon os None) in Em as (q & ->).
  destruct q as [[S G]|]; [now apply reload_full|].
  rewrite result_from_dict_unfold. cbn [r_init r_diffs]. rewrite C06_lemma by assumption. reflexivity.
Qed.
