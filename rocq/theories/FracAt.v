(** Fractions at one step (C59), the default background of growth (C54). *)
From Coq Require Import Reals Permutation.
From Verif Require Import Prelude Dict Val ValFacts Arith RealArith LatticeModel StructModel StateModel ResultModel RunnerModel NbModel GridModel SetupModel RulesModel GrowthInit AnalyzerModel
  SpecState SpecSetup SpecAnalyze SpecGrid SpecNb SpecRules RulesFacts AnalyzerFacts.
Local Open Scope Z_scope.

Lemma C59_at_lemma : forall (r : sresult) step st p, get_step r step = Ok st -> discrete st ->
  phase_fraction_at RA r step p = (if size st =? 0 then Err ZeroDivisionError else Ok (IZR (occurrences st p) / IZR (size st))%R) /\
  forall F (so : option (structure F)), suits so st -> cell_fraction so RA st p = phase_fraction_at RA r step p.
Proof.
  intros r step st p E D. unfold phase_fraction_at. rewrite E. cbn [bind].
  assert (X : forall F (so : option (structure F)), suits so st -> cell_fraction so RA st p = if size st =? 0 then Err ZeroDivisionError else Ok (IZR (occurrences st p) / IZR (size st))%R).
  { intros F so SU. exact (fraction_lemma st D so p SU). }
  split; [apply X; exact I|]. intros F so SU. rewrite (X F so SU). symmetry. apply X. exact I.
Qed.
Lemma C59_at_error_lemma : forall (r : sresult) step p e, get_step r step = Err e -> phase_fraction_at RA r step p = Err e.
Proof. intros r step p e E. unfold phase_fraction_at. rewrite E. reflexivity. Qed.

Lemma C54_default_lemma : forall F (A : arith F) s bg b ords rnd ctl, growth_init A s bg b ords rnd = Ok ctl ->
  let bg := match bg with None => "VACANT" | Some p => p end%string in
  exists N, growth_nbhood A s b = Ok N /\ forall c i st l,
    neighbors_of (ords c) N i = Ok l -> (exists p, holds st i p) -> (forall j, In j l -> exists p, holds st j p) ->
    exists u, c_update ctl c (KInt i) st = Ok (VDict u, S c) /\
      (occupied bg st i -> u = []) /\
      (holds st i bg -> (forall j, In j l -> holds st j bg) -> u = []) /\
      (holds st i bg -> (exists j, In j l /\ occupied bg st j) ->
         exists q, u = [(KStr "DISCRETE_OCCUPANCY", VStr q)] /\ q <> bg /\ 0 < count_in st l q /\ forall r, r <> bg -> count_in st l r <= count_in st l q).
Proof.
  intros F A s bg b ords rnd ctl E. unfold growth_init in E. apply bind_Ok in E as (N & EN & E). injection E as <-. exists N. split; [exact EN|].
  intros c i st l. exact (C54_lemma F N _ ords rnd c i st l).
Qed.
