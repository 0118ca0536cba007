(** Property C121: neighbourhoods of square grids on honeycombs. *)
From Coq Require Import Reals.
From Flocq Require Import Core BinarySingleNaN.
From Verif Require Import Prelude Dict Val Arith RealArith FloatArith LatticeModel StructModel StateModel ResultModel RunnerModel NbModel GridModel RulesModel SpecState SpecNb SpecHoney SpecFloat64 SpecHoneyFloat StructFacts NbFacts HoneyFacts HoneyAll FloatHoney FloatInv HoneyMotif HoneyMotifFloat.
Local Open Scope Z_scope.

(** C121. Motifs with an offset one up or down, in exact arithmetic. *)
Theorem C121_motif : forall n m s motif a c, 1 <= n -> 1 <= m -> honeycomb n m s -> Forall (fun v => length v = 2%nat) motif -> In [a; c] motif -> (c = 1 \/ c = -1)%R ->
  exists b, motif_builder RA motif = Ok b /\ nb_get RA b s None = Err TypeError.
Proof. exact C121_lemma. Qed.
Print Assumptions C121_motif.
Example C121_example : exists s, honeycomb 2 5 s /\ Z.of_nat (length (sites s None)) = 10 /\ Forall (fun v => length v = 2%nat) [[1; 0]; [1 / 2; 1]]%R /\ In [1 / 2; 1]%R [[1; 0]; [1 / 2; 1]]%R.
Proof. destruct (honey_all 2 5 ltac:(lia) ltac:(lia)) as (s & L & outs & HC & _ & _ & _ & CT & _). exists s. split; [exact HC|]. split; [exact CT|]. split; [repeat constructor|simpl; auto]. Qed.

(** C121. The builders of square grids, growth by default and life. *)
Theorem C121_builders : forall n m s r, 1 <= n -> 1 <= m -> honeycomb n m s -> 1 <= r ->
  (exists b, MooreNbHoodBuilder RA r 2 = Ok b /\ nb_get RA b s None = Err TypeError) /\
  (exists b, VonNeumannNbHood2DBuilder RA r = Ok b /\ nb_get RA b s None = Err TypeError) /\
  growth_nbhood RA s None = Err TypeError /\
  forall variant ords rnd ctl, life_init RA s ords rnd variant = Ok ctl -> forall c0 init k,
    run_sync ctl c0 init k = Err TypeError /\ run_async ctl c0 init k = Err TypeError /\ forall q sched, run_parallel ctl q sched c0 init k = Err TypeError.
Proof. exact C121_builders_lemma. Qed.
Print Assumptions C121_builders.
Example C121_builders_example : exists s, honeycomb 2 5 s /\ forall ords rnd, exists ctl, life_init RA s ords rnd Life = Ok ctl.
Proof. destruct (honey_all 2 5 ltac:(lia) ltac:(lia)) as (s & L & outs & HC & _). exists s. split; [exact HC|]. intros ords rnd. eexists. reflexivity. Qed.

(** C121. The same in binary64. *)
Theorem C121_builders_float : forall n m s r, 3 <= n <= 2 ^ 20 -> 3 <= m <= 2 ^ 20 -> fl_honeycomb f_inv n m s -> 1 <= r ->
  (exists b, MooreNbHoodBuilder FA r 2 = Ok b /\ nb_get FA b s None = Err TypeError) /\
  (exists b, VonNeumannNbHood2DBuilder FA r = Ok b /\ nb_get FA b s None = Err TypeError) /\
  growth_nbhood FA s None = Err TypeError /\
  forall variant ords rnd ctl, life_init FA s ords rnd variant = Ok ctl -> forall c0 init k,
    run_sync ctl c0 init k = Err TypeError /\ run_async ctl c0 init k = Err TypeError /\ forall q sched, run_parallel ctl q sched c0 init k = Err TypeError.
Proof. exact C121_float_lemma. Qed.
Print Assumptions C121_builders_float.
Example C121_float_example : exists s, fl_honeycomb f_inv 3 4 s /\ forall ords rnd, exists ctl, life_init FA s ords rnd Life = Ok ctl.
Proof.
  assert (AC : accurate 3 4 f_inv) by (apply C96_inverse_lemma; lia).
  destruct (C96_lemma f_inv 3 4 ltac:(lia) ltac:(lia) AC) as (s & N & HC & _). exists s. split; [exact HC|]. intros ords rnd. eexists. reflexivity.
Qed.
