(** Property C116: growth on honeycombs. *)
From Coq Require Import Reals Permutation.
From Flocq Require Import Core BinarySingleNaN.
From Verif Require Import Prelude Dict Val Arith RealArith FloatArith LatticeModel StructModel StateModel ResultModel RunnerModel NbModel GridModel RulesModel SpecState SpecNb SpecRules SpecHoney SpecHexDist SpecFloat64 SpecHoneyFloat StateFacts StructFacts StructMore NbFacts GridFacts GridMore GridNb HoneyFacts FloatHoney FloatInv HoneyGrow HoneyAsync.
Local Open Scope Z_scope.

(** C116. Growth on honeycombs, in exact arithmetic. *)
Theorem C116_hexagons : forall n m s N bg ords rnd ids c0 init k, 3 <= n -> 3 <= m -> honeycomb n m s ->
  growth_nbhood RA s (Some (HoneycombNeighborhoodBuilder RA)) = Ok N ->
  (forall t, legal (ords t)) -> Permutation ids (map s_id (sites s None)) -> phased ids init ->
  (exists o, run_sync (growth_controller N bg ords rnd) c0 init k = Ok o /\ rlen (o_result o) = Z.max 0 k + 1 /\
     forall t, 0 <= t <= Z.max 0 k -> exists st, get_step (o_result o) t = Ok st /\
       forall i j, occupied bg st (hex_id n m i j) <-> exists a b, hex_distance a b <= t /\ occupied bg init (hex_id n m (i + a) (j + b))) /\
  (forall q sched, 1 <= q -> exists o, run_parallel (growth_controller N bg ords rnd) q sched c0 init k = Ok o /\ rlen (o_result o) = Z.max 0 k + 1 /\
     forall t, 0 <= t <= Z.max 0 k -> exists st, get_step (o_result o) t = Ok st /\
       forall i j, occupied bg st (hex_id n m i j) <-> exists a b, hex_distance a b <= t /\ occupied bg init (hex_id n m (i + a) (j + b))).
Proof. exact C116_lemma. Qed.
Print Assumptions C116_hexagons.
Example C116_example : exists s N, honeycomb 3 4 s /\ growth_nbhood RA s (Some (HoneycombNeighborhoodBuilder RA)) = Ok N /\
  Permutation (zrange 0 12) (map s_id (sites s None)) /\ phased (zrange 0 12) hex_spot /\ occupied "bg" hex_spot (hex_id 3 4 1 1) /\
  hex_distance 1 (-1) = 1 /\ hex_distance 1 1 = 2 /\ hex_distance (-2) 1 = 2.
Proof.
  destruct (C44_lemma 3 4 ltac:(lia) ltac:(lia)) as (s & N & HC & CT & EN & _). exists s, N. split; [exact HC|]. split; [exact EN|].
  destruct (honey_struct 3 4 ltac:(lia) ltac:(lia)) as (s2 & L & HC2 & _ & HB & _). rewrite (honey_unique _ _ _ _ HC2 HC) in *.
  split; [rewrite (built_dense RA L s HB), CT; apply Permutation_refl|]. split; [exact hex_spot_phased|].
  split; [|repeat split; reflexivity]. exists "a"%string. split; [reflexivity|discriminate].
Qed.

(** C116. The same in binary64. *)
Theorem C116_hexagons_float : forall n m s N bg ords rnd ids c0 init k, 3 <= n <= 2 ^ 20 -> 3 <= m <= 2 ^ 20 -> fl_honeycomb f_inv n m s ->
  growth_nbhood FA s (Some (HoneycombNeighborhoodBuilder FA)) = Ok N ->
  (forall t, legal (ords t)) -> Permutation ids (map s_id (sites s None)) -> phased ids init ->
  (exists o, run_sync (growth_controller N bg ords rnd) c0 init k = Ok o /\ rlen (o_result o) = Z.max 0 k + 1 /\
     forall t, 0 <= t <= Z.max 0 k -> exists st, get_step (o_result o) t = Ok st /\
       forall i j, occupied bg st (hex_id n m i j) <-> exists a b, hex_distance a b <= t /\ occupied bg init (hex_id n m (i + a) (j + b))) /\
  (forall q sched, 1 <= q -> exists o, run_parallel (growth_controller N bg ords rnd) q sched c0 init k = Ok o /\ rlen (o_result o) = Z.max 0 k + 1 /\
     forall t, 0 <= t <= Z.max 0 k -> exists st, get_step (o_result o) t = Ok st /\
       forall i j, occupied bg st (hex_id n m i j) <-> exists a b, hex_distance a b <= t /\ occupied bg init (hex_id n m (i + a) (j + b))).
Proof. exact C116_float_lemma. Qed.
Print Assumptions C116_hexagons_float.
Example C116_float_example : exists s N, fl_honeycomb f_inv 3 4 s /\ growth_nbhood FA s (Some (HoneycombNeighborhoodBuilder FA)) = Ok N /\
  Permutation (zrange 0 12) (map s_id (sites s None)) /\ phased (zrange 0 12) hex_spot.
Proof.
  assert (AC : accurate 3 4 f_inv) by (apply C96_inverse_lemma; lia).
  destruct (C96_lemma f_inv 3 4 ltac:(lia) ltac:(lia) AC) as (s & N & HC & CT & EN & _). exists s, N. split; [exact HC|]. split; [exact EN|].
  destruct (hex_built f_inv 3 4 ltac:(lia) ltac:(lia) AC) as (s2 & HC2 & HS). rewrite (fl_honey_unique _ _ _ _ _ HC2 HC) in *.
  split; [rewrite (hs_dense _ _ _ HS), CT; apply Permutation_refl|exact hex_spot_phased].
Qed.

(** C116. All cells are occupied after n // 2 + m // 2 steps. *)
Theorem C116_fills : forall n m s N bg ords rnd ids c0 init k, 3 <= n -> 3 <= m -> honeycomb n m s ->
  growth_nbhood RA s (Some (HoneycombNeighborhoodBuilder RA)) = Ok N ->
  (forall t, legal (ords t)) -> Permutation ids (map s_id (sites s None)) -> phased ids init ->
  (exists i, In i ids /\ occupied bg init i) -> n / 2 + m / 2 <= k ->
  (exists o st, run_sync (growth_controller N bg ords rnd) c0 init k = Ok o /\ get_step (o_result o) k = Ok st /\ forall i, In i ids -> occupied bg st i) /\
  (forall q sched, 1 <= q -> exists o st, run_parallel (growth_controller N bg ords rnd) q sched c0 init k = Ok o /\ get_step (o_result o) k = Ok st /\ forall i, In i ids -> occupied bg st i).
Proof. exact C116_fills_lemma. Qed.
Print Assumptions C116_fills.
Example C116_fills_example : (exists i, In i (zrange 0 12) /\ occupied "bg" hex_spot i) /\ ~ occupied "bg" hex_spot 0 /\ 3 / 2 + 4 / 2 = 3.
Proof.
  split; [exists 5; split; [apply zrange_In; lia|exists "a"%string; split; [reflexivity|discriminate]]|]. split; [|reflexivity].
  intros (p & H & NB). vm_compute in H. apply NB. inversion H. reflexivity.
Qed.

(** C116. The same in exact arithmetic if a side is 1 or both are 2. *)
Theorem C116_small : forall n m s N bg ords rnd ids c0 init k, 1 <= n -> 1 <= m -> n = 1 \/ m = 1 \/ (n = 2 /\ m = 2) \/ (3 <= n /\ 3 <= m) -> honeycomb n m s ->
  growth_nbhood RA s (Some (HoneycombNeighborhoodBuilder RA)) = Ok N ->
  (forall t, legal (ords t)) -> Permutation ids (map s_id (sites s None)) -> phased ids init ->
  (exists o, run_sync (growth_controller N bg ords rnd) c0 init k = Ok o /\ rlen (o_result o) = Z.max 0 k + 1 /\
     forall t, 0 <= t <= Z.max 0 k -> exists st, get_step (o_result o) t = Ok st /\
       forall i j, occupied bg st (hex_id n m i j) <-> exists a b, hex_distance a b <= t /\ occupied bg init (hex_id n m (i + a) (j + b))) /\
  (forall q sched, 1 <= q -> exists o, run_parallel (growth_controller N bg ords rnd) q sched c0 init k = Ok o /\ rlen (o_result o) = Z.max 0 k + 1 /\
     forall t, 0 <= t <= Z.max 0 k -> exists st, get_step (o_result o) t = Ok st /\
       forall i j, occupied bg st (hex_id n m i j) <-> exists a b, hex_distance a b <= t /\ occupied bg init (hex_id n m (i + a) (j + b))).
Proof. exact C116_every_lemma. Qed.
Print Assumptions C116_small.
Example C116_small_example : exists s N, honeycomb 1 4 s /\ growth_nbhood RA s (Some (HoneycombNeighborhoodBuilder RA)) = Ok N /\ hex_id 1 4 2 (-1) = 3.
Proof. destruct (HoneySmall.C118_lemma 1 4 ltac:(lia) ltac:(lia) ltac:(auto)) as (s & N & HC & EN & _). exists s, N. auto. Qed.
