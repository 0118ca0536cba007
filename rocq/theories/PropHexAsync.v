(** Property C120: asynchronous growth on honeycombs. *)
From Coq Require Import Reals.
From Flocq Require Import Core BinarySingleNaN.
From Verif Require Import Prelude Dict Val Arith RealArith FloatArith LatticeModel StructModel StateModel ResultModel RunnerModel NbModel GridModel RulesModel SpecState SpecNb SpecRules SpecHoney SpecHexDist SpecFloat64 SpecHoneyFloat StateFacts StructFacts StructMore NbFacts GridFacts GridMore GridNb HoneyFacts FloatHoney FloatInv HoneyGrow HoneyAsync.
Local Open Scope Z_scope.

(** C120. Asynchronous growth on honeycombs, in exact arithmetic. *)
Theorem C120_async : forall n m s N bg ords rnd c0 init k, 1 <= n -> 1 <= m -> n = 1 \/ m = 1 \/ (n = 2 /\ m = 2) \/ (3 <= n /\ 3 <= m) -> honeycomb n m s ->
  growth_nbhood RA s (Some (HoneycombNeighborhoodBuilder RA)) = Ok N -> (forall t, legal (ords t)) -> phased (zrange 0 (n * m)) init ->
  exists o, run_async (growth_controller N bg ords rnd) c0 init k = Ok o /\ rlen (o_result o) = Z.max 0 k + 1 /\
    forall t, 0 <= t <= Z.max 0 k -> exists st, get_step (o_result o) t = Ok st /\
      (forall i j, occupied bg st (hex_id n m i j) -> exists a b, hex_distance a b <= t /\ occupied bg init (hex_id n m (i + a) (j + b))) /\
      forall i, 0 <= i < n * m -> (occupied bg st i <-> exists j l, occupied bg init j /\ walk (fun x y => exists a b, x = hex_id n m a b /\ In y (six n m a b) /\ y <> x) j l i /\
        in_order l (map (fun k => Z.of_nat (rnd (c0 + 2 * k)%nat) mod (n * m)) (seq 0 (Z.to_nat t)))).
Proof. exact C120_lemma. Qed.
Print Assumptions C120_async.
Example C120_example : exists s N, honeycomb 3 4 s /\ growth_nbhood RA s (Some (HoneycombNeighborhoodBuilder RA)) = Ok N /\ phased (zrange 0 (3 * 4)) hex_spot /\
  walk (fun x y => exists a b, x = hex_id 3 4 a b /\ In y (six 3 4 a b) /\ y <> x) 5 [6; 9] 9 /\ in_order [6; 9] [2; 6; 5; 9; 6].
Proof.
  destruct (C44_lemma 3 4 ltac:(lia) ltac:(lia)) as (s & N & HC & _ & EN & _). exists s, N. split; [exact HC|]. split; [exact EN|]. split; [exact hex_spot_phased|].
  split; [|repeat constructor]. split; [exists 1, 2; vm_compute; intuition congruence|]. split; [exists 2, 1; vm_compute; intuition congruence|]. reflexivity.
Qed.

(** C120. If every site is drawn again and again all cells are occupied in the end. *)
Theorem C120_fills : forall n m s N bg ords rnd c0 init, 1 <= n -> 1 <= m -> n = 1 \/ m = 1 \/ (n = 2 /\ m = 2) \/ (3 <= n /\ 3 <= m) -> honeycomb n m s ->
  growth_nbhood RA s (Some (HoneycombNeighborhoodBuilder RA)) = Ok N -> (forall t, legal (ords t)) -> phased (zrange 0 (n * m)) init ->
  (forall a t, 0 <= a < n * m -> exists t', (t <= t')%nat /\ Z.of_nat (rnd (c0 + 2 * t')%nat) mod (n * m) = a) ->
  (exists i, 0 <= i < n * m /\ occupied bg init i) ->
  exists n0, forall k, n0 <= k -> exists o st, run_async (growth_controller N bg ords rnd) c0 init k = Ok o /\ last_step (o_result o) = Ok st /\
    forall i, 0 <= i < n * m -> occupied bg st i.
Proof. exact C120_fills_lemma. Qed.
Print Assumptions C120_fills.
Example C120_fills_example : (forall a t, 0 <= a < 3 * 4 -> exists t', (t <= t')%nat /\ Z.of_nat (Nat.div2 (0 + 2 * t')%nat) mod (3 * 4) = a) /\
  exists i, 0 <= i < 3 * 4 /\ occupied "bg" hex_spot i.
Proof.
  split.
  - intros a t H. exists (12 * t + Z.to_nat a)%nat. split; [lia|]. rewrite Nat.add_0_l, Nat.div2_double.
    replace (Z.of_nat (12 * t + Z.to_nat a)) with (a + Z.of_nat t * (3 * 4)) by lia. rewrite Z.mod_add by lia. apply Z.mod_small. lia.
  - exists 5. split; [lia|]. exists "a"%string. split; [reflexivity|discriminate].
Qed.

(** C120. The same in binary64. *)
Theorem C120_async_float : forall n m s N bg ords rnd c0 init k, 3 <= n <= 2 ^ 20 -> 3 <= m <= 2 ^ 20 -> fl_honeycomb f_inv n m s ->
  growth_nbhood FA s (Some (HoneycombNeighborhoodBuilder FA)) = Ok N -> (forall t, legal (ords t)) -> phased (zrange 0 (n * m)) init ->
  (exists o, run_async (growth_controller N bg ords rnd) c0 init k = Ok o /\ rlen (o_result o) = Z.max 0 k + 1 /\
    forall t, 0 <= t <= Z.max 0 k -> exists st, get_step (o_result o) t = Ok st /\
      (forall i j, occupied bg st (hex_id n m i j) -> exists a b, hex_distance a b <= t /\ occupied bg init (hex_id n m (i + a) (j + b))) /\
      forall i, 0 <= i < n * m -> (occupied bg st i <-> exists j l, occupied bg init j /\ walk (fun x y => exists a b, x = hex_id n m a b /\ In y (six n m a b) /\ y <> x) j l i /\
        in_order l (map (fun k => Z.of_nat (rnd (c0 + 2 * k)%nat) mod (n * m)) (seq 0 (Z.to_nat t))))) /\
  ((forall a t, 0 <= a < n * m -> exists t', (t <= t')%nat /\ Z.of_nat (rnd (c0 + 2 * t')%nat) mod (n * m) = a) ->
   (exists i, 0 <= i < n * m /\ occupied bg init i) ->
   exists n0, forall k, n0 <= k -> exists o st, run_async (growth_controller N bg ords rnd) c0 init k = Ok o /\ last_step (o_result o) = Ok st /\
     forall i, 0 <= i < n * m -> occupied bg st i).
Proof. exact C120_float_lemma. Qed.
Print Assumptions C120_async_float.
Example C120_float_example : exists s N, fl_honeycomb f_inv 3 4 s /\ growth_nbhood FA s (Some (HoneycombNeighborhoodBuilder FA)) = Ok N /\ phased (zrange 0 (3 * 4)) hex_spot.
Proof.
  assert (AC : accurate 3 4 f_inv) by (apply C96_inverse_lemma; lia).
  destruct (C96_lemma f_inv 3 4 ltac:(lia) ltac:(lia) AC) as (s & N & HC & CT & EN & _). exists s, N. split; [exact HC|]. split; [exact EN|exact hex_spot_phased].
Qed.
