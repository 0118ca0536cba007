(** Properties C117 and C118: honeycombs of every size. *)
From Coq Require Import Reals.
From Verif Require Import Prelude Dict Val Arith RealArith LatticeModel JsonModel StructModel StateModel NbModel GridModel SimModel SpecState SpecResult SpecNb SpecHoney StateFacts StructFacts StructMore NbFacts HoneyFacts HoneyAll HoneySmall.
Local Open Scope Z_scope.

(** C117. Sites, lookups and reloading of honeycombs. *)
Theorem C117_honeycombs : forall n m, 1 <= n -> 1 <= m -> exists s, honeycomb n m s /\
  Z.of_nat (length (sites s None)) = n * m /\
  (forall i j, exists x, site_at RA s (hex_centre i j) = Ok (Some x) /\ get_site s (hex_id n m i j) = Some x /\
     s_id x = hex_id n m i j /\ s_class x = "A"%string /\ s_loc x = map round3 (hex_centre (i mod n) (j mod m))) /\
  (forall x y k, id_at RA s [x; y] = Ok (Some k) -> exists i j, k = hex_id n m i j /\
     (Rabs (x - nth 0 (hex_centre i j) 0) <= 1/1000 /\ Rabs (y - nth 1 (hex_centre i j) 0) <= 1/1000)%R) /\
  struct_from_dict RA (struct_json s) = Ok s /\
  (forall st i j, state_at RA (mkSim st s) (hex_centre i j) = Ok (get_site_state st (KInt (hex_id n m i j)))) /\
  (forall st, json_state st -> sim_from_dict RA (sim_json (mkSim st s)) = Ok (mkSim st s)).
Proof. exact C117_lemma. Qed.
Print Assumptions C117_honeycombs.
Example C117_example : hex_id 3 4 (-1) 5 = 9 /\ hex_centre (-1) 5 <> hex_centre 2 1 /\ json_state (mkS [(KInt 9, [(KStr "DISCRETE_OCCUPANCY", VStr "a")])] []).
Proof.
  split; [reflexivity|]. split.
  - intros E. injection E as E _. apply (f_equal (fun x => (x * 4)%R)) in E. unfold Rdiv in E. Lra.lra.
  - split; [repeat constructor; cbn; tauto|]. split; [|split; constructor]. repeat constructor; cbn; try (now eexists); intuition (try discriminate; eauto).
Qed.

(** C118, part: true if one side is 1, both are 2 or both are at least 3. Missing: one side 2 and the other at least 3, where it is false (below). *)
Theorem C118_neighbours_partial : forall n m, 1 <= n -> 1 <= m -> n = 1 \/ m = 1 \/ (n = 2 /\ m = 2) \/ (3 <= n /\ 3 <= m) ->
  exists s N, honeycomb n m s /\ nb_get RA (HoneycombNeighborhoodBuilder RA) s None = Ok N /\
    forall i j, 0 <= i < n -> 0 <= j < m -> neighbours N (hex_id n m i j) (fun k => In k (six n m i j) /\ k <> hex_id n m i j).
Proof. exact C118_lemma. Qed.
Print Assumptions C118_neighbours_partial.
Example C118_example : six 1 4 0 0 = [0; 0; 1; 3; 3; 1] /\ six 2 2 0 0 = [2; 2; 1; 1; 3; 3] /\ six 3 3 0 0 = [3; 6; 1; 2; 5; 7].
Proof. repeat split; reflexivity. Qed.

(** C118 is false of every honeycomb with 2 by m cells, m >= 3. *)
Theorem C118_rows_refuted : forall m, 3 <= m -> exists s N i j k P, honeycomb 2 m s /\ nb_get RA (HoneycombNeighborhoodBuilder RA) s None = Ok N /\
  0 <= i < 2 /\ 0 <= j < m /\ In k (six 2 m i j) /\ k <> hex_id 2 m i j /\ neighbours N (hex_id 2 m i j) P /\ ~ P k.
Proof. exact C118_rows_lemma. Qed.
Print Assumptions C118_rows_refuted.
Example C118_rows_example : six 2 3 0 0 = [3; 3; 1; 2; 5; 4].
Proof. reflexivity. Qed.

(** C118 is false of every honeycomb with n by 2 cells, n >= 3. *)
Theorem C118_columns_refuted : forall n, 3 <= n -> exists s N i j k P, honeycomb n 2 s /\ nb_get RA (HoneycombNeighborhoodBuilder RA) s None = Ok N /\
  0 <= i < n /\ 0 <= j < 2 /\ In k (six n 2 i j) /\ k <> hex_id n 2 i j /\ neighbours N (hex_id n 2 i j) P /\ ~ P k.
Proof. exact C118_columns_lemma. Qed.
Print Assumptions C118_columns_refuted.
Example C118_columns_example : six 3 2 0 0 = [2; 4; 1; 1; 3; 5].
Proof. reflexivity. Qed.
