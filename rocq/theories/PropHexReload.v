(** Property C119: reloading honeycombs in binary64. *)
From Coq Require Import Reals.
From Flocq Require Import Core BinarySingleNaN.
From Verif Require Import Prelude Dict Val Arith RealArith FloatArith LatticeModel JsonModel StructModel StateModel NbModel GridModel SimModel SpecState SpecResult SpecNb SpecHoney SpecFloat64 SpecNuc SpecHoneyFloat StateFacts StructFacts StructMore NbFacts FloatHoney FloatInv FloatHexReload.
Local Open Scope Z_scope.

(** C119. Honeycombs written out and read back. *)
Theorem C119_reload : forall n m s st, (3 <= n <= 2 ^ 20)%Z -> (3 <= m <= 2 ^ 20)%Z -> fl_honeycomb f_inv n m s -> json_state st ->
  exists s' s'', struct_from_dict FA (struct_json s) = Ok s' /\ sim_from_dict FA (sim_json (mkSim st s)) = Ok (mkSim st s') /\
    p_lattice s' = p_lattice s /\ p_dim s' = p_dim s /\ map s_id (sites s' None) = map s_id (sites s None) /\
    (forall i x, get_site s i = Some x -> id_at FA s' (s_loc x) = Ok (Some i) /\ exists x', get_site s' i = Some x' /\ s_class x' = s_class x /\
       Forall2 (fun a b => exists r, denotes a r /\ denotes b r) (s_loc x) (s_loc x')) /\
    (exists G G', nb_get FA (HoneycombNeighborhoodBuilder FA) s None = Ok G /\ nb_get FA (HoneycombNeighborhoodBuilder FA) s' None = Ok G' /\
       forall i j, (0 <= i < n)%Z -> (0 <= j < m)%Z -> neighbours G (hex_id n m i j) (fun k => In k (six n m i j)) /\ neighbours G' (hex_id n m i j) (fun k => In k (six n m i j))) /\
    struct_from_dict FA (struct_json s') = Ok s'' /\ reloaded s' s''.
Proof. exact C119_lemma. Qed.
Print Assumptions C119_reload.
Example C119_example : exists s, fl_honeycomb f_inv 5 7 s /\ Z.of_nat (length (sites s None)) = 35 /\ json_state (mkS [(KInt 9, [(KStr "DISCRETE_OCCUPANCY", VStr "a")])] []).
Proof.
  assert (AC : accurate 5 7 f_inv) by (apply C96_inverse_lemma; lia).
  destruct (C96_lemma f_inv 5 7 ltac:(lia) ltac:(lia) AC) as (s & N & HC & CT & _). exists s. split; [exact HC|]. split; [exact CT|].
  split; [repeat constructor; cbn; tauto|]. split; [|split; constructor]. repeat constructor; cbn; try (now eexists); intuition (try discriminate; eauto).
Qed.
