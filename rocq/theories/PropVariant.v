(** Property C53: malformed variant strings. *)
From Coq Require Import Ascii String.
From Verif Require Import Prelude Dict Val Arith RunnerModel RulesModel SpecVariant VariantFacts.
Local Open Scope Z_scope.
Local Open Scope string_scope.
Local Open Scope list_scope.

(** C53. What malformed variant strings raise. *)
Theorem C53_malformed : forall a b c,
  slashless a -> slashless b ->
  (readable a -> process_variant_string a = Err IndexError) /\
  (~ readable a -> process_variant_string a = Err ValueError /\ forall r, process_variant_string (a ++ "/" ++ r) = Err ValueError) /\
  (~ readable b -> process_variant_string (a ++ "/" ++ b) = Err ValueError) /\
  process_variant_string (a ++ "/" ++ b ++ "/" ++ c) = process_variant_string (a ++ "/" ++ b).
Proof. exact C53_malformed_lemma. Qed.
Print Assumptions C53_malformed.
Example C53_malformed_example : slashless "B3x" /\ slashless "S2" /\ readable "S2" /\ ~ readable "B3x" /\ process_variant_string "B3/S2x" = Err ValueError /\ process_variant_string "B3/S2/x" = Ok ([3], [2]).
Proof.
  unfold slashless, readable, decimal. cbn. split; [intros [E|[E|[E|[]]]]; discriminate|]. split; [intros [E|[E|[]]]; discriminate|]. split; [constructor; [cbn; lia|constructor]|].
  split; [|split; reflexivity]. intros H. apply Forall_inv_tail, Forall_inv in H. cbn in H. lia.
Qed.
