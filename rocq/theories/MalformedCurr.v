(** Facts about [merge_updates] given something other than a dictionary to merge into. *)
From Coq Require Import ZArith List String Bool.
From Verif Require Import Prelude Dict Val StateModel RunnerModel.
Import ListNotations.

Lemma C128_merge_into_lemma : forall nu curr id,
  curr <> VNone -> (forall c, curr <> VDict c) ->
  (exists v, dget (KStr "SITES") nu = Some v) \/ (exists v, dget (KStr "GENERAL") nu = Some v) \/
  (nu <> [] /\ forall k v, In (k, v) nu -> exists z, k = KInt z) \/ id <> None ->
  merge_updates (VDict nu) curr id = Err TypeError.
Proof. intros nu curr id N D _. destruct curr; try reflexivity; [congruence|]. exfalso. eapply D. reflexivity. Qed.
