(** A controller that numbers its answers, for the examples. *)
From Verif Require Import Prelude Val StateModel ResultModel RunnerModel SpecState SpecRunner SpecCalls.

(** Every answer sets the number of the call; the fourth site is offered. *)
Definition numbering : controller Z :=
  mkController (fun c _ => Ok c) (fun c _ => Ok (VInt 4, c + 100)) (fun c _ _ => Ok (VDict [(KStr "n", VInt c)], c + 1)).

Lemma numbering_proper : proper_rule numbering.
Proof.
  intros c id s v c' S G E M. injection E as <- <-. inversion M as [|? R N|? R N|? ? ? E1 E2 R]; subst.
  - split; [repeat constructor; cbn; tauto|]. split; [constructor|]. intros i w [E|[]] u Ew. injection E as <- <-. injection Ew as <-. repeat constructor. cbn. tauto.
  - exfalso. destruct N as (_ & N). destruct (N (KStr "n")) as (z & E); [now left|discriminate].
  - exfalso. apply R. split; reflexivity.
Qed.
