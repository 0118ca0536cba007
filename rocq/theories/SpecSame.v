(** Controllers that give the same answers. *)
From Verif Require Import Prelude Val StateModel RunnerModel.

(** The same answer or the same exception, with hidden states related by [R]. *)
Definition same_answer {A C C'} (R : C -> C' -> Prop) (x : res (A * C)) (y : res (A * C')) : Prop :=
  match x, y with
  | Ok (a, c), Ok (a', c') => a = a' /\ R c c'
  | Err e, Err e' => e = e'
  | _, _ => False
  end.

(** From related hidden states the methods of both controllers answer alike. *)
Record alike {C C'} (R : C -> C' -> Prop) (ctl : controller C) (ctl' : controller C') : Prop := {
  alike_pre : forall c c' st, R c c' ->
    match c_pre_run ctl c st, c_pre_run ctl' c' st with Ok d, Ok d' => R d d' | Err e, Err e' => e = e' | _, _ => False end;
  alike_site : forall c c' st, R c c' -> same_answer R (c_random_site ctl c st) (c_random_site ctl' c' st);
  alike_update : forall c c' k st, R c c' -> same_answer R (c_update ctl c k st) (c_update ctl' c' k st) }.
