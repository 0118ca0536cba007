(** Vocabulary for the named life-like variants (C107). *)
From Verif Require Import Prelude Dict Val StateModel ResultModel RunnerModel RulesModel.
Local Open Scope Z_scope.

(** The numbers of living neighbours with which cells are born and stay alive. *)
Definition named_variants : list (string * (list Z * list Z)) :=
  [(Life, ([3], [2; 3])); (Maze, ([3], [1; 2; 3; 4; 5])); (Anneal, ([4; 6; 7; 8], [3; 5; 6; 7; 8]));
   (Diamoeba, ([3; 5; 6; 7; 8], [5; 6; 7; 8])); (Seeds, ([2], []))].

(** A serial run or a parallel run under some schedule. *)
Definition some_run {C} (ctl : controller C) (c0 : C) (init : sstate) (k : Z) (o : run_out) : Prop :=
  run_sync ctl c0 init k = Ok o \/ exists p sched, 1 <= p /\ run_parallel ctl p sched c0 init k = Ok o.
