(** growth_controller.py:10-26: constructing a [GrowthController]. *)
From Verif Require Import Prelude Val Arith LatticeModel StructModel StateModel RunnerModel NbModel GridModel SetupModel RulesModel.

(** src/pylattica/models/growth/growth_controller.py:11-26 [GrowthController.__init__];
    the default of [background_phase] is VACANT (discrete/state_constants.py:1).
    Simplification: [phase_set] is stored and never used, so it is left out. *)
Definition growth_init {F} (A : arith F) (s : structure F) (background_phase : option string) (b : option (nb_builder F))
    (ords : nat -> @nb_oracle F) (rnd : nat -> nat) : res (controller nat) :=
  do N <- growth_nbhood A s b;
  Ok (growth_controller N (match background_phase with None => VACANT | Some p => p end) ords rnd).
