(** Vocabulary for comparing runs of life-like variants (C139). *)
From Coq Require Import Reals Permutation.
From Verif Require Import Prelude Dict Val Arith RealArith LatticeModel StructModel StateModel ResultModel RunnerModel NbModel GridModel RulesModel SpecGeom SpecNb SpecGrid SpecState SpecSetup SpecRules SpecLife.
Local Open Scope Z_scope.

(** A plane grid at least three cells wide and high, and a state of all its cells that shows the pattern. *)
Definition board (size : list Z) (s : structure R) (init : sstate) (g : Z -> Z -> bool) : Prop :=
  square_grid size s /\ length size = 2%nat /\ Forall (fun m => 3 <= m) size /\
  Permutation (site_ids init) (map (fun x => KInt (s_id x)) (sites s None)) /\ shows s init g.
(** A serial or parallel run of the variant, with whatever order neighbours are listed in. *)
Definition played (s : structure R) (variant : string) (init : sstate) (n : Z) (o : run_out) : Prop :=
  exists ords rnd ctl, (forall t, legal (ords t)) /\ life_init RA s ords rnd variant = Ok ctl /\ some_run ctl (None, 0%nat) init n o.
