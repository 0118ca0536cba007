(** Model of src/pylattica/core/simulation.py. *)
From Verif Require Import Prelude Val Arith LatticeModel StructModel StateModel JsonModel.

(** src/pylattica/core/simulation.py:16-27, the attributes of a [Simulation]. *)
Record simulation (F : Type) := mkSim { sim_state : sstate; sim_struct : structure F }.
Arguments mkSim {F}. Arguments sim_state {F}. Arguments sim_struct {F}.

Section Simulation.
  Context {F : Type} (A : arith F).

  (** src/pylattica/core/simulation.py:49-68 [state_at] *)
  Definition state_at (sim : simulation F) (location : list F) : res (option pdict) :=
    do x <- site_at A (sim_struct sim) location;
    match x with
    | None => Ok None
    | Some x => Ok (get_site_state (sim_state sim) (KInt (s_id x)))
    end.

  (** src/pylattica/core/simulation.py:29-35 [as_dict], [to_file] followed by
      reading the JSON text back; the dictionary with keys "state" and
      "structure" as a pair. *)
  Definition sim_json (sim : simulation F) : val * ((list (list F) * list bool) * dict string (site F)) :=
    (json_roundtrip (state_as_dict (sim_state sim)), struct_json (sim_struct sim)).

  (** src/pylattica/core/simulation.py:37-47 [from_dict], [from_file] *)
  Definition sim_from_dict (d : val * ((list (list F) * list bool) * dict string (site F))) : res (simulation F) :=
    do state <- state_from_dict (fst d);
    do structure <- struct_from_dict A (snd d);
    Ok (mkSim state structure).
End Simulation.
