(** Saving simulation results to files and loading them (core/simulation_result.py). *)
From Verif Require Import Prelude Dict Val StateModel ResultModel JsonModel.
Local Open Scope Z_scope.

(** [datetime.datetime.now()]; seconds are not used by the code. *)
Record clock : Type := mkClock { c_year : Z; c_month : Z; c_day : Z; c_hour : Z; c_minute : Z }.

(** [%m], [%d], [%H] and [%M]: at least two digits. *)
Definition pad2 (z : Z) : string := if z <? 10 then ("0" ++ str_of_Z z)%string else str_of_Z z.

(** [now.strftime("%m-%d-%Y-%H-%M")], core/simulation_result.py:150.  Simplification: years
    from 1000 on ([%Y] pads smaller ones on some platforms only). *)
Definition date_string (t : clock) : string :=
  (pad2 (c_month t) ++ "-" ++ pad2 (c_day t) ++ "-" ++ str_of_Z (c_year t) ++ "-" ++ pad2 (c_hour t) ++ "-" ++ pad2 (c_minute t))%string.

(** Files by path.  Simplification: every file holds JSON, paths that differ as strings
    are different files, and writing never fails (no directories, permissions or
    compression by extension). *)
Definition files := dict string json.

(** core/simulation_result.py:140-154.  [dumpfn] writes the JSON of [as_dict()]. *)
Definition to_file (r : sresult) (fpath : option string) (now : clock) (fs : files) : string * files :=
  let fpath := match fpath with None => (date_string now ++ ".json")%string | Some p => p end in
  (fpath, dset fpath (to_json (result_as_dict r)) fs).

(** What [loadfn] returns: an object of the class named in the file, or the plain value. *)
Inductive loaded : Type := LResult (r : sresult) | LState (s : sstate) | LPlain (v : val).

(** monty's [MontyDecoder.process_decoded]: a dictionary with "@module" and "@class" is given
    to [from_dict] of that class, without the entries whose key begins with "@".
    Simplification: only the two classes of this package that are saved by their own are
    known; objects nested in plain values are left alone. *)
Definition without_at (d : pdict) : pdict :=
  filter (fun kv => match fst kv with KStr k => negb (prefix "@" k) | _ => true end) d.
Definition process_decoded (v : val) : res loaded :=
  match v with
  | VDict d =>
      match dget (KStr "@module") d, dget (KStr "@class") d with
      | Some (VStr m), Some (VStr c) =>
          if String.eqb m "pylattica.core.simulation_result" && String.eqb c "SimulationResult"
          then do r <- result_from_dict (VDict (without_at d)); Ok (LResult r)
          else if String.eqb m "pylattica.core.simulation_state" && String.eqb c "SimulationState"
          then do s <- state_from_dict (VDict (without_at d)); Ok (LState s)
          else Ok (LPlain v)
      | _, _ => Ok (LPlain v)
      end
  | _ => Ok (LPlain v)
  end.

(** core/simulation_result.py:19-21 *)
Definition from_file (fpath : string) (fs : files) : res loaded :=
  match dget fpath fs with None => Err FileNotFoundError | Some j => process_decoded (of_json j) end.
