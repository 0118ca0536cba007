(** JSON trees and the (de)serialisation code of the core classes.  The text codec of
    Python's json module (and monty's dumpfn/loadfn, which call as_dict/from_dict) is
    taken to be the identity on these trees. *)
From Verif Require Import Prelude Val StateModel ResultModel.
From Coq Require Import DecimalString DecimalZ Decimal.

Inductive json : Type :=
| JNull
| JBool (b : bool)
| JInt (z : Z)
| JFloat (m e : Z)
| JStr (s : string)
| JArr (l : list json)
| JObj (d : list (string * json)).

(** [str(z)] *)
Definition str_of_Z (z : Z) : string := NilZero.string_of_int (Z.to_int z).

(** [int(s)] on strings: optional minus sign and decimal digits; anything else raises
    ValueError.  Simplification: the other literals Python accepts (spaces, underscores,
    a plus sign) are rejected here; [str_of_Z] never produces them. *)
Definition int_of_str (s : string) : res Z :=
  match NilZero.int_of_string s with
  | Some d => Ok (Z.of_int d)
  | None => Err ValueError
  end.

(** [json.dumps]: integer keys become strings, tuples become arrays. *)
Definition key_string (k : key) : string :=
  match k with KInt z => str_of_Z z | KStr s => s end.
Fixpoint to_json (v : val) : json :=
  match v with
  | VNone => JNull
  | VBool b => JBool b
  | VInt z => JInt z
  | VFloat m e => JFloat m e
  | VStr s => JStr s
  | VList l | VTuple l => JArr (map to_json l)
  | VDict d => JObj (map (fun kv => (key_string (fst kv), to_json (snd kv))) d)
  end.

(** [json.loads]: objects become dictionaries with string keys (the last of repeated
    keys wins). *)
Fixpoint of_json (j : json) : val :=
  match j with
  | JNull => VNone
  | JBool b => VBool b
  | JInt z => VInt z
  | JFloat m e => VFloat m e
  | JStr s => VStr s
  | JArr l => VList (map of_json l)
  | JObj d => VDict (dict_of (map (fun kv => (KStr (fst kv), of_json (snd kv))) d))
  end.

(** Writing to a file and reading back. *)
Definition json_roundtrip (v : val) : val := of_json (to_json v).

(** [d[k]] where [d] should be a dictionary. *)
Definition index (v : val) (k : key) : res val :=
  match v with VDict d => dgetE k d | _ => Err TypeError end.

(** [v.items()] *)
Definition items (v : val) : res pdict :=
  match v with VDict d => Ok d | _ => Err AttributeError end.

(** [int(k)] of a dictionary key. *)
Definition int_key (k : key) : res key :=
  match k with
  | KInt z => Ok (KInt z)
  | KStr s => do z <- int_of_str s; Ok (KInt z)
  end.

Definition class_keys (module cls : string) : pdict :=
  [(KStr "@module", VStr module); (KStr "@class", VStr cls)].

(** core/simulation_state.py:19-24 *)
Definition state_as_dict (s : sstate) : val :=
  VDict ((KStr "state", state_dict s) :: class_keys "pylattica.core.simulation_state" "SimulationState").

(** core/simulation_state.py:26-30.  Simplification: a dictionary without GENERAL, or with
    a site whose state is not a dictionary, raises here (in Python only later). *)
Definition state_from_dict (d : val) : res sstate :=
  do state <- index d (KStr "state");
  do sites <- index state SITES;
  do its <- items sites;
  do its' <- mapM (fun kv => do k <- int_key (fst kv); do d <- as_mapping (snd kv); Ok (k, d)) its;
  do g <- index state GENERAL;
  do gd <- as_mapping g;
  Ok (mkS (dict_of its') gd).

(** core/simulation_result.py:132-138 *)
Definition result_as_dict (r : sresult) : val :=
  VDict ((KStr "initial_state", state_as_dict (r_init r))
           :: (KStr "diffs", VList (r_diffs r))
           :: class_keys "pylattica.core.simulation_result" "SimulationResult").

(** [{int(k): v for k, v in diff.items() if k != "GENERAL"}], core/simulation_result.py:28 *)
Definition format_diff (diff : val) : res val :=
  do its <- items diff;
  do its' <- mapM (fun kv => do k <- int_key (fst kv); Ok (k, snd kv))
                  (filter (fun kv => negb (eqb (fst kv) GENERAL)) its);
  Ok (VDict (dict_of its')).

(** [for x in v]: the elements of a list or tuple, the keys of a dictionary, the
    characters of a string; anything else is a TypeError. *)
Definition iterated (v : val) : res (list val) :=
  match v with
  | VList l | VTuple l => Ok l
  | VDict d => Ok (map (fun kv => key_val (fst kv)) d)
  | VStr s => Ok (map (fun a => VStr (String a EmptyString)) (list_ascii_of_string s))
  | _ => Err TypeError
  end.

(** core/simulation_result.py:23-30 *)
Definition result_from_dict (d : val) : res sresult :=
  do diffs <- index d (KStr "diffs");
  do init <- index d (KStr "initial_state");
  do s <- state_from_dict init;
  do l <- iterated diffs;
  foldM (fun r diff => do f <- format_diff diff; Ok (add_step r f)) l (new_result s).
