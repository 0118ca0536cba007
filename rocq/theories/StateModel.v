(** Model of core/simulation_state.py (SimulationState). *)
From Verif Require Import Prelude Val.

(** The object's [_state] dictionary.  core/simulation_state.py:41-55.
    Simplification: both top-level keys are always present (true of every state
    built by the constructor without argument or from a complete dictionary).
    Value semantics: object identity and aliasing are in HeapModel.v. *)
Record sstate : Type := mkS { s_sites : dict key pdict; s_general : pdict }.

(** [SimulationState()].  core/simulation_state.py:49-53 *)
Definition s_empty : sstate := mkS [] [].

(** core/simulation_state.py:68-75 *)
Definition site_ids (s : sstate) : list key := dkeys (s_sites s).

(** core/simulation_state.py:57-66 *)
Definition size (s : sstate) : Z := Z.of_nat (length (site_ids s)).

(** core/simulation_state.py:77-86 *)
Definition all_site_states (s : sstate) : list pdict := dvals (s_sites s).

(** core/simulation_state.py:88-101 *)
Definition get_site_state (s : sstate) (id : key) : option pdict := dget id (s_sites s).

(** core/simulation_state.py:103-111 *)
Definition get_general_state (s : sstate) : pdict := s_general s.

(** core/simulation_state.py:113-123 *)
Definition set_general_state (s : sstate) (updates : pdict) : sstate :=
  mkS (s_sites s) (dmerge (get_general_state s) updates).

(** core/simulation_state.py:125-139 *)
Definition set_site_state (s : sstate) (id : key) (updates : pdict) : sstate :=
  let old_state :=
    match dget id (s_sites s) with
    | None => [(SITE_ID, key_val id)]
    | Some old => old
    end in
  mkS (dset id (dmerge old_state updates) (s_sites s)) (s_general s).

(** [{**old, **updates}] with a value that must be a mapping; anything else raises
    TypeError.  Used at core/simulation_state.py:123,139. *)
Definition as_mapping (v : val) : res pdict :=
  match v with VDict d => Ok d | _ => Err TypeError end.

(** [for site_id, updates in batch.items(): self.set_site_state(site_id, updates)].
    core/simulation_state.py:159-160 and 164-165 *)
Definition set_sites (s : sstate) (batch : pdict) : res sstate :=
  foldM (fun s kv => do u <- as_mapping (snd kv); Ok (set_site_state s (fst kv) u)) batch s.

(** core/simulation_state.py:141-165.  [GENERAL in None] raises TypeError; other
    non-dict arguments raise TypeError or AttributeError (here: TypeError). *)
Definition batch_update (s : sstate) (update_batch : val) : res sstate :=
  match update_batch with
  | VDict b =>
      match dget GENERAL b with
      | Some g =>
          do upd <- match dget SITES b with
                    | None => Ok []
                    | Some (VDict d) => Ok d
                    | Some _ => Err AttributeError
                    end;
          do s1 <- set_sites s upd;
          do gd <- as_mapping g;
          Ok (set_general_state s1 gd)
      | None => set_sites s b
      end
  | _ => Err TypeError
  end.

(** core/simulation_state.py:32-39 (the structure is given by its list of site ids) *)
Definition from_struct (ids : list Z) : sstate :=
  fold_left (fun s i => set_site_state s (KInt i) []) ids s_empty.

(** core/simulation_state.py:178-179 *)
Definition state_dict (s : sstate) : val :=
  VDict [(SITES, VDict (map (fun kv => (fst kv, VDict (snd kv))) (s_sites s)));
         (GENERAL, VDict (s_general s))].
Definition state_eqb (a b : sstate) : bool := val_eqb (state_dict a) (state_dict b).
