(** Model of src/pylattica/core/basic_controller.py (the default methods),
    models/growth/growth_controller.py, models/game_of_life/controller.py and
    structures/square_grid/growth_setup.py.

    Random choices: [ords t] and [rnd t] are the outcomes of the [t]-th use of the
    neighbourhood object or of the random generator by one copy of the controller;
    the copy's counter is its hidden state (worker processes get their own copy). *)
From Coq Require Import Ascii.
From Verif Require Import Prelude Val Arith LatticeModel StructModel StateModel ResultModel RunnerModel NbModel GridModel SimModel SetupModel.

(** src/pylattica/core/basic_controller.py:27-28: [random.randint(0, n - 1)]
    raises ValueError when there is no site. *)
Definition basic_random_site (rnd : nat -> nat) (c : nat) (st : sstate) : res (val * nat) :=
  if size st <=? 0 then Err ValueError else Ok (VInt (Z.of_nat (rnd c) mod size st), S c).

(** [state.get_site_state(k)[DISCRETE_OCCUPANCY]] *)
Definition occupancy_of (st : sstate) (k : key) : res val :=
  match get_site_state st k with
  | None => Err TypeError
  | Some d => dgetE DISCRETE_OCCUPANCY d
  end.

(** [neighborhood.neighbors_of(site_id)]: ids are node indices, i.e. integers. *)
Definition neighbors_of_key {F} (o : @nb_oracle F) (N : nbhood F) (k : key) : res (list Z) :=
  match k with KInt i => neighbors_of o N i | KStr _ => Err TypeError end.

Section Growth.
  Context {F : Type} (nb_graph : nbhood F) (background_phase : string) (ords : nat -> @nb_oracle F) (rnd : nat -> nat).

  (** growth_controller.py:32-38: counting the phases of the occupied neighbours.
      Phases are dictionary keys (see [val_key]). *)
  Definition growth_counts (prev_state : sstate) (nbs : list Z) : res (dict key Z) :=
    foldM (fun counts nb_id =>
      do nb_phase <- occupancy_of prev_state (KInt nb_id);
      if negb (val_eqb nb_phase (VStr background_phase)) then
        do k <- val_key nb_phase;
        match dget k counts with
        | None => Ok (dset k 1 counts)
        | Some n => Ok (dset k (n + 1) counts)
        end
      else Ok counts) nbs [].

  (** growth_controller.py:41-46: the first phase with the greatest count. *)
  Definition growth_max (counts : dict key Z) : option key * Z :=
    fold_left (fun m pc => if snd m <? snd pc then (Some (fst pc), snd pc) else m) counts (None, 0).

  (** growth_controller.py:28-53 [get_state_update] *)
  Definition growth_update (c : nat) (site_id : key) (prev_state : sstate) : res (val * nat) :=
    do cur <- occupancy_of prev_state site_id;
    if val_eqb cur (VStr background_phase) then
      do nbs <- neighbors_of_key (ords c) nb_graph site_id;
      do counts <- growth_counts prev_state nbs;
      match counts with
      | [] => Ok (VDict [], S c)
      | _ =>
          let max_spec := match fst (growth_max counts) with None => VNone | Some k => key_val k end in
          Ok (VDict (occ max_spec), S c)
      end
    else Ok (VDict [], S c).

  Definition growth_controller : controller nat :=
    mkController (fun c _ => Ok c) (basic_random_site rnd) growth_update.
End Growth.

Section GrowthSetup.
  Context {F : Type} (A : arith F).

  (** growth_controller.py:11-26 [GrowthController.__init__]: the neighbourhood. *)
  Definition growth_nbhood (s : structure F) (b : option (nb_builder F)) : res (nbhood F) :=
    do b <- match b with None => MooreNbHoodBuilder A 1 (p_dim s) | Some b => Ok b end;
    nb_get A b s None.

  (** growth_setup.py:34-85 [GrowthSetup.grow].  [size] is an integer; [p] is the
      number of processes and [sched] the pool's schedule.  [None]: the random site
      selection has not ended within the given numbers of loop turns. *)
  Definition grow (fuel1 fuel2 : nat) (np_sum : list F -> F) (rnd : nat -> nat) (ords ords' : nat -> @nb_oracle F) (rnd' : nat -> nat) (p : Z) (sched : nat -> nat -> nat)
      (dim size num_sites_desired : Z) (background_spec : string) (nuc_amts : dict string F)
      (b : option (nb_builder F)) (buffer : option Z) : option (res (simulation F)) :=
    match setup_random_sites A fuel1 fuel2 np_sum rnd ords dim (SzInt size) num_sites_desired background_spec nuc_amts buffer with
    | None => None
    | Some r => Some (
        do sim <- r;
        do N <- growth_nbhood (sim_struct sim) b;
        do o <- run_parallel (growth_controller N background_spec ords' rnd') p sched 0%nat (sim_state sim) size;
        do st <- last_step (o_result o);
        Ok (mkSim st (sim_struct sim)))
    end.
End GrowthSetup.

(** [s.split(c)] for a one-character separator. *)
Fixpoint split_on (c : ascii) (s : string) : list string :=
  match s with
  | EmptyString => [EmptyString]
  | String a t =>
      if Ascii.eqb a c then EmptyString :: split_on c t
      else match split_on c t with
           | h :: r => String a h :: r
           | [] => [String a EmptyString]
           end
  end.

(** [int(el)] of a single character: a decimal digit, or ValueError.
    Simplification: characters are bytes; non-ASCII digits are not represented. *)
Definition digit (a : ascii) : res Z :=
  let n := Z.of_nat (nat_of_ascii a) in
  if (48 <=? n) && (n <=? 57) then Ok (n - 48) else Err ValueError.

(** [s[1:]] *)
Definition tail_of (s : string) : string := match s with EmptyString => EmptyString | String _ t => t end.

(** src/pylattica/models/game_of_life/controller.py:6-10 *)
Definition process_variant_string (v_string : string) : res (list Z * list Z) :=
  let halves := split_on "/" v_string in
  do h0 <- list_getE halves 0;
  do born <- mapM digit (list_ascii_of_string (tail_of h0));
  do h1 <- list_getE halves 1;
  do survive <- mapM digit (list_ascii_of_string (tail_of h1));
  Ok (born, survive).

Section Life.
  Context {F : Type} (A : arith F) (s : structure F) (born survive : list Z) (ords : nat -> @nb_oracle F) (rnd : nat -> nat).

  (** game_of_life/controller.py:22-23 [pre_run]; the attribute [neighborhood] does
      not exist before it. *)
  Definition life_pre_run (c : option (nbhood F) * nat) (_ : sstate) : res (option (nbhood F) * nat) :=
    do b <- MooreNbHoodBuilder A 1 2; do N <- nb_get A b s None; Ok (Some N, snd c).

  (** game_of_life/controller.py:25-48 [get_state_update] (the count of dead
      neighbours is never used) *)
  Definition life_update (c : option (nbhood F) * nat) (site_id : key) (curr_state : sstate) : res (val * (option (nbhood F) * nat)) :=
    match fst c with
    | None => Err AttributeError
    | Some N =>
        do neighbor_site_ids <- neighbors_of_key (ords (snd c)) N site_id;
        do alive_neighbor_count <- foldM (fun n nb_id =>
            do x <- occupancy_of curr_state (KInt nb_id);
            Ok (if val_eqb x (VStr "alive") then n + 1 else n)) neighbor_site_ids 0;
        do current_state <- occupancy_of curr_state site_id;
        let new_state :=
          if val_eqb current_state (VStr "alive") && existsb (Z.eqb alive_neighbor_count) survive then "alive"%string
          else if val_eqb current_state (VStr "dead") && existsb (Z.eqb alive_neighbor_count) born then "alive"%string
          else "dead"%string in
        Ok (VDict (occ (VStr new_state)), (Some N, S (snd c)))
    end.

  Definition life_controller : controller (option (nbhood F) * nat) :=
    mkController life_pre_run
      (fun c st => do (v, k) <- basic_random_site rnd (snd c) st; Ok (v, (fst c, k)))
      life_update.
End Life.

(** game_of_life/controller.py:13-20 [GameOfLifeController.__init__] (the class
    attribute [variant] is None unless a subclass sets it) *)
Definition life_init {F} (A : arith F) (s : structure F) (ords : nat -> @nb_oracle F) (rnd : nat -> nat) (variant : string)
  : res (controller (option (nbhood F) * nat)) :=
  do (born, survive) <- process_variant_string variant;
  Ok (life_controller A s born survive ords rnd).

(** game_of_life/controller.py:51-55 *)
Definition Life : string := "B3/S23".
Definition Anneal : string := "B4678/S35678".
Definition Diamoeba : string := "B35678/S5678".
Definition Seeds : string := "B2/S".
Definition Maze : string := "B3/S12345".
