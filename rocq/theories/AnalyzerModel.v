(** Model of src/pylattica/core/analyzer.py, discrete/discrete_step_analyzer.py and
    discrete/discrete_state_result_analyzer.py. *)
From Verif Require Import Prelude Val Arith LatticeModel StructModel StateModel ResultModel SetupModel.

#[export] Instance Eqb_val : Eqb val := val_eqb.

(** [state.get_site_state(v)] for an arbitrary value: unhashable ones raise
    TypeError, None is no site id.  Simplification: floats and tuples, which are
    hashable, raise as well. *)
Definition site_state_of (st : sstate) (v : val) : res (option pdict) :=
  match v with
  | VNone => Ok None
  | _ => do k <- val_key v; Ok (get_site_state st k)
  end.

(** A criterion: what a Python callable makes of a site state (or None): a truth
    value or an exception.  Simplification: criteria have no side effects. *)
Definition criterion := option pdict -> res bool.

Section Analyzer.
  Context {F : Type} (structure_ : option (structure F)).

  (** core/analyzer.py:57-63: the criteria in order, stopping at the first failure. *)
  Fixpoint meets (criteria : list criterion) (site_state : option pdict) : res bool :=
    match criteria with
    | [] => Ok true
    | crit :: rest => do b <- crit site_state; if negb b then Ok false else meets rest site_state
    end.

  (** core/analyzer.py:22-68 [get_sites] *)
  Definition get_sites (state : sstate) (site_class : option string) (state_criteria : list criterion) : res (list val) :=
    let sites := match structure_ with
                 | Some s => map (fun site => get_site_state state (KInt (s_id site))) (sites s site_class)
                 | None => map Some (all_site_states state)
                 end in
    foldM (fun matching_sites site =>
      match site with
      | None => Err TypeError                      (* None["_site_id"] *)
      | Some d =>
          do id <- dgetE SITE_ID d;
          do site_state <- site_state_of state id;
          do meets_criteria <- meets state_criteria site_state;
          Ok (if meets_criteria : bool then matching_sites ++ [id] else matching_sites)
      end) sites [].

  (** core/analyzer.py:98-103: [_criteria] *)
  Definition equal_criterion (search_pairs : pdict) : criterion := fun site_state =>
    match search_pairs, site_state with
    | [], _ => Ok true
    | _, None => Err AttributeError                (* None.get(...) *)
    | _, Some d => Ok (forallb (fun kv => val_eqb (match dget (fst kv) d with Some v => v | None => VNone end) (snd kv)) search_pairs)
    end.

  (** core/analyzer.py:70-104 [get_sites_where_equal] *)
  Definition get_sites_where_equal (state : sstate) (search_pairs : pdict) (site_class : option string) : res (list val) :=
    get_sites state site_class [equal_criterion search_pairs].

  (** core/analyzer.py:106-130 [get_site_count] *)
  Definition get_site_count (state : sstate) (site_class : option string) (state_criteria : list criterion) : res Z :=
    do l <- get_sites state site_class state_criteria; Ok (Z.of_nat (length l)).
  (** core/analyzer.py:133-157 [get_site_count_where_equal] *)
  Definition get_site_count_where_equal (state : sstate) (search_pairs : pdict) (site_class : option string) : res Z :=
    do l <- get_sites_where_equal state search_pairs site_class; Ok (Z.of_nat (length l)).

  (** discrete_step_analyzer.py:32-48 *)
  Definition cell_count (state : sstate) (phase_name : val) : res Z :=
    get_site_count_where_equal state [(DISCRETE_OCCUPANCY, phase_name)] None.

  Context {G : Type} (A : arith G).

  (** [a / b] of two integers.  Simplification: the quotient of the arithmetic [A];
      Python's is the correctly rounded float. *)
  Definition int_div (a b : Z) : res G :=
    if b =? 0 then Err ZeroDivisionError else Ok (a_div A (a_ofZ A a) (a_ofZ A b)).

  (** discrete_step_analyzer.py:12-30 *)
  Definition cell_fraction (state : sstate) (phase_name : val) : res G :=
    do phase_count <- cell_count state phase_name; int_div phase_count (size state).

  (** discrete_step_analyzer.py:50-67 *)
  Definition cell_ratio (step : sstate) (p1 p2 : val) : res G :=
    do n1 <- cell_count step p1; do n2 <- cell_count step p2; int_div n1 n2.
End Analyzer.

(** discrete/phase_set.py:9-17 [PhaseSet.__init__]: the attribute [phases];
    [ord] is the unspecified order in which [list(set(...))] lists its elements. *)
Definition phase_set (ord : list string -> list string) (phases : list string) : list string := ord (dedup phases).

Section Phases.
  (** [ord]: the unspecified order in which [list(set(...))] lists its elements. *)
  Variable ord : list val -> list val.

  (** discrete_step_analyzer.py:84-101 [phases_present].  Simplification: values are
      compared by [val_eqb], which tells True, 1 and 1.0 apart. *)
  Definition phases_present (state : sstate) : res (list val) :=
    do occ <- mapM (dgetE DISCRETE_OCCUPANCY) (all_site_states state);
    if forallb hashable occ then Ok (ord (dedup occ)) else Err TypeError.

  (** discrete_step_analyzer.py:69-82 *)
  Definition phase_count (step : sstate) : res Z :=
    do l <- phases_present step; Ok (Z.of_nat (length l)).

  (** The loop of [all_phases]: the generator [steps()] is advanced after each state
      has been looked at.  discrete_state_result_analyzer.py:38-41 *)
  Definition collect_phases (r : sresult) : res (list val) :=
    let '(steps, out) := steps_lazy r in
    do phases <- foldM (fun phases step => do curr_phases <- phases_present step; Ok (phases ++ curr_phases)) steps [];
    do _ <- out; Ok phases.

  (** discrete_state_result_analyzer.py:28-43 [all_phases].  [lru_cache] keeps the
      first answer given for an analyzer object: [cache].  Returns the answer and
      the cache afterwards. *)
  Definition all_phases (cache : option (list val)) (r : sresult) : res (list val * option (list val)) :=
    match cache with
    | Some l => Ok (l, cache)
    | None => do phases <- collect_phases r; Ok (ord (dedup phases), Some (ord (dedup phases)))
    end.

  Context {F : Type} (A : arith F).

  (** discrete_state_result_analyzer.py:73-85 [final_phase_fractions] *)
  Definition final_phase_fractions (cache : option (list val)) (r : sresult) : res (dict val F) :=
    do (phases, _) <- all_phases cache r;
    foldM (fun fracs phase =>
      do last <- last_step r;
      do f <- cell_fraction (F := F) None A last phase;
      Ok (dset phase f fracs)) phases [].

  (** discrete_state_result_analyzer.py:87-103 [phase_fraction_at] *)
  Definition phase_fraction_at (r : sresult) (step : Z) (phase : val) : res F :=
    do st <- get_step r step; cell_fraction (F := F) None A st phase.
End Phases.

(** [round(a / b)] for positive [b]: to the nearest integer, ties to even.
    Simplification: the quotient is exact; Python rounds it to a float first. *)
Definition round_quotient (a b : Z) : Z :=
  let q := a / b in
  let r := a mod b in
  if 2 * r <? b then q
  else if b <? 2 * r then q + 1
  else if Z.even q then q else q + 1.

(** discrete_state_result_analyzer.py:114-115 *)
Definition plot_interval (len : Z) : Z :=
  let num_points := Z.min 100 len in
  Z.max 1 (round_quotient len num_points).

(** [range(0, n, step)] for a positive step *)
Definition range_step (n step : Z) : list Z := map (fun k => k * step) (zrange 0 ((n + step - 1) / step)).

(** discrete_state_result_analyzer.py:113-118 [_get_steps_to_plot]; returns the
    result object (its cache of states changes) and the outcome. *)
Definition get_steps_to_plot (r : sresult) : sresult * res (list Z * list sstate) :=
  let step_size := plot_interval (rlen r) in
  let '(r', out) := load_steps r step_size in
  (r', do _ <- out;
       let step_idxs := range_step (rlen r') step_size in
       do states <- mapM (get_step r') step_idxs;
       Ok (step_idxs, states)).

Section Plot.
  Context {F : Type} (A : arith F) (ord : list val -> list val).

  (** [max(ys)] *)
  Definition list_max (l : list F) : res F :=
    match l with
    | [] => Err ValueError
    | x :: t => Ok (fold_left (fun m y => if a_ltb A m y then y else m) t x)
    end.

  (** discrete_state_result_analyzer.py:45-71 [plot_phase_fractions]: the range of
      the x axis and the lines of the figure, (name, xs, ys).  The plotly figure
      object itself is not modelled. *)
  Definition plot_phase_fractions (cache : option (list val)) (r : sresult) (min_prevalence : F)
    : sresult * res ((Z * Z) * list (val * list Z * list F)) :=
    let '(r', out) := get_steps_to_plot r in
    (r', do (step_idxs, steps) <- out;
         do last_idx <- list_getE step_idxs (Z.of_nat (length step_idxs) - 1);
         do (phases, _) <- all_phases ord cache r';
         do traces <- mapM (fun phase =>
             do ys <- mapM (fun step => cell_fraction (F := F) None A step phase) steps;
             Ok (phase, step_idxs, ys)) phases;
         do kept <- foldM (fun kept t => do m <- list_max (snd t); Ok (if a_ltb A min_prevalence m then kept ++ [t] else kept)) traces [];
         Ok ((0, last_idx), kept)).
End Plot.
