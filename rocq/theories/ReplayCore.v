(** The repository's own tests of states, results, runners and analyzers (tests/core and
    tests/discrete), run on the model.  These are checks of the model against the only
    observations of the code that are at hand, not proofs of properties.  Random draws of a
    test are replaced by fixed ones. *)
From Verif Require Import Prelude Dict Val StateModel ResultModel JsonModel FileModel RunnerModel.
Local Open Scope string_scope.
Local Open Scope Z_scope.

Definition check (r : res bool) : bool := match r with Ok b => b | Err _ => false end.
Definition same (r : res val) (v : val) : bool := check (do x <- r; Ok (val_eqb x v)).
Definition str (s : string) : key := KStr s.
Definition one (k : string) (v : val) : val := VDict [(str k, v)].
(** [state.get_site_state(i)[k] == v] *)
Definition holds (st : sstate) (i : Z) (k : string) (v : val) : bool :=
  match get_site_state st (KInt i) with
  | Some d => match dget (str k) d with Some x => val_eqb x v | None => false end
  | None => false
  end.

(** tests/core/test_runner_utils.py *)
Definition curr_updates : val := VDict [(SITES, VDict [(KInt 0, one "a" (VInt 1))]); (GENERAL, VDict [])].
Example test_merge_updates_no_new : same (merge_updates VNone curr_updates None) curr_updates = true.
Proof. vm_compute. reflexivity. Qed.
Example test_merge_updates_full_with_sites :
  same (merge_updates (VDict [(SITES, VDict [(KInt 1, one "b" (VInt 1))])]) curr_updates None)
       (VDict [(SITES, VDict [(KInt 1, one "b" (VInt 1)); (KInt 0, one "a" (VInt 1))]); (GENERAL, VDict [])]) = true.
Proof. vm_compute. reflexivity. Qed.
Example test_merge_updates_full_with_sites_and_general :
  same (merge_updates (VDict [(SITES, VDict [(KInt 1, one "b" (VInt 1))]); (GENERAL, one "c" (VInt 2))]) curr_updates None)
       (VDict [(SITES, VDict [(KInt 1, one "b" (VInt 1)); (KInt 0, one "a" (VInt 1))]); (GENERAL, one "c" (VInt 2))]) = true.
Proof. vm_compute. reflexivity. Qed.
Example test_merge_updates_full_with_sites_overwrite :
  same (merge_updates (VDict [(SITES, VDict [(KInt 1, one "b" (VInt 1)); (KInt 0, one "a" (VInt 2))])]) curr_updates None)
       (VDict [(SITES, VDict [(KInt 1, one "b" (VInt 1)); (KInt 0, one "a" (VInt 2))]); (GENERAL, VDict [])]) = true.
Proof. vm_compute. reflexivity. Qed.
Example test_merge_updates_implicit_sites :
  same (merge_updates (VDict [(KInt 1, one "b" (VInt 1))]) curr_updates None)
       (VDict [(SITES, VDict [(KInt 1, one "b" (VInt 1)); (KInt 0, one "a" (VInt 1))]); (GENERAL, VDict [])]) = true.
Proof. vm_compute. reflexivity. Qed.
Example test_merge_updates_implicit_sites_overwrite :
  same (merge_updates (VDict [(KInt 1, one "b" (VInt 1)); (KInt 0, one "a" (VInt 2))]) curr_updates None)
       (VDict [(SITES, VDict [(KInt 1, one "b" (VInt 1)); (KInt 0, one "a" (VInt 2))]); (GENERAL, VDict [])]) = true.
Proof. vm_compute. reflexivity. Qed.
Example test_merge_updates_specific_site :
  same (merge_updates (one "b" (VInt 1)) curr_updates (Some (KInt 1)))
       (VDict [(SITES, VDict [(KInt 1, one "b" (VInt 1)); (KInt 0, one "a" (VInt 1))]); (GENERAL, VDict [])]) = true.
Proof. vm_compute. reflexivity. Qed.
Example test_merge_updates_specific_site_no_curr :
  same (merge_updates (one "b" (VInt 1)) VNone (Some (KInt 1)))
       (VDict [(SITES, VDict [(KInt 1, one "b" (VInt 1))]); (GENERAL, VDict [])]) = true.
Proof. vm_compute. reflexivity. Qed.
Example test_merge_updates_specific_site_overwrite :
  same (merge_updates (one "a" (VInt 2)) curr_updates (Some (KInt 0)))
       (VDict [(SITES, VDict [(KInt 0, one "a" (VInt 2))]); (GENERAL, VDict [])]) = true.
Proof. vm_compute. reflexivity. Qed.
Example test_merge_updates_bad_args : merge_updates (VDict []) VNone None = Err ValueError.
Proof. reflexivity. Qed.

(** tests/core/test_simulation_state.py *)
Example test_can_serialize :
  let d := state_as_dict (set_site_state s_empty (KInt 0) [(str "a", VInt 1)]) in
  check (do m <- items d; do st <- index d (KStr "state"); do parts <- items st; do s <- state_from_dict d;
         Ok (dmem (KStr "@module") m && dmem (KStr "@class") m && dmem SITES parts && dmem GENERAL parts &&
             holds s 0 "a" (VInt 1))) = true.
Proof. vm_compute. reflexivity. Qed.
Definition two_sites : val := VDict [(KInt 1, one "a" (VInt 3)); (KInt 2, one "b" (VInt 4))].
Example test_batch_update :
  check (do s <- batch_update s_empty two_sites; Ok (holds s 1 "a" (VInt 3) && holds s 2 "b" (VInt 4))) = true.
Proof. vm_compute. reflexivity. Qed.
Example test_states_equal :
  check (do s1 <- batch_update s_empty two_sites; do s2 <- batch_update s_empty two_sites; Ok (state_eqb s1 s2)) = true.
Proof. vm_compute. reflexivity. Qed.

(** tests/core/test_simulation_result.py, with site ids and values from a fixed sequence *)
Definition random_result (n : nat) : sresult :=
  fold_left (fun r i => add_step r (VDict [(KInt (Z.of_nat i * 7 mod 11), one "a" (VFloat (Z.of_nat i * 37 + 1) (-9)))]))
            (seq 0 n) (new_result s_empty).
Example test_can_add_step :
  let r := add_step (new_result s_empty) (VDict [(KInt 24, one "a" (VInt 1))]) in
  ((rlen r =? 2) && check (do s <- first_step r; Ok (val_eqb (state_as_dict s) (state_as_dict s_empty)))) = true.
Proof. vm_compute. reflexivity. Qed.
(** 99 steps instead of 999 *)
Example test_can_load_at_intervals :
  let r := random_result 99 in
  ((rlen r =? 100) && match load_steps r 10 with (r', Ok _) => Nat.eqb (length (r_stored r')) 10 | _ => false end) = true.
Proof. vm_compute. reflexivity. Qed.
(** 29 steps instead of 999 *)
Example test_result_serialization :
  let r := random_result 29 in
  check (do r' <- result_from_dict (result_as_dict r);
         match steps_lazy r' with
         | (l, Ok _) =>
             foldM (fun b p => do o <- get_step r (Z.of_nat (fst p)); Ok (b && val_eqb (state_as_dict (snd p)) (state_as_dict o)))
                   (combine (seq 0 (length l)) l) (Nat.eqb (length l) 29)
         | (_, Err e) => Err e
         end) = true.
Proof. vm_compute. reflexivity. Qed.
Definition reads_back (path : option string) : bool :=
  let r := random_result 3 in
  let '(fname, fs) := to_file r path (mkClock 2024 1 31 9 5) [] in
  match from_file fname fs with
  | Ok (LResult r') => val_eqb (result_as_dict r) (result_as_dict r')
  | _ => false
  end.
Example test_write_file : reads_back (Some "tmp_test_res.json") = true.
Proof. vm_compute. reflexivity. Qed.
Example test_write_file_autoname : reads_back None = true.
Proof. vm_compute. reflexivity. Qed.
Example test_diff_storage :
  match r_diffs (random_result 3) with VDict d :: _ => Nat.eqb (length d) 1 | _ => false end = true.
Proof. vm_compute. reflexivity. Qed.

(** tests/core/test_async_runner.py; the states of the 16 sites of a 4 x 4 grid *)
Definition zeros16 : sstate :=
  fold_left (fun st i => set_site_state st (KInt (Z.of_nat i)) [(str "value", VInt 0)]) (seq 0 16) s_empty.
(** the ids of the sites whose state has [value == 3] and of those with [value == 0] *)
Definition ids_with (st : sstate) (v : Z) : list Z :=
  filter (fun i => holds st i "value" (VInt v)) (map Z.of_nat (seq 0 16)).
Definition set3 (k : key) : val := VDict [(k, one "value" (VInt 3))].
Definition last_of (r : res run_out) : res sstate := do o <- r; last_step (o_result o).

(** get_random_site draws an id; here the ids 5, 12, 3, 10, 1, 8, 15, 6, 13, 4, ... *)
Definition simple_async : controller Z :=
  mkController (fun c _ => Ok c) (fun c _ => Ok (VInt ((5 + 7 * c) mod 16), c + 1)) (fun c k _ => Ok (set3 k, c)).
Example test_simple_async_controller :
  check (do st <- last_of (run_async simple_async 0 zeros16 10);
         let n := length (ids_with st 3) in Ok (Nat.ltb 0 n && Nat.leb n 10)) = true.
Proof. vm_compute. reflexivity. Qed.

Definition next_site : controller unit :=
  mkController (fun c _ => Ok c) (fun c _ => Ok (VInt 0, c))
    (fun c k _ => match k with KInt i => Ok (VTuple [set3 k; VList [VInt (i + 1)]], c) | KStr _ => Err TypeError end).
Example test_async_controller_next_sites :
  check (do st <- last_of (run_async next_site tt zeros16 4);
         Ok (eqb (ids_with st 3) [0; 1; 2; 3] && eqb (ids_with st 0) [4; 5; 6; 7; 8; 9; 10; 11; 12; 13; 14; 15])) = true.
Proof. vm_compute. reflexivity. Qed.

Definition site_list (l : list Z) : controller unit :=
  mkController (fun c _ => Ok c) (fun c _ => Ok (VList (map VInt l), c)) (fun c k _ => Ok (set3 k, c)).
Example test_async_controller_random_site_list :
  check (do st <- last_of (run_async (site_list [0; 3; 5; 9]) tt zeros16 10);
         Ok (eqb (ids_with st 3) [0; 3; 5; 9] && Nat.eqb (length (ids_with st 0)) 12)) = true.
Proof. vm_compute. reflexivity. Qed.
Example test_async_controller_empty_random_site_list : run_async (site_list []) tt zeros16 10 = Err RuntimeError.
Proof. vm_compute. reflexivity. Qed.

(** the controller pops its list from the end *)
Definition limited : controller (list Z) :=
  mkController (fun c _ => Ok c) (fun c _ => match c with [] => Ok (VList [], c) | x :: t => Ok (VInt x, t) end)
    (fun c k _ => Ok (set3 k, c)).
Example test_async_controller_limited_sites :
  check (do o <- run_async limited [9; 5; 3; 0] zeros16 10; do st <- last_step (o_result o);
         Ok (Nat.eqb (length (r_diffs (o_result o))) 4 && eqb (ids_with st 3) [0; 3; 5; 9] && Nat.eqb (length (ids_with st 0)) 12)) = true.
Proof. vm_compute. reflexivity. Qed.

(** tests/core/test_parallel_runner.py; 20 steps instead of 1000, 4 workers which take the
    chunks in a different order in every step *)
Definition counting : controller unit :=
  pure_controller (fun k st =>
    match get_site_state st k with
    | Some d => match dget (str "value") d with
                | Some (VInt n) => Ok (VDict [(k, one "value" (VInt (n + 1)))])
                | _ => Err KeyError
                end
    | None => Err TypeError
    end).
Example test_parallel_runner :
  check (do st <- last_of (run_parallel counting 4 (fun t b => Nat.modulo (b + t) 4) tt zeros16 20);
         Ok (Nat.eqb (length (ids_with st 20)) 16)) = true.
Proof. vm_compute. reflexivity. Qed.
Example test_parallel_runner_speed :
  check (do st <- last_of (run_sync counting tt zeros16 20); Ok (Nat.eqb (length (ids_with st 20)) 16)) = true.
Proof. vm_compute. reflexivity. Qed.
