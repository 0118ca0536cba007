(** Property C136: longer runs extend shorter ones, and runs can be split. *)
From Verif Require Import Prelude Dict Val StateModel ResultModel RunnerModel SpecState SpecResult SpecRunner StateFacts RunnerFacts RunSplit RunResume.
Local Open Scope Z_scope.

(** C136. A longer run shows what a shorter one shows, and raises what it raises. *)
Theorem C136_prefix : forall C (ctl : controller C) c0 init n m p sched, 0 <= n <= m ->
  let extends := fun run : Z -> res run_out =>
    (forall e, run n = Err e -> run m = Err e) /\
    (forall o o', run n = Ok o -> run m = Ok o' -> rlen (o_result o) <= rlen (o_result o') /\
       forall t, 0 <= t < rlen (o_result o) -> get_step (o_result o') t = get_step (o_result o) t) in
  extends (run_sync ctl c0 init) /\ extends (run_parallel ctl p sched c0 init) /\ extends (run_async ctl c0 init) /\
  (forall o, run_async ctl c0 init n = Ok o -> rlen (o_result o) <= n -> run_async ctl c0 init m = Ok o).
Proof. exact C136_prefix_lemma. Qed.
Print Assumptions C136_prefix.
Example C136_prefix_example : let count := fun (k : key) (st : sstate) => match site_entry st k (KStr "n") with Some (VInt z) => if 3 <? z then Err KeyError else Ok (VDict [(KStr "n", VInt (z + 1))]) | _ => Err TypeError end in
  let init := mkS [(KInt 0, [(KStr "n", VInt 0)])] [] in
  (exists o o', run_sync (pure_controller count) tt init 2 = Ok o /\ run_sync (pure_controller count) tt init 4 = Ok o' /\
    get_step (o_result o) 2 = get_step (o_result o') 2 /\ get_step (o_result o') 4 <> get_step (o_result o') 2) /\
  run_sync (pure_controller count) tt init 5 = Err KeyError /\ run_sync (pure_controller count) tt init 9 = Err KeyError.
Proof. cbv zeta. split; [|split; vm_compute; reflexivity]. do 2 eexists. split; [vm_compute; reflexivity|]. split; [vm_compute; reflexivity|]. split; [vm_compute; reflexivity|]. vm_compute. discriminate. Qed.

(** C136. A serial run of a controller without memory may be interrupted and continued from its output. *)
Theorem C136_split : forall f init n m, 0 <= n -> 0 <= m ->
  let run := fun st k => run_sync (pure_controller f) tt st k in
  (forall o1, run init n = Ok o1 ->
     (forall e, run (o_output o1) m = Err e -> run init (n + m) = Err e) /\
     (forall o2, run (o_output o1) m = Ok o2 -> exists o, run init (n + m) = Ok o /\ o_output o = o_output o2 /\ rlen (o_result o) = n + m + 1 /\
        (forall t, 0 <= t <= n -> get_step (o_result o) t = get_step (o_result o1) t) /\
        (forall t, 0 <= t <= m -> get_step (o_result o) (n + t) = get_step (o_result o2) t))).
Proof. exact C136_split_lemma. Qed.
Print Assumptions C136_split.
Example C136_split_example : let count := fun (k : key) (st : sstate) => match site_entry st k (KStr "n") with Some (VInt z) => Ok (VDict [(KStr "n", VInt (z + 1))]) | _ => Err TypeError end in
  let init := mkS [(KInt 0, [(KStr "n", VInt 0)])] [] in
  exists o1 o2, run_sync (pure_controller count) tt init 2 = Ok o1 /\ run_sync (pure_controller count) tt (o_output o1) 3 = Ok o2 /\
    site_entry (o_output o2) (KInt 0) (KStr "n") = Some (VInt 5).
Proof. cbv zeta. do 2 eexists. split; [vm_compute; reflexivity|]. split; vm_compute; reflexivity. Qed.

(** C136. Asynchronous runs may be interrupted as well if one site is asked for at a time. *)
Theorem C136_async : forall (r : sstate -> res Z) (f : key -> sstate -> res val) init n m, 0 <= n -> 0 <= m ->
  (forall k s v, f k s = Ok v -> forall l, v <> VTuple l) ->
  let ctl := mkController (fun (c : unit) _ => Ok c) (fun c s => do z <- r s; Ok (VInt z, c)) (fun c k s => do v <- f k s; Ok (v, c)) in
  forall o1, run_async ctl tt init n = Ok o1 ->
     (forall e, run_async ctl tt (o_output o1) m = Err e -> run_async ctl tt init (n + m) = Err e) /\
     (forall o2, run_async ctl tt (o_output o1) m = Ok o2 -> exists o, run_async ctl tt init (n + m) = Ok o /\ o_output o = o_output o2 /\ rlen (o_result o) = n + m + 1 /\
        (forall t, 0 <= t <= n -> get_step (o_result o) t = get_step (o_result o1) t) /\
        (forall t, 0 <= t <= m -> get_step (o_result o) (n + t) = get_step (o_result o2) t)).
Proof. exact C136_async_lemma. Qed.
Print Assumptions C136_async.
Example C136_async_example : let ctl := mkController (fun (c : unit) _ => Ok c) (fun c s => do z <- (fun s : sstate => Ok (match site_entry s (KInt 0) (KStr "n") with Some (VInt 0) => 0 | _ => 1 end)) s; Ok (VInt z, c))
    (fun c k s => do v <- match site_entry s k (KStr "n") with Some (VInt z) => Ok (VDict [(KStr "n", VInt (z + 1))]) | _ => Err TypeError end; Ok (v, c)) in
  let init := mkS [(KInt 0, [(KStr "n", VInt 0)]); (KInt 1, [(KStr "n", VInt 0)])] [] in
  exists o1 o2, run_async ctl tt init 1 = Ok o1 /\ run_async ctl tt (o_output o1) 2 = Ok o2 /\ site_entry (o_output o2) (KInt 0) (KStr "n") = Some (VInt 1) /\ site_entry (o_output o2) (KInt 1) (KStr "n") = Some (VInt 2).
Proof. cbv zeta. do 2 eexists. split; [vm_compute; reflexivity|]. split; [vm_compute; reflexivity|]. split; vm_compute; reflexivity. Qed.

(** C136. Otherwise the sites still waiting are forgotten. *)
Theorem C136_async_waiting : exists (ctl : controller unit) init o1 o2 o,
  run_async ctl tt init 1 = Ok o1 /\ run_async ctl tt (o_output o1) 1 = Ok o2 /\ run_async ctl tt init 2 = Ok o /\
  site_entry (o_output o) (KInt 0) (KStr "n") = Some (VInt 1) /\ site_entry (o_output o) (KInt 1) (KStr "n") = Some (VInt 1) /\
  site_entry (o_output o2) (KInt 0) (KStr "n") = Some (VInt 2) /\ site_entry (o_output o2) (KInt 1) (KStr "n") = Some (VInt 0).
Proof. exact C136_async_refuted_lemma. Qed.
Print Assumptions C136_async_waiting.

(** C136. Parallel runs are continued from their last step, not from their output. *)
Theorem C136_parallel : forall f p sched sched' init n m o,
  stable_fun f -> swf init -> site_ids init <> [] -> 1 <= p -> 0 <= n -> 0 <= m ->
  run_sync (pure_controller f) tt init (n + m) = Ok o ->
  exists o1 last o2,
    run_parallel (pure_controller f) p sched tt init n = Ok o1 /\ last_step (o_result o1) = Ok last /\ o_output o1 = init /\
    run_parallel (pure_controller f) p sched' tt last m = Ok o2 /\
    forall t, 0 <= t <= m -> get_step (o_result o2) t = get_step (o_result o) (n + t).
Proof. exact C136_resume_lemma. Qed.
Print Assumptions C136_parallel.
Example C136_parallel_example : exists o, let f := fun (id : key) (s : sstate) => Ok (VDict [(KStr "n", VInt (size s))]) in
  stable_fun f /\ run_sync (pure_controller f) tt (mkS [(KInt 0, [(KStr "n", VInt 0)])] []) (1 + 1) = Ok o.
Proof.
  eexists. cbv zeta. split; [|vm_compute; reflexivity]. intros id. exists [KStr "n"]. intros s v E. injection E as <-. exists [(KStr "n", VInt (size s))]. split; [discriminate|].
  split; [|split; [repeat constructor; cbn; tauto|reflexivity]].
  apply means_site; [split; reflexivity|]. intros [_ F]. destruct (F (KStr "n")) as [z E]; [now left|discriminate].
Qed.
