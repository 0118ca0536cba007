(** Property C133 for parallel runs. *)
From Verif Require Import Prelude Dict Val Arith LatticeModel StructModel StateModel ResultModel RunnerModel SpecState SpecResult SpecRunner SpecMalformed ParRaise AnalyzerDemo.
Local Open Scope Z_scope.

(** C133. Parallel runs. *)
Theorem C133_parallel : forall C (ctl : controller C) p sched c0 init n,
  (forall e, c_pre_run ctl c0 init = Err e -> run_parallel ctl p sched c0 init n = Err e) /\
  (forall c1, c_pre_run ctl c0 init = Ok c1 ->
     (p = 0 -> run_parallel ctl p sched c0 init n = Err ZeroDivisionError) /\ (p < 0 -> run_parallel ctl p sched c0 init n = Err ValueError) /\
     (1 <= p -> 1 <= n ->
        (site_ids init = [] -> run_parallel ctl p sched c0 init n = Err ValueError) /\
        (site_ids init <> [] -> (forall c k, In k (site_ids init) -> exists c', c_update ctl c k init = Ok (VNone, c')) ->
           (n = 1 -> exists o, run_parallel ctl p sched c0 init n = Ok o /\ rlen (o_result o) = 2 /\ get_step (o_result o) 1 = Err TypeError) /\
           (2 <= n -> run_parallel ctl p sched c0 init n = Err TypeError)) /\
        (forall e bad,
           (forall k, In k (site_ids init) -> ~ In k bad -> forall c, exists v c' S G, c_update ctl c k init = Ok (v, c') /\ means k v S G) ->
           (forall k, In k bad -> (forall c, c_update ctl c k init = Err e) \/
              e = TypeError /\ forall c, exists v c', c_update ctl c k init = Ok (v, c') /\ no_entries v /\ v <> VNone) ->
           (exists k, In k bad /\ In k (site_ids init)) ->
           run_parallel ctl p sched c0 init n = Err e))).
Proof. exact C133_parallel_lemma. Qed.
Print Assumptions C133_parallel.
Example C133_parallel_example : let ctl : controller unit := mkController (fun c _ => Ok c) (fun c _ => Ok (VInt 0, c)) (fun c k _ => if eqb k (KInt 0) then Ok (VNone, c) else Ok (VFloat 1 2, c)) in
  site_ids (duo "a" "b") = [KInt 0; KInt 1] /\ means (KInt 0) VNone [] [] /\ run_parallel ctl 2 (fun _ b => b) tt (duo "a" "b") 2 = Err TypeError /\
  exists o, run_parallel (mkController (fun c _ => Ok c) (fun c _ => Ok (VInt 0, c)) (fun c k _ => Ok (VNone, c))) 2 (fun _ b => b) tt (duo "a" "b") 1 = Ok o.
Proof. cbv zeta. split; [reflexivity|]. split; [constructor|]. split; [reflexivity|]. eexists. reflexivity. Qed.
