(** Properties C109 and C20: the calls a run makes to its controller, and which answers win. *)
From Verif Require Import Prelude Dict Val StateModel ResultModel RunnerModel SpecState SpecResult SpecRunner SpecCalls Demo CallDemo CallFacts.

(** C109. A serial run calls pre_run once and then the rule once for every site of every step, in order; each site gets the answer made for it. *)
Theorem C109_sync_calls : forall (C : Type) (ctl : controller C) (c0 : C) (init : sstate) (n : Z) o,
  run_sync ctl c0 init n = Ok o ->
  exists (tr : list (sstate * list val)) c', Z.of_nat (length tr) = Z.max 0 n /\
    calls ctl c0 (CPre init :: flat_map (fun sv => asked (fst sv) (site_ids (fst sv)) (snd sv)) tr) c' /\
    forall t s vs, nth_error tr t = Some (s, vs) -> get_step (o_result o) (Z.of_nat t) = Ok s /\ length vs = length (site_ids s) /\
      (own_rule ctl -> swf init -> exists s', get_step (o_result o) (Z.of_nat t + 1) = Ok s' /\
         forall j id v, nth_error (site_ids s) j = Some id -> nth_error vs j = Some v ->
           exists u, own_answer id v u /\ forall k, site_entry s' id k = upd_entry u k (site_entry s id k)).
Proof. exact C109_sync_lemma. Qed.
Print Assumptions C109_sync_calls.
Example C109_sync_example : exists o, run_sync numbering 0 demo_state 2 = Ok o /\
  site_entry (o_output o) (KInt 4) (KStr "n") = Some (VInt 2) /\ site_entry (o_output o) (KInt 7) (KStr "n") = Some (VInt 3).
Proof. eexists. split; [vm_compute; reflexivity|split; reflexivity]. Qed.

(** C109. An asynchronous run calls pre_run and get_random_site once, then the rule at the site that has been pending longest, and get_random_site again exactly when nothing is pending. *)
Theorem C109_async_calls : forall (C : Type) (ctl : controller C) (c0 : C) (init : sstate) (n : Z) o,
  run_async ctl c0 init n = Ok o ->
  exists v0 q (vs : list visit) rest c', offers v0 q /\ q <> [] /\
    Z.of_nat (length vs) = rlen (o_result o) - 1 /\
    calls ctl c0 (CPre init :: CRandom init v0 :: flat_map visit_calls vs) c' /\
    map v_site vs ++ rest = q ++ flat_map visit_offers vs /\
    rlen (o_result o) - 1 <= Z.max 0 n /\ (rlen (o_result o) - 1 < n -> rest = []) /\
    forall t v, nth_error vs t = Some v ->
      get_step (o_result o) (Z.of_nat t) = Ok (v_before v) /\ get_step (o_result o) (Z.of_nat t + 1) = Ok (v_after v) /\
      (exists ups nx S G, answer_of (v_answer v) ups nx /\ requests nx (v_next v) /\ means (v_site v) ups S G /\
         (proper ctl -> updated (v_before v) S G (v_after v))) /\
      (exists pending, map v_site (firstn (S t) vs) ++ pending = q ++ flat_map visit_offers (firstn t vs) ++ v_next v /\
         (pending = [] <-> v_random v <> None)) /\
      (forall x ks, v_random v = Some (x, ks) -> offers x ks).
Proof. exact C109_async_lemma. Qed.
Print Assumptions C109_async_calls.
Example C109_async_example : exists o, run_async numbering 0 demo_state 2 = Ok o /\ rlen (o_result o) = 3 /\
  site_entry (o_output o) (KInt 4) (KStr "n") = Some (VInt 201).
Proof. eexists. split; [vm_compute; reflexivity|split; reflexivity]. Qed.

(** C109. In a parallel run each worker has a controller and a state of its own: it is asked about the batches given to it, in order, and its state follows the updates sent along with them. *)
Theorem C109_parallel_calls : forall (C : Type) (ctl : controller C) p sched (c0 : C) (init : sstate) (n : Z) o,
  run_parallel ctl p sched c0 init n = Ok o -> 0 < n ->
  exists c1 ck batches (log : nat -> list task), c_pre_run ctl c0 init = Ok c1 /\
    chunk_size_of (size init) p = Ok ck /\ site_batches ck (site_ids init) = Ok batches /\
    rlen (o_result o) = n + 1 /\
    forall w, map (fun x => (t_step x, t_batch x)) (log w) = tasks_of sched (Z.to_nat n) (length batches) w /\
      Forall (fun x => length (t_answers x) = length (nth (t_batch x) batches [])) (log w) /\
      (exists s, received (r_diffs (o_result o)) init (log w) s) /\
      (exists c', calls ctl c1 (flat_map (task_calls batches) (log w)) c').
Proof. exact C109_parallel_lemma. Qed.
Print Assumptions C109_parallel_calls.
Example C109_parallel_example : exists o s, run_parallel numbering 2 (fun _ b => b) 0 demo_state 2 = Ok o /\ get_step (o_result o) 2 = Ok s /\
  site_entry s (KInt 4) (KStr "n") = Some (VInt 1) /\ site_entry s (KInt 7) (KStr "n") = Some (VInt 1).
Proof. eexists. eexists. split; [vm_compute; reflexivity|split; [vm_compute; reflexivity|split; reflexivity]]. Qed.

(** C20, part: in a step of a serial run the last answer naming a site provides that site update as a whole, and the last answer naming a general key its value; nothing else changes.  Missing: key-wise merging of several updates of one site (refuted). *)
Theorem C20_serial_partial : forall (C : Type) (ctl : controller C) (c0 : C) (init : sstate) (n : Z) o, proper_rule ctl ->
  run_sync ctl c0 init n = Ok o -> forall t, 0 <= t < n ->
  exists s s' SGs S G, get_step (o_result o) t = Ok s /\ get_step (o_result o) (t + 1) = Ok s' /\ stands_for ctl s (site_ids s) SGs /\
    (forall i, dget i S = last_for i (map fst SGs)) /\ (forall k, dget k G = last_for k (map snd SGs)) /\ updated s S G s'.
Proof. exact C20_serial_lemma. Qed.
Print Assumptions C20_serial_partial.
Example C20_serial_example : proper_rule numbering /\ is_ok (run_sync numbering 0 demo_state 2).
Proof. split; [exact numbering_proper|eexists; vm_compute; reflexivity]. Qed.

(** C20, part: in a step of a parallel run the first batch naming a site wins, and within the batch the last answer.  Missing: the same order as in serial runs (refuted). *)
Theorem C20_parallel_partial : forall (C : Type) (ctl : controller C) p sched (c0 : C) (init : sstate) (n : Z) o, proper_rule ctl ->
  run_parallel ctl p sched c0 init n = Ok o -> forall t s s', 0 <= t < n ->
  get_step (o_result o) t = Ok s -> get_step (o_result o) (t + 1) = Ok s' ->
  exists batches SGs S G, concat batches = site_ids init /\ Z.of_nat (length batches) <= p /\
    Forall2 (fun ids l => exists x, stands_for ctl x ids l) batches SGs /\
    (forall i, dget i S = first_some (map (fun l => last_for i (map fst l)) SGs)) /\
    (forall k, dget k G = first_some (map (fun l => last_for k (map snd l)) SGs)) /\ updated s S G s'.
Proof. exact C20_parallel_lemma. Qed.
Print Assumptions C20_parallel_partial.
Example C20_parallel_example : proper_rule numbering /\ is_ok (run_parallel numbering 2 (fun _ b => b) 0 demo_state 2).
Proof. split; [exact numbering_proper|eexists; vm_compute; reflexivity]. Qed.
