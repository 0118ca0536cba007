(** Vocabulary for the calls a run makes to its controller. *)
From Verif Require Import Prelude Val StateModel ResultModel RunnerModel SpecState SpecRunner.

(** One call of a controller method: the state it is given and what it answers. *)
Inductive call : Type :=
| CPre (s : sstate)
| CRandom (s : sstate) (v : val)
| CUpdate (site : key) (s : sstate) (v : val).

(** [calls ctl c l c']: making the calls [l] in this order takes the controller from [c]
    to [c'], each call finding the controller as the one before left it. *)
Inductive calls {C} (ctl : controller C) : C -> list call -> C -> Prop :=
| calls_none c : calls ctl c [] c
| calls_pre c s c1 l c2 : c_pre_run ctl c s = Ok c1 -> calls ctl c1 l c2 -> calls ctl c (CPre s :: l) c2
| calls_random c s v c1 l c2 : c_random_site ctl c s = Ok (v, c1) -> calls ctl c1 l c2 -> calls ctl c (CRandom s v :: l) c2
| calls_update c site s v c1 l c2 : c_update ctl c site s = Ok (v, c1) -> calls ctl c1 l c2 -> calls ctl c (CUpdate site s v :: l) c2.

(** The rule asked about every site of a list, on one state. *)
Definition asked (s : sstate) (ids : list key) (vs : list val) : list call :=
  map (fun iv => CUpdate (fst iv) s (snd iv)) (combine ids vs).

(** One visit of an asynchronous run: the site, the step it was made on and the step it
    led to, the answer, the sites it requests, and the answer of get_random_site with the
    sites it offers if it was asked afterwards. *)
Record visit : Type := mkV {
  v_site : key; v_before : sstate; v_after : sstate; v_answer : val; v_next : list key; v_random : option (val * list key) }.
Definition visit_calls (v : visit) : list call :=
  CUpdate (v_site v) (v_before v) (v_answer v) :: match v_random v with Some (x, _) => [CRandom (v_after v) x] | None => [] end.
Definition visit_offers (v : visit) : list key := v_next v ++ match v_random v with Some (_, ks) => ks | None => [] end.

(** One task of a worker of a parallel run: the step, the number of the batch, the state
    of the worker and the answers. *)
Record task : Type := mkT { t_step : nat; t_batch : nat; t_state : sstate; t_answers : list val }.
(** The tasks given to worker [w] in [n] steps of [nb] batches, in order. *)
Definition tasks_of (sched : nat -> nat -> nat) (n nb w : nat) : list (nat * nat) :=
  filter (fun tb => Nat.eqb (sched (fst tb) (snd tb)) w) (list_prod (seq 0 n) (seq 0 nb)).
(** The update sent along with the tasks of step [t]: the one recorded before. *)
Definition sent_with (diffs : list val) (t : nat) : val := match t with O => VDict [] | S m => nth m diffs VNone end.
(** The worker's state follows the updates sent along with its tasks. *)
Inductive received (diffs : list val) : sstate -> list task -> sstate -> Prop :=
| received_none s : received diffs s [] s
| received_task s x l s' : batch_update s (sent_with diffs (t_step x)) = Ok (t_state x) -> received diffs (t_state x) l s' -> received diffs s (x :: l) s'.
(** The calls of a task, given the batches. *)
Definition task_calls (batches : list (list key)) (x : task) : list call :=
  asked (t_state x) (nth (t_batch x) batches []) (t_answers x).

(** The first entry present. *)
Fixpoint first_some {A} (l : list (option A)) : option A :=
  match l with [] => None | Some x :: _ => Some x | None :: t => first_some t end.

(** Rules of synchronous runs answer with proper dictionaries. *)
Definition proper_rule {C} (ctl : controller C) : Prop :=
  forall c id s v c' S G, c_update ctl c id s = Ok (v, c') -> means id v S G ->
    uniq S /\ uniq G /\ (forall i w, In (i, w) S -> forall u, w = VDict u -> uniq u).
(** [SGs] are the site and general updates that the answers at [ids] on [s] stand for. *)
Definition stands_for {C} (ctl : controller C) (s : sstate) (ids : list key) (SGs : list (pdict * pdict)) : Prop :=
  Forall2 (fun id SG => exists c c' v, c_update ctl c id s = Ok (v, c') /\ means id v (fst SG) (snd SG)) ids SGs.
