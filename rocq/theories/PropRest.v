(** Property C138: growth comes to rest. *)
From Verif Require Import Prelude Dict Val StateModel ResultModel RunnerModel NbModel RulesModel SpecState SpecResult SpecRunner SpecNb SpecSetup SpecRules RulesMore GrowRest GrowChange.
Local Open Scope Z_scope.

(** C138. Serial growth: both the cells left as background and the phases of the others. *)
Theorem C138_serial : forall F (N : nbhood F) bg ords rnd ids c0 init n nbr,
  (forall t, legal (ords t)) -> NoDup ids -> ids <> [] -> has_neighbours ids N -> phased ids init ->
  (forall o i l j, legal o -> In i ids -> neighbors_of o N i = Ok l -> (In j l <-> nbr i j)) ->
  exists o, run_sync (growth_controller N bg ords rnd) c0 init n = Ok o /\
  (forall t t', count_in init ids bg <= t -> t <= t' -> t' <= Z.max 0 n ->
     exists st st', get_step (o_result o) t = Ok st /\ get_step (o_result o) t' = Ok st' /\ forall i p, In i ids -> (holds st i p <-> holds st' i p)) /\
  (forall t t' st st1 st', 0 <= t -> t < t' -> t' <= Z.max 0 n ->
     get_step (o_result o) t = Ok st -> get_step (o_result o) (t + 1) = Ok st1 -> get_step (o_result o) t' = Ok st' ->
     (forall i p, In i ids -> (holds st i p <-> holds st1 i p)) -> forall i p, In i ids -> (holds st i p <-> holds st' i p)).
Proof. exact C138_serial_lemma. Qed.
Print Assumptions C138_serial.
Example C138_serial_example : let init := row_state ["a"; "bg"; "bg"; "bg"; "b"]%string in
  has_neighbours [0; 1; 2; 3; 4] (NGraph row_graph) /\ phased [0; 1; 2; 3; 4] init /\ count_in init [0; 1; 2; 3; 4] "bg" = 3 /\
  (forall o i l j, legal o -> In i [0; 1; 2; 3; 4] -> neighbors_of o (NGraph row_graph) i = Ok l -> (In j l <-> In j (g_successors row_graph i))) /\
  exists o st st', run_sync (growth_controller (NGraph row_graph) "bg" (fun _ => list_oracle) (fun _ => 0%nat)) 0%nat init 4 = Ok o /\
    get_step (o_result o) 1 = Ok st /\ get_step (o_result o) 3 = Ok st' /\ holds st 2 "bg" /\ ~ holds st' 2 "bg".
Proof.
  cbv zeta. split; [exact row_neighbours|]. split; [now apply row_phased|]. split; [vm_compute; reflexivity|]. split.
  - intros o i l j [PO _] Hi E. cbn [neighbors_of] in E. injection E as <-. unfold g_neighbors. rewrite <- (dedup_In j (g_successors row_graph i)). split; apply Permutation.Permutation_in; [apply Permutation.Permutation_sym|]; apply PO.
  - do 3 eexists. split; [vm_compute; reflexivity|]. split; [vm_compute; reflexivity|]. split; [vm_compute; reflexivity|]. split; [vm_compute; reflexivity|]. vm_compute. discriminate.
Qed.

(** C138. Parallel growth: the cells left as background. *)
Theorem C138_parallel : forall F (N : nbhood F) bg ords rnd ids w sched c0 init n nbr,
  (forall t, legal (ords t)) -> NoDup ids -> ids <> [] -> has_neighbours ids N -> phased ids init -> 1 <= w ->
  (forall o i l j, legal o -> In i ids -> neighbors_of o N i = Ok l -> (In j l <-> nbr i j)) ->
  exists o, run_parallel (growth_controller N bg ords rnd) w sched c0 init n = Ok o /\
  (forall t t', count_in init ids bg <= t -> t <= t' -> t' <= Z.max 0 n ->
     exists st st', get_step (o_result o) t = Ok st /\ get_step (o_result o) t' = Ok st' /\ forall i, In i ids -> (holds st i bg <-> holds st' i bg)) /\
  (forall t t' st st1 st', 0 <= t -> t < t' -> t' <= Z.max 0 n ->
     get_step (o_result o) t = Ok st -> get_step (o_result o) (t + 1) = Ok st1 -> get_step (o_result o) t' = Ok st' ->
     (forall i, In i ids -> (holds st i bg <-> holds st1 i bg)) -> forall i, In i ids -> (holds st i bg <-> holds st' i bg)).
Proof. exact C138_parallel_lemma. Qed.
Print Assumptions C138_parallel.
Example C138_parallel_example : exists o st st', run_parallel (growth_controller (NGraph row_graph) "bg" (fun _ => list_oracle) (fun _ => 0%nat)) 2 late 0%nat (row_state ["a"; "bg"; "bg"; "bg"; "b"]%string) 4 = Ok o /\
    get_step (o_result o) 1 = Ok st /\ get_step (o_result o) 3 = Ok st' /\ holds st 2 "bg" /\ ~ holds st' 2 "bg".
Proof. do 3 eexists. split; [vm_compute; reflexivity|]. split; [vm_compute; reflexivity|]. split; [vm_compute; reflexivity|]. split; [vm_compute; reflexivity|]. vm_compute. discriminate. Qed.

(** C138. Few steps change anything, whatever is drawn. *)
Theorem C138_changes : forall F (N : nbhood F) bg ords rnd,
  (forall t, legal (ords t)) ->
  let few := fun ids init n (o : run_out) => forall ts, NoDup ts ->
    (forall t, In t ts -> 0 <= t < n /\ exists st st' i p, get_step (o_result o) t = Ok st /\ get_step (o_result o) (t + 1) = Ok st' /\ In i ids /\ holds st i p /\ ~ holds st' i p) ->
    Z.of_nat (length ts) <= count_in init ids bg in
  (forall ids c0 init n, NoDup ids -> ids <> [] -> has_neighbours ids N -> phased ids init ->
     exists o, run_sync (growth_controller N bg ords rnd) c0 init n = Ok o /\ few ids init n o) /\
  (forall m c0 init n, 0 < m -> has_neighbours (zrange 0 m) N -> phased (zrange 0 m) init ->
     exists o, run_async (growth_controller N bg ords rnd) c0 init n = Ok o /\ few (zrange 0 m) init n o).
Proof. exact C138_changes_lemma. Qed.
Print Assumptions C138_changes.
Example C138_changes_example : exists o st st', run_async (growth_controller (NGraph row_graph) "bg" (fun _ => list_oracle) (fun _ => 1%nat)) 0%nat (row_state ["a"; "bg"; "bg"; "bg"; "b"]%string) 2 = Ok o /\
    get_step (o_result o) 0 = Ok st /\ get_step (o_result o) (0 + 1) = Ok st' /\ holds st 1 "bg" /\ ~ holds st' 1 "bg" /\ get_step (o_result o) 2 = Ok st'.
Proof. do 3 eexists. split; [vm_compute; reflexivity|]. split; [vm_compute; reflexivity|]. split; [vm_compute; reflexivity|]. split; [vm_compute; reflexivity|]. split; [vm_compute; discriminate|]. vm_compute. reflexivity. Qed.
