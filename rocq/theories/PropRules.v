(** Properties C51-C56, C69, C80-C83, C85, C88, C93 and C94: growth, the Game of Life, local rules. *)
From Coq Require Import Reals Lra Permutation Ascii.
From Verif Require Import Prelude Dict Val Arith RVec RealArith LatticeModel StructModel StateModel ResultModel RunnerModel NbModel GridModel SimModel SetupModel RulesModel SpecState SpecGeom SpecNb SpecGrid SpecSetup SpecRules NucMore RulesFacts RulesMore GridFacts GridMore GridNb SetupFacts LifeFacts AsyncGrow LifeSym LifeGen GrowBall SpecRunner Locality GrowthInit FracAt GrowTies GenFair AsyncPath LifePlane.
Local Open Scope Z_scope.

(** C51. grow leaves no background cell, under every schedule of the workers. *)
Theorem C51_grow_fills : forall dim size n bg amts buffer b rnd ords ords' rnd' p sched np_sum,
  good_size dim (SzInt size) -> 1 <= n -> amounts_ok bg amts -> (forall t, legal (ords t)) -> (forall t, legal (ords' t)) -> summation RA np_sum -> 1 <= p ->
  (b = None \/ exists r b', 1 <= r /\ MooreNbHoodBuilder RA r dim = Ok b' /\ b = Some b') ->
  exists r, (forall f1 f2, (n + 1) * Z.of_nat (length amts) <= Z.of_nat f1 -> 1000 * n + 2 <= Z.of_nat f2 ->
      grow RA f1 f2 np_sum rnd ords ords' rnd' p sched (Z.of_nat dim) size n bg amts b buffer = Some r) /\
    (r = Err RuntimeError \/ exists s st, r = Ok (mkSim st s) /\ square_grid (repeat size dim) s /\
       site_ids st = map (fun x => KInt (s_id x)) (sites s None) /\
       forall i x, get_site s i = Some x -> exists q, holds st i q /\ q <> bg /\ In q (dkeys amts)).
Proof. exact C51_lemma. Qed.
Print Assumptions C51_grow_fills.
Example C51_example : good_size 3 (SzInt 4) /\ amounts_ok "bg" [("a"%string, 1%R); ("b"%string, 2%R)] /\ legal plain_oracle.
Proof.
  split; [split; [auto|split; [reflexivity|repeat constructor; lia]]|split; [|exact plain_legal]].
  split; [repeat constructor; simpl; intuition discriminate|]. split; [simpl; intuition discriminate|]. split; [|unfold sum; simpl; lra].
  intros p a [E|[E|[]]]; injection E as _ <-; lra.
Qed.

(** C52. Serial and parallel runs both follow the life-like rule on the torus. *)
Theorem C52_life : forall size s variant ords rnd ctl born survive init g n,
  square_grid size s -> length size = 2%nat -> Forall (fun m => 3 <= m) size -> (forall t, legal (ords t)) ->
  process_variant_string variant = Ok (born, survive) -> life_init RA s ords rnd variant = Ok ctl ->
  Permutation (site_ids init) (map (fun x => KInt (s_id x)) (sites s None)) -> shows s init g ->
  (exists o, run_sync ctl (None, 0%nat) init n = Ok o /\ rlen (o_result o) = Z.max 0 n + 1 /\
     forall t, 0 <= t <= Z.max 0 n -> exists st, get_step (o_result o) t = Ok st /\ site_ids st = site_ids init /\
       shows s st (life_after born survive (Z.to_nat t) g)) /\
  (forall p sched, 1 <= p -> exists o, run_parallel ctl p sched (None, 0%nat) init n = Ok o /\ rlen (o_result o) = Z.max 0 n + 1 /\
     forall t, 0 <= t <= Z.max 0 n -> exists st, get_step (o_result o) t = Ok st /\ site_ids st = site_ids init /\
       shows s st (life_after born survive (Z.to_nat t) g)).
Proof. exact C52_lemma. Qed.
Print Assumptions C52_life.
Example C52_example : process_variant_string Life = Ok ([3], [2; 3]) /\
  let blinker := fun x y : Z => (y =? 0) && (Z.abs x <=? 1) in
  life_after [3] [2; 3] 1 blinker 0 1 = true /\ life_after [3] [2; 3] 1 blinker 1 0 = false /\ life_after [3] [2; 3] 2 blinker 1 0 = true.
Proof. repeat split. Qed.

(** C53. The digits are read back; the letters B and S do not matter. *)
Theorem C53_variant : forall born survive b s, Forall (fun d => 0 <= d <= 9) born -> Forall (fun d => 0 <= d <= 9) survive -> b <> "/"%char -> s <> "/"%char ->
  process_variant_string (String b (digit_text born ++ "/" ++ String s (digit_text survive))) = Ok (born, survive).
Proof. exact C53_lemma. Qed.
Print Assumptions C53_variant.
Example C53_example : String "B" (digit_text [3; 6] ++ "/" ++ String "S" (digit_text [2; 3])) = "B36/S23"%string /\
  process_variant_string "B36/S23" = Ok ([3; 6], [2; 3]) /\ process_variant_string Seeds = Ok ([2], []).
Proof. repeat split. Qed.

(** C53. Without a slash there is an error; whatever is accepted consists of digits. *)
Theorem C53_errors : forall v, (~ In "/"%char (list_ascii_of_string v) -> exists e, process_variant_string v = Err e) /\
  forall born survive, process_variant_string v = Ok (born, survive) ->
    Forall (fun d => 0 <= d <= 9) (born ++ survive).
Proof. exact C53_errors_lemma. Qed.
Print Assumptions C53_errors.
Example C53_errors_example : process_variant_string "B36" = Err IndexError /\ process_variant_string "B3x/S2" = Err ValueError.
Proof. split; reflexivity. Qed.

(** C54. One application of the growth rule. *)
Theorem C54_growth_rule : forall F (N : nbhood F) bg ords rnd c i st l,
  neighbors_of (ords c) N i = Ok l -> (exists p, holds st i p) -> (forall j, In j l -> exists p, holds st j p) ->
  exists u, c_update (growth_controller N bg ords rnd) c (KInt i) st = Ok (VDict u, S c) /\
    (occupied bg st i -> u = []) /\
    (holds st i bg -> (forall j, In j l -> holds st j bg) -> u = []) /\
    (holds st i bg -> (exists j, In j l /\ occupied bg st j) ->
       exists q, u = [(KStr "DISCRETE_OCCUPANCY", VStr q)] /\ q <> bg /\ 0 < count_in st l q /\ forall r, r <> bg -> count_in st l r <= count_in st l q).
Proof. exact C54_lemma. Qed.
Print Assumptions C54_growth_rule.
Example C54_example : c_update (growth_controller (NGraph row_graph) "bg" (fun _ => list_oracle) (fun _ => 0%nat)) 0%nat (KInt 1) (row_state ["a"; "bg"; "b"; "bg"; "bg"]%string)
  = Ok (VDict [(KStr "DISCRETE_OCCUPANCY", VStr "b")], 1%nat).
Proof. reflexivity. Qed.

(** C54. Of several phases with the greatest count the one met first in the list of neighbours is taken. *)
Theorem C54_ties : forall F (N : nbhood F) bg ords rnd c i st l q c' r,
  neighbors_of (ords c) N i = Ok l -> holds st i bg -> (forall j, In j l -> exists p, holds st j p) ->
  c_update (growth_controller N bg ords rnd) c (KInt i) st = Ok (VDict [(KStr "DISCRETE_OCCUPANCY", VStr q)], c') ->
  r <> bg -> r <> q -> count_in st l r = count_in st l q ->
  exists l1 j l2, l = l1 ++ j :: l2 /\ holds st j q /\ forall j', In j' l1 -> ~ holds st j' r.
Proof. exact C54_ties_lemma. Qed.
Print Assumptions C54_ties.
Example C54_ties_example : neighbors_of list_oracle (NGraph row_graph) 1 = Ok [2; 0] /\ let st := row_state ["a"; "bg"; "b"; "bg"; "bg"]%string in
  count_in st [2; 0] "a" = count_in st [2; 0] "b" /\ holds st 2 "b" /\ holds st 0 "a".
Proof. repeat split. Qed.

(** C54. The same for controllers as they are constructed; without a background phase it is VACANT. *)
Theorem C54_constructed : forall F (A : arith F) s bg b ords rnd ctl, growth_init A s bg b ords rnd = Ok ctl ->
  let bg := match bg with None => "VACANT" | Some p => p end%string in
  exists N, growth_nbhood A s b = Ok N /\ forall c i st l,
    neighbors_of (ords c) N i = Ok l -> (exists p, holds st i p) -> (forall j, In j l -> exists p, holds st j p) ->
    exists u, c_update ctl c (KInt i) st = Ok (VDict u, S c) /\
      (occupied bg st i -> u = []) /\
      (holds st i bg -> (forall j, In j l -> holds st j bg) -> u = []) /\
      (holds st i bg -> (exists j, In j l /\ occupied bg st j) ->
         exists q, u = [(KStr "DISCRETE_OCCUPANCY", VStr q)] /\ q <> bg /\ 0 < count_in st l q /\ forall r, r <> bg -> count_in st l r <= count_in st l q).
Proof. exact C54_default_lemma. Qed.
Print Assumptions C54_constructed.
Example C54_default_example : forall F (A : arith F) s b ords rnd, growth_init A s None b ords rnd = growth_init A s (Some "VACANT"%string) b ords rnd.
Proof. reflexivity. Qed.

(** C55. Serial growth. *)
Theorem C55_growth_serial : forall F (N : nbhood F) bg ords rnd ids c0 init n,
  (forall t, legal (ords t)) -> NoDup ids -> ids <> [] -> has_neighbours ids N -> phased ids init ->
  exists o, run_sync (growth_controller N bg ords rnd) c0 init n = Ok o /\ rlen (o_result o) = Z.max 0 n + 1 /\
   forall t, 0 <= t <= Z.max 0 n -> exists st, get_step (o_result o) t = Ok st /\ phased ids st /\
     (forall i p, In i ids -> holds st i p -> p = bg \/ exists j, In j ids /\ holds init j p) /\
     (forall t' st' i p, t <= t' <= Z.max 0 n -> get_step (o_result o) t' = Ok st' -> In i ids -> holds st i p -> p <> bg -> holds st' i p) /\
     (forall nbr, (forall o i l j, legal o -> In i ids -> neighbors_of o N i = Ok l -> (In j l <-> nbr i j)) ->
        forall i, In i ids -> (occupied bg st i <-> exists j, within nbr (Z.to_nat t) i j /\ occupied bg init j)).
Proof. exact C55_lemma. Qed.
Print Assumptions C55_growth_serial.
Example C55_example : has_neighbours [0; 1; 2; 3; 4] (NGraph row_graph) /\ phased [0; 1; 2; 3; 4] (row_state ["a"; "bg"; "bg"; "bg"; "b"]%string).
Proof. split; [exact row_neighbours|now apply row_phased]. Qed.

(** C56, part: in parallel runs occupied cells stay occupied and the occupied region is the same as in serial runs. Missing: keeping the phase, which is false (below). *)
Theorem C56_growth_parallel_partial : forall F (N : nbhood F) bg ords rnd ids p sched c0 init n,
  (forall t, legal (ords t)) -> NoDup ids -> ids <> [] -> has_neighbours ids N -> phased ids init -> 1 <= p ->
  exists o, run_parallel (growth_controller N bg ords rnd) p sched c0 init n = Ok o /\ rlen (o_result o) = Z.max 0 n + 1 /\
   forall t, 0 <= t <= Z.max 0 n -> exists st, get_step (o_result o) t = Ok st /\ phased ids st /\
     (forall i p, In i ids -> holds st i p -> p = bg \/ exists j, In j ids /\ holds init j p) /\
     (forall t' st' i, t <= t' <= Z.max 0 n -> get_step (o_result o) t' = Ok st' -> In i ids -> occupied bg st i -> occupied bg st' i) /\
     (forall nbr, (forall o i l j, legal o -> In i ids -> neighbors_of o N i = Ok l -> (In j l <-> nbr i j)) ->
        forall i, In i ids -> (occupied bg st i <-> exists j, within nbr (Z.to_nat t) i j /\ occupied bg init j)).
Proof. exact C56_spread_lemma. Qed.
Print Assumptions C56_growth_parallel_partial.
Example C56_example : (forall t : nat, legal ((fun _ => list_oracle) t)) /\ NoDup [0; 1; 2; 3; 4] /\ has_neighbours [0; 1; 2; 3; 4] (NGraph row_graph) /\
  phased [0; 1; 2; 3; 4] (row_state ["a"; "bg"; "bg"; "bg"; "b"]%string).
Proof. split; [intros _; exact list_legal|]. split; [repeat constructor; simpl; lia|]. split; [exact row_neighbours|now apply row_phased]. Qed.

(** C56, part: if every worker used in a step was used in all earlier steps, occupied cells keep their phase as in serial runs. Missing: schedules that leave a worker idle (refuted below). *)
Theorem C56_growth_fair_partial : forall F (N : nbhood F) bg ords rnd ids p sched c0 init n,
  (forall t, legal (ords t)) -> NoDup ids -> ids <> [] -> has_neighbours ids N -> phased ids init -> 1 <= p ->
  (forall c batches, chunk_size_of (size init) p = Ok c -> site_batches c (site_ids init) = Ok batches -> keeps_up (length batches) sched) ->
  exists o, run_parallel (growth_controller N bg ords rnd) p sched c0 init n = Ok o /\ rlen (o_result o) = Z.max 0 n + 1 /\
   forall t, 0 <= t <= Z.max 0 n -> exists st, get_step (o_result o) t = Ok st /\ phased ids st /\
     (forall i p, In i ids -> holds st i p -> p = bg \/ exists j, In j ids /\ holds init j p) /\
     (forall t' st' i p, t <= t' <= Z.max 0 n -> get_step (o_result o) t' = Ok st' -> In i ids -> holds st i p -> p <> bg -> holds st' i p) /\
     (forall nbr, (forall o i l j, legal o -> In i ids -> neighbors_of o N i = Ok l -> (In j l <-> nbr i j)) ->
        forall i, In i ids -> (occupied bg st i <-> exists j, within nbr (Z.to_nat t) i j /\ occupied bg init j)).
Proof. exact C56_fair_lemma. Qed.
Print Assumptions C56_growth_fair_partial.
(** Two workers, each always given the same batch: the five cells in a row meet the hypotheses and are full after two steps. *)
Example C56_fair_example : keeps_up 2 (fun _ b => b) /\ chunk_size_of (size (row_state ["a"; "bg"; "bg"; "bg"; "b"]%string)) 2 = Ok 3 /\
  (exists batches, site_batches 3 (site_ids (row_state ["a"; "bg"; "bg"; "bg"; "b"]%string)) = Ok batches /\ length batches = 2%nat) /\
  (exists o st, run_parallel (growth_controller (NGraph row_graph) "bg"%string (fun _ => list_oracle) (fun _ => 0%nat)) 2 (fun _ b => b) 0%nat
     (row_state ["a"; "bg"; "bg"; "bg"; "b"]%string) 3 = Ok o /\ get_step (o_result o) 3 = Ok st /\ holds st 1 "a"%string /\ holds st 3 "b"%string).
Proof.
  split; [intros t b Hb t' Ht; exists b; auto|]. split; [reflexivity|]. split; [eexists; split; reflexivity|].
  do 2 eexists. split; [vm_compute; reflexivity|]. split; [vm_compute; reflexivity|]. split; reflexivity.
Qed.

(** C56 is false: a worker with an outdated state can repaint an occupied cell. *)
Theorem C56_growth_parallel_refuted : exists (N : nbhood Z) bg ords rnd ids p sched init n o t t' st st' i a,
  (forall t, legal (ords t)) /\ NoDup ids /\ ids <> [] /\ has_neighbours ids N /\ phased ids init /\ 1 <= p /\ (forall t b, Z.of_nat (sched t b) < p) /\
  run_parallel (growth_controller N bg ords rnd) p sched 0%nat init n = Ok o /\
  get_step (o_result o) t = Ok st /\ get_step (o_result o) t' = Ok st' /\ 0 <= t <= t' /\
  In i ids /\ holds st i a /\ a <> bg /\ ~ holds st' i a.
Proof. exact C56_stale_lemma. Qed.
Print Assumptions C56_growth_parallel_refuted.

(** C69, part: for states whose ids are 0, 1, ..., n-1, as those of every structure. Missing: other ids (below). *)
Theorem C69_random_site_partial : forall rnd c st n, site_ids st = map KInt (zrange 0 n) ->
  (n <= 0 -> basic_random_site rnd c st = Err ValueError) /\
  (0 < n -> exists i, basic_random_site rnd c st = Ok (VInt i, S c) /\ In (KInt i) (site_ids st)) /\
  (forall i, 0 <= i < n -> exists rnd', basic_random_site rnd' c st = Ok (VInt i, S c)).
Proof. exact C69_lemma. Qed.
Print Assumptions C69_random_site_partial.
Example C69_example : site_ids (row_state ["a"; "b"; "c"; "d"; "e"]%string) = map KInt (zrange 0 5).
Proof. reflexivity. Qed.

(** C69 is false of states with other ids. *)
Theorem C69_random_site_refuted : exists rnd c st i c', basic_random_site rnd c st = Ok (VInt i, c') /\ ~ In (KInt i) (site_ids st).
Proof. exact C69_refuted_lemma. Qed.
Print Assumptions C69_random_site_refuted.

(** C80. Each step of an asynchronous growth run visits one freshly drawn site and applies the growth rule there; occupied cells never change. *)
Theorem C80_async_growth : forall F (N : nbhood F) bg ords rnd m c0 init n,
  (forall t, legal (ords t)) -> 0 < m -> has_neighbours (zrange 0 m) N -> phased (zrange 0 m) init ->
  exists o, run_async (growth_controller N bg ords rnd) c0 init n = Ok o /\ rlen (o_result o) = Z.max 0 n + 1 /\
   forall t, 0 <= t <= Z.max 0 n -> exists st, get_step (o_result o) t = Ok st /\ phased (zrange 0 m) st /\
     (forall i p, In i (zrange 0 m) -> holds st i p -> p = bg \/ exists j, In j (zrange 0 m) /\ holds init j p) /\
     (forall t' st' i p, t <= t' <= Z.max 0 n -> get_step (o_result o) t' = Ok st' -> holds st i p -> p <> bg -> holds st' i p) /\
     (forall nbr, (forall o i l j, legal o -> In i (zrange 0 m) -> neighbors_of o N i = Ok l -> (In j l <-> nbr i j)) ->
        forall i, In i (zrange 0 m) -> occupied bg st i -> exists j, within nbr (Z.to_nat t) i j /\ occupied bg init j) /\
     (t < Z.max 0 n -> exists st' i l, get_step (o_result o) (t + 1) = Ok st' /\ i = Z.of_nat (rnd (c0 + 2 * Z.to_nat t)%nat) mod m /\
        neighbors_of (ords (c0 + 2 * Z.to_nat t + 1)%nat) N i = Ok l /\
        (forall j p, j <> i -> (holds st' j p <-> holds st j p)) /\
        ((occupied bg st i \/ forall j, In j l -> holds st j bg) -> forall p, holds st' i p <-> holds st i p) /\
        (holds st i bg -> (exists j, In j l /\ occupied bg st j) ->
           exists q, holds st' i q /\ q <> bg /\ 0 < count_in st l q /\ forall r, r <> bg -> count_in st l r <= count_in st l q)).
Proof. exact C80_lemma. Qed.
Print Assumptions C80_async_growth.
Example C80_example : has_neighbours (zrange 0 5) (NGraph row_graph) /\ phased (zrange 0 5) (row_state ["a"; "bg"; "bg"; "bg"; "b"]%string).
Proof. split; [exact row_neighbours|now apply row_phased]. Qed.

(** C81. If every site is drawn again and again, every site connected to a nucleus is occupied in the end. *)
Theorem C81_async_fills : forall F (N : nbhood F) bg ords rnd m c0 init nbr i j k,
  (forall t, legal (ords t)) -> 0 < m -> has_neighbours (zrange 0 m) N -> phased (zrange 0 m) init ->
  (forall o i l j, legal o -> In i (zrange 0 m) -> neighbors_of o N i = Ok l -> (In j l <-> nbr i j)) ->
  (forall a t, In a (zrange 0 m) -> exists t', (t <= t')%nat /\ Z.of_nat (rnd (c0 + 2 * t')%nat) mod m = a) ->
  In i (zrange 0 m) -> within nbr k i j -> occupied bg init j ->
  exists n0, forall n, n0 <= n -> exists o st, run_async (growth_controller N bg ords rnd) c0 init n = Ok o /\
    last_step (o_result o) = Ok st /\ occupied bg st i.
Proof. exact C81_lemma. Qed.
Print Assumptions C81_async_fills.
Example C81_example : forall a t, In a (zrange 0 5) -> exists t', (t <= t')%nat /\ Z.of_nat (Nat.div2 (0 + 2 * t')%nat) mod 5 = a.
Proof.
  intros a t H. apply zrange_In in H. exists (5 * t + Z.to_nat a)%nat. split; [lia|]. rewrite Nat.add_0_l, Nat.div2_double.
  replace (Z.of_nat (5 * t + Z.to_nat a)) with (a + Z.of_nat t * 5) by lia. rewrite Z.mod_add by lia. apply Z.mod_small. lia.
Qed.

(** C82. Moving the initial pattern moves every later pattern. *)
Theorem C82_life_symmetry : forall size s variant ords ords' rnd rnd' ctl ctl' init init' g g' T n,
  square_grid size s -> length size = 2%nat -> Forall (fun m => 3 <= m) size -> (forall t, legal (ords t)) -> (forall t, legal (ords' t)) ->
  life_init RA s ords rnd variant = Ok ctl -> life_init RA s ords' rnd' variant = Ok ctl' ->
  Permutation (site_ids init) (map (fun x => KInt (s_id x)) (sites s None)) -> Permutation (site_ids init') (map (fun x => KInt (s_id x)) (sites s None)) ->
  shows s init g -> shows s init' g' -> symmetry T -> moved s T init init' ->
  (exists o o', run_sync ctl (None, 0%nat) init n = Ok o /\ run_sync ctl' (None, 0%nat) init' n = Ok o' /\
     rlen (o_result o) = Z.max 0 n + 1 /\ rlen (o_result o') = Z.max 0 n + 1 /\
     forall t, 0 <= t <= Z.max 0 n -> exists st st', get_step (o_result o) t = Ok st /\ get_step (o_result o') t = Ok st' /\ moved s T st st') /\
  (forall p sched, 1 <= p -> exists o o', run_parallel ctl p sched (None, 0%nat) init n = Ok o /\ run_sync ctl' (None, 0%nat) init' n = Ok o' /\
     forall t, 0 <= t <= Z.max 0 n -> exists st st', get_step (o_result o) t = Ok st /\ get_step (o_result o') t = Ok st' /\ moved s T st st').
Proof. exact C82_lemma. Qed.
Print Assumptions C82_life_symmetry.
Example C82_example : symmetry (fun x y => (3 - y, x + 1)) /\ symmetry (fun x y => (x + 2, y - 5)).
Proof.
  split; [exists 3, 1, (-1), 1|exists 2, (-5), 1, 1]; (split; [reflexivity|split; [reflexivity|]]); [right|left]; intros x y; f_equal; lia.
Qed.

(** C83, part: on grids with any sides the rule is applied to the number of distinct living neighbours other than the cell itself, and parallel runs show the same. Full claim: every step shows the pattern of the B/S rule on the periodic plane (C52); missing on grids with a side of 1 or 2, where it is false (below). *)
Theorem C83_life_every_size_partial : forall size s variant ords rnd ctl born survive init n,
  square_grid size s -> length size = 2%nat -> (forall t, legal (ords t)) ->
  process_variant_string variant = Ok (born, survive) -> life_init RA s ords rnd variant = Ok ctl ->
  Permutation (site_ids init) (map (fun x => KInt (s_id x)) (sites s None)) ->
  (forall i x, get_site s i = Some x -> holds init i "alive" \/ holds init i "dead") ->
  (exists o, run_sync ctl (None, 0%nat) init n = Ok o /\ rlen (o_result o) = Z.max 0 n + 1 /\ get_step (o_result o) 0 = Ok init /\
     forall t, 0 <= t < Z.max 0 n -> exists st st', get_step (o_result o) t = Ok st /\ get_step (o_result o) (t + 1) = Ok st' /\
       forall x y i l, cell s [x; y] i -> NoDup l ->
         (forall j, In j l <-> j <> i /\ exists dx dy, Z.abs dx <= 1 /\ Z.abs dy <= 1 /\ cell s [x + dx; y + dy] j) ->
         exists p, holds st i p /\ (p = "alive" \/ p = "dead")%string /\
           holds st' i (if existsb (Z.eqb (count_in st l "alive")) (if eqb p "alive"%string then survive else born) then "alive" else "dead")) /\
  (forall p sched, 1 <= p -> exists o o', run_parallel ctl p sched (None, 0%nat) init n = Ok o /\ run_sync ctl (None, 0%nat) init n = Ok o' /\ rlen (o_result o) = Z.max 0 n + 1 /\
     forall t, 0 <= t <= Z.max 0 n -> exists st st', get_step (o_result o) t = Ok st /\ get_step (o_result o') t = Ok st' /\ forall i q, get_site s i <> None -> (holds st i q <-> holds st' i q)).
Proof. exact C83_lemma. Qed.
Print Assumptions C83_life_every_size_partial.
Example C83_example : exists s st, square_grid [1; 4] s /\ Permutation (site_ids st) (map (fun x => KInt (s_id x)) (sites s None)) /\
  forall i x, get_site s i = Some x -> holds st i "alive" \/ holds st i "dead".
Proof.
  destruct (C67_exists_lemma [1; 4]) as [s SG]; [repeat constructor; lia|auto|]. destruct (square_facts _ _ SG) as [L G].
  pose proof (C47_solid_lemma R RA L s "alive"%string (gf_built _ _ _ G)) as (SI & _ & CF). exists s, (setup_solid_phase s "alive"%string).
  split; auto. split; [rewrite SI; apply Permutation_refl|]. intros i x Gx. left. destruct (CF i x Gx) as (p & E & ->). unfold holds, site_entry. rewrite E. reflexivity.
Qed.

(** C83 is false: a 2 x 2 grid of living cells stays alive, though on the periodic plane each of them has 8 living neighbours. *)
Theorem C83_life_every_size_refuted : exists size s init g, square_grid size s /\ length size = 2%nat /\
  Permutation (site_ids init) (map (fun x => KInt (s_id x)) (sites s None)) /\ shows s init g /\
  forall ords rnd, (forall t, legal (ords t)) -> exists ctl o st, life_init RA s ords rnd Life = Ok ctl /\ run_sync ctl (None, 0%nat) init 1 = Ok o /\
    get_step (o_result o) 1 = Ok st /\ ~ shows s st (life_after [3] [2; 3] 1 g).
Proof. exact C83_refuted_lemma. Qed.
Print Assumptions C83_life_every_size_refuted.

(** C85. After t steps the occupied cells are those within r * t of a nucleus, in the maximum metric. *)
Theorem C85_growth_ball : forall size s r b N bg ords rnd ids c0 init n, square_grid size s -> 0 <= r ->
  (b = None /\ r = 1 \/ exists b', MooreNbHoodBuilder RA r (length size) = Ok b' /\ b = Some b') -> growth_nbhood RA s b = Ok N ->
  (forall t, legal (ords t)) -> Permutation ids (map s_id (sites s None)) -> phased ids init ->
  (exists o, run_sync (growth_controller N bg ords rnd) c0 init n = Ok o /\ rlen (o_result o) = Z.max 0 n + 1 /\
     forall t, 0 <= t <= Z.max 0 n -> exists st, get_step (o_result o) t = Ok st /\
       forall p i, length p = length size -> cell s p i ->
         (occupied bg st i <-> exists d j, length d = length size /\ within_moore (r * t) d /\ cell s (shift p d) j /\ occupied bg init j)) /\
  (forall q sched, 1 <= q -> exists o, run_parallel (growth_controller N bg ords rnd) q sched c0 init n = Ok o /\ rlen (o_result o) = Z.max 0 n + 1 /\
     forall t, 0 <= t <= Z.max 0 n -> exists st, get_step (o_result o) t = Ok st /\
       forall p i, length p = length size -> cell s p i ->
         (occupied bg st i <-> exists d j, length d = length size /\ within_moore (r * t) d /\ cell s (shift p d) j /\ occupied bg init j)).
Proof. exact C85_moore_lemma. Qed.
Print Assumptions C85_growth_ball.
Example C85_example : exists s st, square_grid [3; 4] s /\ phased (map s_id (sites s None)) st.
Proof.
  destruct (C67_exists_lemma [3; 4]) as [s SG]; [repeat constructor; lia|auto|]. destruct (square_facts _ _ SG) as [L G].
  pose proof (C47_solid_lemma R RA L s "a"%string (gf_built _ _ _ G)) as CF. exists s, (setup_solid_phase s "a"%string). split; auto. now apply (config_phased s _ _ L RA (gf_built _ _ _ G) CF).
Qed.

(** C85. The same with von Neumann neighbourhoods, in the sum metric. *)
Theorem C85_growth_diamond : forall size s r b N bg ords rnd ids c0 init n, square_grid size s -> 0 <= r ->
  (length size = 2%nat /\ VonNeumannNbHood2DBuilder RA r = Ok b \/ length size = 3%nat /\ VonNeumannNbHood3DBuilder RA r = Ok b) -> growth_nbhood RA s (Some b) = Ok N ->
  (forall t, legal (ords t)) -> Permutation ids (map s_id (sites s None)) -> phased ids init ->
  (exists o, run_sync (growth_controller N bg ords rnd) c0 init n = Ok o /\ rlen (o_result o) = Z.max 0 n + 1 /\
     forall t, 0 <= t <= Z.max 0 n -> exists st, get_step (o_result o) t = Ok st /\
       forall p i, length p = length size -> cell s p i ->
         (occupied bg st i <-> exists d j, length d = length size /\ within_vn (r * t) d /\ cell s (shift p d) j /\ occupied bg init j)) /\
  (forall q sched, 1 <= q -> exists o, run_parallel (growth_controller N bg ords rnd) q sched c0 init n = Ok o /\ rlen (o_result o) = Z.max 0 n + 1 /\
     forall t, 0 <= t <= Z.max 0 n -> exists st, get_step (o_result o) t = Ok st /\
       forall p i, length p = length size -> cell s p i ->
         (occupied bg st i <-> exists d j, length d = length size /\ within_vn (r * t) d /\ cell s (shift p d) j /\ occupied bg init j)).
Proof. exact C85_von_neumann_lemma. Qed.
Print Assumptions C85_growth_diamond.
Example C85_diamond_example : exists s b N, square_grid [5; 7] s /\ VonNeumannNbHood2DBuilder RA 1 = Ok b /\ growth_nbhood RA s (Some b) = Ok N.
Proof.
  destruct (C67_exists_lemma [5; 7]) as [s SG]; [repeat constructor; lia|auto|]. destruct (C41_von_neumann_lemma [5; 7] s 1 SG) as [H _]. destruct (H eq_refl) as (b & N & E1 & E2 & _).
  exists s, b, N. split; [exact SG|]. split; [exact E1|exact E2].
Qed.

(** C88. With local rules the state after t steps depends on the initial states at most t hops away. *)
Theorem C88_local_rules : forall nbr f s1 s2 n o1 o2, own_fun f -> local_fun nbr f -> swf s1 -> swf s2 ->
  (forall i, In i (site_ids s1) <-> In i (site_ids s2)) -> get_general_state s1 = get_general_state s2 ->
  run_sync (pure_controller f) tt s1 n = Ok o1 -> run_sync (pure_controller f) tt s2 n = Ok o2 ->
  forall t, 0 <= t <= Z.max 0 n -> exists x1 x2, get_step (o_result o1) t = Ok x1 /\ get_step (o_result o2) t = Ok x2 /\
    forall i, (forall j, hops nbr (Z.to_nat t) i j -> agree_at s1 s2 j) -> agree_at x1 x2 i.
Proof. exact C88_lemma. Qed.
Print Assumptions C88_local_rules.
Example C88_example : own_fun copy_left /\ local_fun left_of copy_left /\ hops left_of 2 (KInt 3) (KInt 1) /\
  exists o, run_sync (pure_controller copy_left) tt (mkS [(KInt 0, [(KStr "v", VInt 7)]); (KInt 1, [(KStr "v", VInt 8)])] []) 1 = Ok o /\
    site_entry (o_output o) (KInt 1) (KStr "v") = Some (VInt 7).
Proof.
  split; [exact copy_left_own|]. split; [exact copy_left_local|]. split.
  - apply (hops_on _ _ _ (KInt 2)); [exists 3; auto|]. apply (hops_on _ _ _ (KInt 1)); [exists 2; auto|]. constructor.
  - eexists. split; [vm_compute; reflexivity|reflexivity].
Qed.

(** C88. In the Game of Life influence travels one cell per step. *)
Theorem C88_life_light_cone : forall size s variant ords ords' rnd rnd' ctl ctl' init init' g g' n,
  square_grid size s -> length size = 2%nat -> Forall (fun m => 3 <= m) size -> (forall t, legal (ords t)) -> (forall t, legal (ords' t)) ->
  life_init RA s ords rnd variant = Ok ctl -> life_init RA s ords' rnd' variant = Ok ctl' ->
  Permutation (site_ids init) (map (fun x => KInt (s_id x)) (sites s None)) -> Permutation (site_ids init') (map (fun x => KInt (s_id x)) (sites s None)) ->
  shows s init g -> shows s init' g' ->
  exists o o', run_sync ctl (None, 0%nat) init n = Ok o /\ run_sync ctl' (None, 0%nat) init' n = Ok o' /\
    forall t, 0 <= t <= Z.max 0 n -> exists st st', get_step (o_result o) t = Ok st /\ get_step (o_result o') t = Ok st' /\
      forall x y i, cell s [x; y] i ->
        (forall dx dy j p, Z.abs dx <= t -> Z.abs dy <= t -> cell s [x + dx; y + dy] j -> (holds init j p <-> holds init' j p)) ->
        forall p, holds st i p <-> holds st' i p.
Proof. exact C88_life_lemma. Qed.
Print Assumptions C88_life_light_cone.
Example C88_life_example : exists s init init', square_grid [7; 9] s /\ Permutation (site_ids init) (map (fun x => KInt (s_id x)) (sites s None)) /\ shows s init (tile 9 7 glider) /\
  Permutation (site_ids init') (map (fun x => KInt (s_id x)) (sites s None)) /\ shows s init' (tile 9 7 block).
Proof.
  destruct (C67_exists_lemma [7; 9]) as [s SG]; [repeat constructor; lia|auto|]. destruct (picture_draws 7 9 s glider SG) as [P D]. destruct (picture_draws 7 9 s block SG) as [P' D'].
  exists s. do 2 eexists. split; [exact SG|]. split; [exact P|]. split; [apply (draws_shows 7 9 s _ _ SG); exact D|]. split; [exact P'|]. apply (draws_shows 7 9 s _ _ SG). exact D'.
Qed.

(** C93. After t draws a site is occupied exactly if some path from an initially occupied site to it was drawn in order. *)
Theorem C93_async_paths : forall F (N : nbhood F) bg ords rnd m c0 init n nbr,
  (forall t, legal (ords t)) -> 0 < m -> has_neighbours (zrange 0 m) N -> phased (zrange 0 m) init ->
  (forall o i l j, legal o -> In i (zrange 0 m) -> neighbors_of o N i = Ok l -> (In j l <-> nbr i j)) ->
  exists o, run_async (growth_controller N bg ords rnd) c0 init n = Ok o /\
   forall t i, 0 <= t <= Z.max 0 n -> In i (zrange 0 m) -> exists st, get_step (o_result o) t = Ok st /\
     (occupied bg st i <-> exists j l, occupied bg init j /\ walk nbr j l i /\
        in_order l (map (fun k => Z.of_nat (rnd (c0 + 2 * k)%nat) mod m) (seq 0 (Z.to_nat t)))).
Proof. exact C93_lemma. Qed.
Print Assumptions C93_async_paths.
Example C93_example : in_order [1; 2; 3] [2; 1; 0; 2; 1; 3] /\ ~ in_order [1; 2] [2; 0; 1] /\ walk (fun a b => Z.abs (a - b) = 1) 0 [1; 2; 3] 3.
Proof.
  split; [repeat constructor|]. split; [|simpl; lia]. intros H. inversion H as [| |? ? ? H1]; subst. inversion H1 as [| |? ? ? H2]; subst.
  inversion H2 as [|? ? ? H3|? ? ? H3]; subst; inversion H3.
Qed.

(** C94. As long as a finite pattern fits into a box two cells smaller than the grid, the run shows its history on the infinite plane. *)
Theorem C94_plane : forall n m s variant ords rnd ctl born survive init ls k,
  square_grid [n; m] s -> 3 <= n -> 3 <= m -> (forall t, legal (ords t)) ->
  process_variant_string variant = Ok (born, survive) -> ~ In 0 born -> life_init RA s ords rnd variant = Ok ctl ->
  Permutation (site_ids init) (map (fun x => KInt (s_id x)) (sites s None)) ->
  evolves born survive ls -> (forall t, Z.of_nat t < k -> fits (m - 2) (n - 2) (ls t)) -> draws s init (ls 0%nat) ->
  every_run ctl (None, 0%nat) init k (fun t st => draws s st (ls t)).
Proof. exact C94_lemma. Qed.
Print Assumptions C94_plane.
Example C94_example : exists s init, square_grid [7; 9] s /\ Permutation (site_ids init) (map (fun x => KInt (s_id x)) (sites s None)) /\ draws s init (gliding 3 4 0) /\
  evolves [3] [2; 3] (gliding 3 4) /\ forall t, fits (9 - 2) (7 - 2) (gliding 3 4 t).
Proof.
  destruct (C67_exists_lemma [7; 9]) as [s SG]; [repeat constructor; lia|auto|]. destruct (picture_draws 7 9 s (gliding 3 4 0) SG) as [P D].
  exists s. eexists. split; [exact SG|]. split; [exact P|]. split; [exact D|]. split; [apply glider_evolves|]. intros t. apply (fits_le 3 3); [lia|lia|apply glider_fits].
Qed.

(** C94. Blocks stay, blinkers turn and gliders glide for ever, on every torus with sides from 4 (block) or 5 cells. *)
Theorem C94_known_patterns : forall n m s ords rnd ctl init k a b,
  square_grid [n; m] s -> (forall t, legal (ords t)) -> life_init RA s ords rnd Life = Ok ctl ->
  Permutation (site_ids init) (map (fun x => KInt (s_id x)) (sites s None)) ->
  (4 <= n -> 4 <= m -> draws s init (place a b block) -> every_run ctl (None, 0%nat) init k (fun _ st => draws s st (place a b block))) /\
  (5 <= n -> 5 <= m -> forall u, draws s init (place a b (blinker u)) ->
     every_run ctl (None, 0%nat) init k (fun t st => draws s st (place a b (blinker (xorb u (Nat.odd t)))))) /\
  (5 <= n -> 5 <= m -> draws s init (place a b glider) ->
     every_run ctl (None, 0%nat) init k (fun t st => forall q, t = (4 * q)%nat -> draws s st (place (a + Z.of_nat q) (b + Z.of_nat q) glider))).
Proof. exact C94_known_lemma. Qed.
Print Assumptions C94_known_patterns.
Example C94_known_example : exists s init, square_grid [5; 6] s /\ Permutation (site_ids init) (map (fun x => KInt (s_id x)) (sites s None)) /\ draws s init (place 3 4 (blinker true)).
Proof.
  destruct (C67_exists_lemma [5; 6]) as [s SG]; [repeat constructor; lia|auto|]. destruct (picture_draws 5 6 s (place 3 4 (blinker true)) SG) as [P D]. exists s. eexists. split; [exact SG|]. split; [exact P|exact D].
Qed.
