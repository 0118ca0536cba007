(** Properties C113 and C114: where nuclei are planted. *)
From Coq Require Import Reals Lra Permutation.
From Flocq Require Import Core BinarySingleNaN.
From Verif Require Import Prelude Dict Val Arith RealArith FloatArith LatticeModel StructModel StateModel ResultModel RunnerModel GridModel NbModel SimModel SetupModel RulesModel SpecGeom SpecNb SpecGrid SpecRules SpecState SpecSetup SpecPlant SpecFloat64 SpecNuc SpecPlantFl NucMore FloatFacts FloatMore FloatCoord FloatOpen FloatNb FloatNuc Planting GridMore GrowAll PlantGrow Fair.
Local Open Scope Z_scope.

(** C113. The first 1000 n + 1 drawn sites are tried in order, and one is taken unless it is taken already or too near to one taken; with fewer than n taken the setup raises RuntimeError, otherwise the first n have the phases in turn. *)
Theorem C113_nucleation : forall dim sz n bg amts buffer rnd ords np_sum, good_size dim sz -> 0 <= n -> amounts_ok bg amts -> (forall t, legal (ords t)) -> summation RA np_sum ->
  exists s l r, square_grid (grid_size dim sz) s /\
    greedy (too_near s dim buffer) (candidates rnd (Z.of_nat (length (sites s None))) (1000 * n + 1)) l /\
    (forall f1 f2, (n + 1) * Z.of_nat (length amts) <= Z.of_nat f1 -> 1000 * n + 2 <= Z.of_nat f2 ->
      setup_random_sites RA f1 f2 np_sum rnd ords (Z.of_nat dim) sz n bg amts buffer = Some r) /\
    (Z.of_nat (length l) < n -> r = Err RuntimeError) /\
    (n <= Z.of_nat (length l) -> exists st, r = Ok (mkSim st s) /\
       nucleated s st bg (firstn (Z.to_nat n) l) (in_turn n (map (fun pa => (fst pa, (IZR n * snd pa / sum (map snd amts))%R)) amts))).
Proof. exact C113_lemma. Qed.
Print Assumptions C113_nucleation.
Example C113_example : greedy (fun i j => i <> j /\ Z.abs (i - j) <= 1) [4; 4; 3; 7; 6] [4; 7] /\
  in_turn 3 [("a"%string, 1%R); ("b"%string, 2%R)] = ["a"; "b"; "b"]%string /\ candidates (fun t => 3 * t)%nat 5 4 = [0; 3; 1; 4].
Proof.
  split; [|split; [|reflexivity]].
  - apply (greedy_skip _ [4; 4; 3; 7] [4; 7] 6); [|exists 7; simpl; lia]. apply (greedy_take _ [4; 4; 3] [4] 7); [|intros j [<-|[]]; lia].
    apply (greedy_skip _ [4; 4] [4] 3); [|exists 4; simpl; lia]. apply (greedy_skip _ [4] [4] 4); [|exists 4; simpl; auto]. apply (greedy_take _ [] [] 4); [constructor|intros j []].
  - unfold in_turn, round, turn. change (Z.to_nat 3) with 3%nat. cbn [seq flat_map filter snd fst]. change (Z.of_nat 0) with 0. change (Z.of_nat 1) with 1. change (Z.of_nat 2) with 2.
    repeat (destruct (Rlt_dec _ _); try lra); reflexivity.
Qed.

(** C113. The same in binary64, with the shares as computed. *)
Theorem C113_nucleation_float : forall dim sz s n bg amts buffer rnd ords np_sum, fl_setup dim sz s -> 0 <= n ->
  fl_amounts bg amts -> (n + 1) * (Z.of_nat (length amts) + 2) <= 2 ^ 44 -> (forall t, legal (ords t)) -> summation FA np_sum -> fl_buffer (grid_size dim sz) buffer ->
  exists l r, greedy (fl_too_near (grid_size dim sz) s buffer) (candidates rnd (Z.of_nat (length (sites s None))) (1000 * n + 1)) l /\
    (forall f1 f2, (n + 1) * Z.of_nat (length amts) <= Z.of_nat f1 -> 1000 * n + 2 <= Z.of_nat f2 ->
      setup_random_sites FA f1 f2 np_sum rnd ords (Z.of_nat dim) sz n bg amts buffer = Some r) /\
    (Z.of_nat (length l) < n -> r = Err RuntimeError) /\
    (n <= Z.of_nat (length l) -> exists st, r = Ok (mkSim st s) /\ nucleated s st bg (firstn (Z.to_nat n) l) (in_turn n (computed_shares n amts np_sum))).
Proof. exact C113_float_lemma. Qed.
Print Assumptions C113_nucleation_float.
Example C113_float_example : exists s, fl_setup 2 (SzInt 5) s /\ fl_buffer (grid_size 2 (SzInt 5)) (Some 1) /\ fl_amounts "bg" uneven /\ (25 + 1) * (Z.of_nat (length uneven) + 2) <= 2 ^ 44 /\ legal fl_oracle /\ summation FA right_sum.
Proof.
  assert (Hk : Forall (fun m => 1 <= m <= 2 ^ 20) [5; 5]) by (repeat constructor; lia).
  destruct (square_box [5; 5] (or_introl eq_refl) Hk) as (s & L & FS & _). exists s. split; [split; [split; [auto|split; [reflexivity|]]|split; [|exact FS]]; repeat constructor; lia|].
  assert (NL : ~ lost 5 1) by (intros (x & Hx & S); revert S; apply C30_adjacent_lemma; lia).
  split; [split; [lia|repeat constructor; exact NL]|]. split; [apply uneven_ok|]. split; [vm_compute; discriminate|]. split; [exact fl_oracle_legal|exact right_sum_ok].
Qed.

(** C113. grow raises RuntimeError exactly if fewer than n sites were taken, and otherwise fills what lies within r * size of the first n of them. *)
Theorem C113_grow : forall dim size n bg amts buffer r P b rnd ords ords' rnd' p sched np_sum,
  good_size dim (SzInt size) -> 0 <= n -> amounts_ok bg amts -> (forall t, legal (ords t)) -> (forall t, legal (ords' t)) -> summation RA np_sum -> 1 <= p ->
  0 <= r -> grow_builder dim r P b ->
  exists s l g, square_grid (repeat size dim) s /\
    greedy (too_near s dim buffer) (candidates rnd (Z.of_nat (length (sites s None))) (1000 * n + 1)) l /\
    (forall f1 f2, (n + 1) * Z.of_nat (length amts) <= Z.of_nat f1 -> 1000 * n + 2 <= Z.of_nat f2 ->
      grow RA f1 f2 np_sum rnd ords ords' rnd' p sched (Z.of_nat dim) size n bg amts b buffer = Some g) /\
    (Z.of_nat (length l) < n -> g = Err RuntimeError) /\
    (n <= Z.of_nat (length l) -> exists st, g = Ok (mkSim st s) /\ site_ids st = map (fun x => KInt (s_id x)) (sites s None) /\
       (forall i x, get_site s i = Some x -> exists q, holds st i q /\ (q = bg \/ In q (dkeys amts))) /\
       forall x i, length x = dim -> cell s x i ->
         (occupied bg st i <-> exists d j, length d = dim /\ P (r * size) d /\ cell s (shift x d) j /\ In j (firstn (Z.to_nat n) l))).
Proof. exact C113_grow_lemma. Qed.
Print Assumptions C113_grow.
Example C113_grow_example : good_size 3 (SzInt 4) /\ amounts_ok "bg" [("a"%string, 1%R); ("b"%string, 2%R)] /\ legal plain_oracle /\ grow_builder 3 1 within_moore None /\ exists b, grow_builder 3 2 within_vn (Some b).
Proof.
  split; [split; [auto|split; [reflexivity|repeat constructor; lia]]|]. split.
  - split; [repeat constructor; simpl; intuition discriminate|]. split; [simpl; intuition discriminate|]. split; [|unfold sum; simpl; lra].
    intros p a [E|[E|[]]]; injection E as _ <-; lra.
  - split; [exact plain_legal|]. split; [left; split; [reflexivity|left; split; reflexivity]|]. eexists. right. split; [reflexivity|]. eexists. split; [right; split; reflexivity|reflexivity].
Qed.

(** C113. The same in binary64, where grow raises TypeError if the neighbourhood of the growth rule cannot be built (C75). *)
Theorem C113_grow_float : forall dim size s n bg amts buffer r P b b' rnd ords ords' rnd' p sched np_sum,
  fl_setup dim (SzInt size) s -> 0 <= n -> fl_amounts bg amts -> (n + 1) * (Z.of_nat (length amts) + 2) <= 2 ^ 44 ->
  (forall t, legal (ords t)) -> (forall t, legal (ords' t)) -> summation FA np_sum -> 1 <= p -> 0 <= r <= 2 ^ 20 ->
  fl_builder dim r P b -> b' = Some b \/ (b' = None /\ r = 1 /\ P = within_moore) -> fl_buffer (repeat size dim) buffer ->
  exists l g, greedy (fl_too_near (repeat size dim) s buffer) (candidates rnd (Z.of_nat (length (sites s None))) (1000 * n + 1)) l /\
    (forall f1 f2, (n + 1) * Z.of_nat (length amts) <= Z.of_nat f1 -> 1000 * n + 2 <= Z.of_nat f2 ->
      grow FA f1 f2 np_sum rnd ords ords' rnd' p sched (Z.of_nat dim) size n bg amts b' buffer = Some g) /\
    (Z.of_nat (length l) < n -> g = Err RuntimeError) /\
    (n <= Z.of_nat (length l) -> lost size r -> g = Err TypeError) /\
    (n <= Z.of_nat (length l) -> ~ lost size r -> exists st, g = Ok (mkSim st s) /\ site_ids st = map (fun x => KInt (s_id x)) (sites s None) /\
       (forall i x, get_site s i = Some x -> exists q, holds st i q /\ (q = bg \/ In q (dkeys amts))) /\
       forall x i, length x = dim -> fl_cell (repeat size dim) s x i ->
         (occupied bg st i <-> exists d j, length d = dim /\ P (r * size) d /\ fl_cell (repeat size dim) s (shift x d) j /\ In j (firstn (Z.to_nat n) l))).
Proof. exact C113_grow_float_lemma. Qed.
Print Assumptions C113_grow_float.
Example C113_grow_float_example : exists b, fl_builder 2 1 within_moore b /\ lost 49 1 /\ ~ lost 48 1.
Proof.
  destruct (motif_total (map (nums FA) (get_points_in_cube (- 1) (1 + 1) 2))) as (d0 & Eb). exists (BMotif (map (nums FA) (get_points_in_cube (- 1) (1 + 1) 2)) d0). split; [left; split; [reflexivity|exact Eb]|].
  split; [|intros (x & Hx & S); revert S; apply C30_adjacent_lemma; lia]. apply lost_1; [unfold M20; lia|]; apply short_at_border; [unfold M20; lia|vm_compute; reflexivity].
Qed.

(** C50, part: a phase is short of its share only if no phase has more than one nucleus more. *)
Theorem C50_fair_partial : forall dim sz n bg amts buffer rnd ords np_sum s st, good_size dim sz -> 0 <= n -> amounts_ok bg amts -> (forall t, legal (ords t)) -> summation RA np_sum ->
  forall f1 f2, (n + 1) * Z.of_nat (length amts) <= Z.of_nat f1 -> 1000 * n + 2 <= Z.of_nat f2 ->
  setup_random_sites RA f1 f2 np_sum rnd ords (Z.of_nat dim) sz n bg amts buffer = Some (Ok (mkSim st s)) ->
  forall p a q b, In (p, a) amts -> In (q, b) amts ->
    (IZR n * a / sum (map snd amts) <= IZR (Z.of_nat (length (with_phase s st p))))%R \/
    (length (with_phase s st q) <= length (with_phase s st p) + 1)%nat.
Proof. exact C50_fair_lemma. Qed.
Print Assumptions C50_fair_partial.
Example C50_fair_example : in_turn 5 [("a"%string, 3%R); ("b"%string, (3/2)%R); ("c"%string, (1/2)%R)] = ["a"; "b"; "c"; "a"; "b"]%string.
Proof.
  unfold in_turn, round, turn. change (Z.to_nat 5) with 5%nat. cbn [seq flat_map filter snd fst]. change (Z.of_nat 0) with 0. change (Z.of_nat 1) with 1. change (Z.of_nat 2) with 2. change (Z.of_nat 3) with 3. change (Z.of_nat 4) with 4.
  repeat (destruct (Rlt_dec _ _); try lra); reflexivity.
Qed.

(** C95, part: the same in binary64, for the shares as computed. *)
Theorem C95_fair_partial : forall dim sz s0 s n bg amts buffer rnd ords np_sum st, fl_setup dim sz s0 -> 0 <= n ->
  fl_amounts bg amts -> (n + 1) * (Z.of_nat (length amts) + 2) <= 2 ^ 44 -> (forall t, legal (ords t)) -> summation FA np_sum -> fl_buffer (grid_size dim sz) buffer ->
  forall f1 f2, (n + 1) * Z.of_nat (length amts) <= Z.of_nat f1 -> 1000 * n + 2 <= Z.of_nat f2 ->
  setup_random_sites FA f1 f2 np_sum rnd ords (Z.of_nat dim) sz n bg amts buffer = Some (Ok (mkSim st s)) ->
  forall p c q d, In (p, c) (computed_shares n amts np_sum) -> In (q, d) (computed_shares n amts np_sum) ->
    (c <= IZR (Z.of_nat (length (with_phase s st p))))%R \/ (length (with_phase s st q) <= length (with_phase s st p) + 1)%nat.
Proof. exact C95_fair_lemma. Qed.
Print Assumptions C95_fair_partial.
Example C95_fair_example : exists s, fl_setup 2 (SzTuple [48; 49]) s /\ fl_amounts "bg" uneven /\ fl_buffer [48; 49] None /\ legal fl_oracle /\ summation FA right_sum /\ (25 + 1) * (Z.of_nat (length uneven) + 2) <= 2 ^ 44.
Proof.
  assert (Hk : Forall (fun m => 1 <= m <= 2 ^ 20) [48; 49]) by (repeat constructor; lia).
  destruct (square_box [48; 49] (or_introl eq_refl) Hk) as (s & L & FS & _). exists s. split; [split; [split; [auto|split; [reflexivity|]]|split; [|exact FS]]; repeat constructor; lia|].
  split; [apply uneven_ok|]. split; [exact I|]. split; [exact fl_oracle_legal|]. split; [exact right_sum_ok|]. vm_compute. discriminate.
Qed.

(** C114, part: if no n sites are far enough apart the setup raises RuntimeError. The converse is false (below). *)
Theorem C114_no_room_partial : forall dim sz n bg amts buffer rnd ords np_sum, good_size dim sz -> 0 <= n -> amounts_ok bg amts -> (forall t, legal (ords t)) -> summation RA np_sum ->
  exists s, square_grid (grid_size dim sz) s /\
   ((forall l, NoDup l -> incl l (map s_id (sites s None)) -> (forall b, buffer = Some b -> separated s dim b l) -> Z.of_nat (length l) < n) ->
    forall f1 f2, (n + 1) * Z.of_nat (length amts) <= Z.of_nat f1 -> 1000 * n + 2 <= Z.of_nat f2 ->
      setup_random_sites RA f1 f2 np_sum rnd ords (Z.of_nat dim) sz n bg amts buffer = Some (Err RuntimeError)).
Proof. exact C114_lemma. Qed.
Print Assumptions C114_no_room_partial.
Example C114_example : forall l : list Z, NoDup l -> incl l [0; 1; 2; 3] -> Z.of_nat (length l) < 5.
Proof. intros l ND I. pose proof (NoDup_incl_length ND I). simpl in *. lia. Qed.

(** C114 is false: when every draw gives the same site the setup raises RuntimeError for 2 or more nuclei, however large the grid is. *)
Theorem C114_room_refuted : forall dim sz n bg amts buffer d ords np_sum, good_size dim sz -> 2 <= n -> amounts_ok bg amts -> (forall t, legal (ords t)) -> summation RA np_sum ->
  forall f1 f2, (n + 1) * Z.of_nat (length amts) <= Z.of_nat f1 -> 1000 * n + 2 <= Z.of_nat f2 ->
    setup_random_sites RA f1 f2 np_sum (fun _ => d) ords (Z.of_nat dim) sz n bg amts buffer = Some (Err RuntimeError).
Proof. exact C114_refuted_lemma. Qed.
Print Assumptions C114_room_refuted.
Example C114_refuted_example : good_size 2 (SzInt 100) /\ amounts_ok "bg" [("a"%string, 1%R)] /\ legal plain_oracle.
Proof.
  split; [split; [auto|split; [reflexivity|repeat constructor; lia]]|]. split; [|exact plain_legal].
  split; [repeat constructor; simpl; intuition discriminate|]. split; [simpl; intuition discriminate|]. split; [|unfold sum; simpl; lra]. intros p a [E|[]]; injection E as _ <-; lra.
Qed.
