(** Properties C97 and C98: the whole of grow in binary64, and with von Neumann neighbourhoods. *)
From Coq Require Import Reals Lra Permutation.
From Flocq Require Import Core BinarySingleNaN.
From Verif Require Import Prelude Dict Val Arith RealArith FloatArith LatticeModel StructModel StateModel ResultModel RunnerModel GridModel NbModel SimModel SetupModel RulesModel SpecGeom SpecNb SpecGrid SpecRules SpecState SpecSetup SpecFloat64 SpecNuc NucMore RulesMore FloatFacts FloatMore FloatOpen FloatNuc GrowAll.
Local Open Scope Z_scope.

(** C97, part: in binary64 grow with integer size ends with RuntimeError if the nuclei do not fit, with TypeError if the neighbourhood of the buffer or of the controller cannot be built, and otherwise with the cells occupied that lie within r * size of a nucleus. Full claim: without the TypeErrors (refuted by C75). Missing also: sides and radii above 2^20, amounts that overflow (C95). *)
Theorem C97_grow_float_partial : forall dim size s n bg amts buffer r P b b' rnd ords ords' rnd' p sched np_sum,
  fl_setup dim (SzInt size) s -> 0 <= n -> fl_amounts bg amts -> (n + 1) * (Z.of_nat (length amts) + 2) <= 2 ^ 44 ->
  (forall t, legal (ords t)) -> (forall t, legal (ords' t)) -> summation FA np_sum -> 1 <= p -> 0 <= r <= 2 ^ 20 ->
  fl_builder dim r P b -> b' = Some b \/ (b' = None /\ r = 1 /\ P = within_moore) ->
  (fl_buffer (repeat size dim) buffer -> exists g, (forall f1 f2, (n + 1) * Z.of_nat (length amts) <= Z.of_nat f1 -> 1000 * n + 2 <= Z.of_nat f2 ->
      grow FA f1 f2 np_sum rnd ords ords' rnd' p sched (Z.of_nat dim) size n bg amts b' buffer = Some g) /\
    (lost size r -> g = Err RuntimeError \/ g = Err TypeError) /\
    (~ lost size r -> g = Err RuntimeError \/ exists st l, g = Ok (mkSim st s) /\
       site_ids st = map (fun x => KInt (s_id x)) (sites s None) /\
       (forall i x, get_site s i = Some x -> exists q, holds st i q /\ (q = bg \/ In q (dkeys amts))) /\
       NoDup l /\ Z.of_nat (length l) = n /\ (forall j, In j l -> exists x, get_site s j = Some x) /\
       (forall c, buffer = Some c -> fl_separated (repeat size dim) s c l) /\
       forall x i, length x = dim -> fl_cell (repeat size dim) s x i ->
         (occupied bg st i <-> exists d j, length d = dim /\ P (r * size) d /\ fl_cell (repeat size dim) s (shift x d) j /\ In j l))) /\
  (bad_buffer (repeat size dim) buffer -> forall f1 f2, grow FA f1 f2 np_sum rnd ords ords' rnd' p sched (Z.of_nat dim) size n bg amts b' buffer = Some (Err TypeError)).
Proof. exact C97_lemma. Qed.
Print Assumptions C97_grow_float_partial.
Example C97_example : exists s b, fl_setup 3 (SzInt 48) s /\ fl_amounts "bg" uneven /\ fl_builder 3 1 within_vn b /\ ~ lost 48 1 /\ fl_buffer (repeat 48 3) (Some 1) /\ legal fl_oracle /\ summation FA right_sum.
Proof.
  assert (Hk : Forall (fun m => 1 <= m <= 2 ^ 20) [48; 48; 48]) by (repeat constructor; lia).
  destruct (square_box [48; 48; 48] (or_intror eq_refl) Hk) as (s & L & FS & _). eexists s, _. split; [split; [split; [auto|split; [reflexivity|]]|split; [|exact FS]]; repeat constructor; lia|].
  split; [apply uneven_ok|]. split; [right; right; split; [reflexivity|split; reflexivity]|].
  assert (NL : ~ lost 48 1) by (intros (x & Hx & S); revert S; apply C30_adjacent_lemma; lia). split; [exact NL|].
  split; [split; [lia|repeat constructor; exact NL]|]. split; [exact fl_oracle_legal|exact right_sum_ok].
Qed.

(** C97, part: in binary64 too no background cell is left, with the default and Moore neighbourhoods, and with von Neumann neighbourhoods whose radius suffices. *)
Theorem C97_fills_partial : forall dim size s n bg amts buffer r P b b' rnd ords ords' rnd' p sched np_sum,
  fl_setup dim (SzInt size) s -> 1 <= n -> fl_amounts bg amts -> (n + 1) * (Z.of_nat (length amts) + 2) <= 2 ^ 44 ->
  (forall t, legal (ords t)) -> (forall t, legal (ords' t)) -> summation FA np_sum -> 1 <= p -> 1 <= r <= 2 ^ 20 ->
  fl_builder dim r P b -> b' = Some b \/ (b' = None /\ r = 1 /\ P = within_moore) -> ~ lost size r -> fl_buffer (repeat size dim) buffer ->
  P = within_moore \/ Z.of_nat dim * (size / 2) <= r * size ->
  exists g, (forall f1 f2, (n + 1) * Z.of_nat (length amts) <= Z.of_nat f1 -> 1000 * n + 2 <= Z.of_nat f2 ->
      grow FA f1 f2 np_sum rnd ords ords' rnd' p sched (Z.of_nat dim) size n bg amts b' buffer = Some g) /\
    (g = Err RuntimeError \/ exists st, g = Ok (mkSim st s) /\
       site_ids st = map (fun x => KInt (s_id x)) (sites s None) /\
       forall i x, get_site s i = Some x -> exists q, holds st i q /\ q <> bg /\ In q (dkeys amts)).
Proof. exact C97_fills_lemma. Qed.
Print Assumptions C97_fills_partial.
Example C97_fills_example : Z.of_nat 2 * (48 / 2) <= 1 * 48 /\ Z.of_nat 3 * (48 / 2) > 1 * 48 /\ Z.of_nat 3 * (48 / 2) <= 2 * 48.
Proof. cbn. lia. Qed.

(** C97 is false: with size 49 and the default neighbourhood grow always ends in an error, whatever the other arguments are. *)
Theorem C97_grow_refuted : exists size s, 1 <= size <= 100 /\ fl_setup 2 (SzInt size) s /\
  forall n bg amts rnd ords ords' rnd' p sched np_sum, 0 <= n -> fl_amounts bg amts -> (n + 1) * (Z.of_nat (length amts) + 2) <= 2 ^ 44 ->
  (forall t, legal (ords t)) -> (forall t, legal (ords' t)) -> summation FA np_sum -> 1 <= p ->
  exists e, (e = RuntimeError \/ e = TypeError) /\ forall f1 f2, (n + 1) * Z.of_nat (length amts) <= Z.of_nat f1 -> 1000 * n + 2 <= Z.of_nat f2 ->
    grow FA f1 f2 np_sum rnd ords ords' rnd' p sched 2 size n bg amts None None = Some (Err e).
Proof. exact C97_refuted_lemma. Qed.
Print Assumptions C97_grow_refuted.
Example C97_refuted_example : fl_amounts "bg" uneven /\ legal fl_oracle /\ summation FA right_sum /\ (25 + 1) * (Z.of_nat (length uneven) + 2) <= 2 ^ 44.
Proof. split; [apply uneven_ok|]. split; [exact fl_oracle_legal|]. split; [exact right_sum_ok|]. vm_compute. discriminate. Qed.

(** C98, part: grow with a von Neumann neighbourhood of radius r occupies exactly the cells within r * size of a nucleus in the sum metric. *)
Theorem C98_grow_ball_partial : forall dim size n bg amts buffer r b rnd ords ords' rnd' p sched np_sum,
  good_size dim (SzInt size) -> 0 <= n -> amounts_ok bg amts -> (forall t, legal (ords t)) -> (forall t, legal (ords' t)) -> summation RA np_sum -> 1 <= p ->
  (dim = 2%nat /\ VonNeumannNbHood2DBuilder RA r = Ok b \/ dim = 3%nat /\ VonNeumannNbHood3DBuilder RA r = Ok b) -> 0 <= r ->
  exists g, (forall f1 f2, (n + 1) * Z.of_nat (length amts) <= Z.of_nat f1 -> 1000 * n + 2 <= Z.of_nat f2 ->
      grow RA f1 f2 np_sum rnd ords ords' rnd' p sched (Z.of_nat dim) size n bg amts (Some b) buffer = Some g) /\
    (g = Err RuntimeError \/ exists s st l, g = Ok (mkSim st s) /\ square_grid (repeat size dim) s /\
       site_ids st = map (fun x => KInt (s_id x)) (sites s None) /\
       (forall i x, get_site s i = Some x -> exists q, holds st i q /\ (q = bg \/ In q (dkeys amts))) /\
       NoDup l /\ Z.of_nat (length l) = n /\ (forall j, In j l -> exists x, get_site s j = Some x) /\ (forall c, buffer = Some c -> separated s dim c l) /\
       forall x i, length x = dim -> cell s x i -> (occupied bg st i <-> exists d j, length d = dim /\ within_vn (r * size) d /\ cell s (shift x d) j /\ In j l)).
Proof. exact C98_ball_lemma. Qed.
Print Assumptions C98_grow_ball_partial.
Example C98_ball_example : good_size 3 (SzInt 4) /\ amounts_ok "bg" [("a"%string, 1%R); ("b"%string, 2%R)] /\ legal plain_oracle /\ exists b, VonNeumannNbHood3DBuilder RA 1 = Ok b.
Proof.
  split; [split; [auto|split; [reflexivity|repeat constructor; lia]]|]. split; [|split; [apply plain_legal|eexists; reflexivity]].
  split; [repeat constructor; simpl; intuition discriminate|]. split; [simpl; intuition discriminate|]. split; [|unfold sum; simpl; lra].
  intros p a [E|[E|[]]]; injection E as _ <-; lra.
Qed.

(** C98, part: no background cell is left if dim * floor(size / 2) <= r * size: always in 2D, and in 3D with radius 2, or radius 1 and size 1 or 3. *)
Theorem C98_fills_partial : forall dim size n bg amts buffer r b rnd ords ords' rnd' p sched np_sum,
  good_size dim (SzInt size) -> 1 <= n -> amounts_ok bg amts -> (forall t, legal (ords t)) -> (forall t, legal (ords' t)) -> summation RA np_sum -> 1 <= p ->
  (dim = 2%nat /\ VonNeumannNbHood2DBuilder RA r = Ok b \/ dim = 3%nat /\ VonNeumannNbHood3DBuilder RA r = Ok b) -> 0 <= r -> Z.of_nat dim * (size / 2) <= r * size ->
  exists g, (forall f1 f2, (n + 1) * Z.of_nat (length amts) <= Z.of_nat f1 -> 1000 * n + 2 <= Z.of_nat f2 ->
      grow RA f1 f2 np_sum rnd ords ords' rnd' p sched (Z.of_nat dim) size n bg amts (Some b) buffer = Some g) /\
    (g = Err RuntimeError \/ exists s st, g = Ok (mkSim st s) /\ square_grid (repeat size dim) s /\
       site_ids st = map (fun x => KInt (s_id x)) (sites s None) /\
       forall i x, get_site s i = Some x -> exists q, holds st i q /\ q <> bg /\ In q (dkeys amts)).
Proof. exact C98_fills_lemma. Qed.
Print Assumptions C98_fills_partial.
Example C98_fills_example : (forall size r, 1 <= size -> 1 <= r -> Z.of_nat 2 * (size / 2) <= r * size) /\ (forall size r, 1 <= size -> 2 <= r -> Z.of_nat 3 * (size / 2) <= r * size).
Proof. split; intros size r H1 H2; pose proof (Z.div_mod size 2 ltac:(lia)); pose proof (Z.mod_pos_bound size 2 ltac:(lia)); [change (Z.of_nat 2) with 2|change (Z.of_nat 3) with 3]; nia. Qed.

(** C98 is false: with one nucleus, in 3D with radius 1 and a size of 2, 4, 5 or more, grow always leaves a cell in the background. *)
Theorem C98_fills_refuted : forall dim size r b bg q a rnd ords ords' rnd' p sched np_sum,
  good_size dim (SzInt size) -> q <> bg -> (0 < a)%R -> (forall t, legal (ords t)) -> (forall t, legal (ords' t)) -> summation RA np_sum -> 1 <= p ->
  (dim = 2%nat /\ VonNeumannNbHood2DBuilder RA r = Ok b \/ dim = 3%nat /\ VonNeumannNbHood3DBuilder RA r = Ok b) -> 0 <= r -> r * size < Z.of_nat dim * (size / 2) ->
  exists s st i x, (forall f1 f2, 2 <= Z.of_nat f1 -> 1002 <= Z.of_nat f2 ->
      grow RA f1 f2 np_sum rnd ords ords' rnd' p sched (Z.of_nat dim) size 1 bg [(q, a)] (Some b) None = Some (Ok (mkSim st s))) /\
    square_grid (repeat size dim) s /\ get_site s i = Some x /\ holds st i bg.
Proof. exact C98_refuted_lemma. Qed.
Print Assumptions C98_fills_refuted.
Example C98_refuted_example : good_size 3 (SzInt 4) /\ 1 * 4 < Z.of_nat 3 * (4 / 2) /\ 1 * 5 < Z.of_nat 3 * (5 / 2) /\ exists b, VonNeumannNbHood3DBuilder RA 1 = Ok b.
Proof. split; [split; [auto|split; [reflexivity|repeat constructor; lia]]|]. split; [reflexivity|]. split; [reflexivity|]. eexists; reflexivity. Qed.
