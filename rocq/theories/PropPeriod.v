(** Property C135: runs repeat. *)
From Coq Require Import Reals Permutation.
From Verif Require Import Prelude Dict Val Arith RealArith LatticeModel StructModel StateModel ResultModel RunnerModel NbModel GridModel SimModel SetupModel RulesModel SpecState SpecResult SpecRunner SpecGeom SpecNb SpecGrid SpecSetup SpecRules GridFacts GridMore GridNb SetupFacts NbFacts FloatArith SpecFloat64 FloatMore FloatGrid FloatNb FloatCoord LifeFloat LifePlane LifePeriod LifePeriodFl.
Local Open Scope Z_scope.

(** C135. The Game of Life repeats itself, serially and in parallel. *)
Theorem C135_life : forall size s variant ords rnd ctl born survive init,
  square_grid size s -> length size = 2%nat -> (forall t, legal (ords t)) ->
  process_variant_string variant = Ok (born, survive) -> life_init RA s ords rnd variant = Ok ctl ->
  Permutation (site_ids init) (map (fun x => KInt (s_id x)) (sites s None)) ->
  (forall i x, get_site s i = Some x -> holds init i "alive" \/ holds init i "dead") ->
  exists start period, 0 <= start /\ 1 <= period /\ start + period <= 2 ^ Z.of_nat (length (sites s None)) /\
  forall n, 
  (exists o, run_sync ctl (None, 0%nat) init n = Ok o /\
     forall t, start <= t -> t + period <= n -> exists st st', get_step (o_result o) t = Ok st /\ get_step (o_result o) (t + period) = Ok st' /\
       forall i q, get_site s i <> None -> (holds st i q <-> holds st' i q)) /\
  (forall p sched, 1 <= p -> exists o, run_parallel ctl p sched (None, 0%nat) init n = Ok o /\
     forall t, start <= t -> t + period <= n -> exists st st', get_step (o_result o) t = Ok st /\ get_step (o_result o) (t + period) = Ok st' /\
       forall i q, get_site s i <> None -> (holds st i q <-> holds st' i q)).
Proof. exact C135_lemma. Qed.
Print Assumptions C135_life.
Example C135_example : exists s st, square_grid [1; 4] s /\ Permutation (site_ids st) (map (fun x => KInt (s_id x)) (sites s None)) /\
  forall i x, get_site s i = Some x -> holds st i "alive" \/ holds st i "dead".
Proof.
  destruct (C67_exists_lemma [1; 4]) as [s SG]; [repeat constructor; lia|auto|]. destruct (square_facts _ _ SG) as [L G].
  pose proof (C47_solid_lemma R RA L s "alive"%string (gf_built _ _ _ G)) as (SI & _ & CF). exists s, (setup_solid_phase s "alive"%string).
  split; auto. split; [rewrite SI; apply Permutation_refl|]. intros i x Gx. left. destruct (CF i x Gx) as (p & E & ->). unfold holds, site_entry. rewrite E. reflexivity.
Qed.

(** C135. The same on binary64 grids whose sides do not fall short at the border (C84). *)
Theorem C135_float : forall n m s variant ords rnd ctl born survive init, 1 <= n <= 2 ^ 20 -> 1 <= m <= 2 ^ 20 -> fl_grid [n; m] s -> ~ falls_short n n -> ~ falls_short m m -> (forall t, legal (ords t)) ->
  process_variant_string variant = Ok (born, survive) -> life_init FA s ords rnd variant = Ok ctl ->
  Permutation (site_ids init) (map (fun x => KInt (s_id x)) (sites s None)) ->
  (forall x y, holds init (y mod n * m + x mod m) "alive" \/ holds init (y mod n * m + x mod m) "dead") ->
  exists start period, 0 <= start /\ 1 <= period /\ start + period <= 2 ^ (n * m) /\
  forall k,
  (exists o, run_sync ctl (None, 0%nat) init k = Ok o /\
     forall t, start <= t -> t + period <= k -> exists st st', get_step (o_result o) t = Ok st /\ get_step (o_result o) (t + period) = Ok st' /\
       forall x y q, holds st (y mod n * m + x mod m) q <-> holds st' (y mod n * m + x mod m) q) /\
  (forall p sched, 1 <= p -> exists o, run_parallel ctl p sched (None, 0%nat) init k = Ok o /\
     forall t, start <= t -> t + period <= k -> exists st st', get_step (o_result o) t = Ok st /\ get_step (o_result o) (t + period) = Ok st' /\
       forall x y q, holds st (y mod n * m + x mod m) q <-> holds st' (y mod n * m + x mod m) q).
Proof. exact C135_float_lemma. Qed.
Print Assumptions C135_float.
Example C135_float_example : exists s, fl_grid [1; 2] s /\ ~ falls_short 1 1 /\ ~ falls_short 2 2 /\ Permutation (site_ids (picture 1 2 (fun x y => x mod 2 =? 0))) (map (fun x => KInt (s_id x)) (sites s None)) /\
  shows_on 1 2 (picture 1 2 (fun x y => x mod 2 =? 0)) (fun x y => x mod 2 =? 0).
Proof.
  destruct (fl_core 1 2 ltac:(unfold M20; lia) ltac:(unfold M20; lia)) as (s & FG & DE & CT & _). exists s. split; [exact FG|]. split; [apply C30_adjacent_lemma; lia|]. split; [apply C30_adjacent_lemma; lia|]. split.
  - rewrite picture_ids, <- (map_map s_id KInt). unfold NbFacts.dense in DE. rewrite DE, CT. apply Permutation_refl.
  - apply picture_shows; [lia|lia|]. intros x y. now rewrite Z.mod_mod by lia.
Qed.

(** C135. Controllers without memory that meet a state again repeat what followed it. *)
Theorem C135_memoryless : forall f init n o i j st, run_sync (pure_controller f) tt init n = Ok o ->
  0 <= i -> 0 <= j -> get_step (o_result o) i = Ok st -> get_step (o_result o) j = Ok st ->
  forall t, 0 <= t -> i + t <= n -> j + t <= n -> exists st', get_step (o_result o) (i + t) = Ok st' /\ get_step (o_result o) (j + t) = Ok st'.
Proof. exact C135_memoryless_lemma. Qed.
Print Assumptions C135_memoryless.
Example C135_memoryless_example : let flip := fun (k : key) (st : sstate) => match site_entry st k (KStr "n") with Some (VInt 0) => Ok (VDict [(KStr "n", VInt 1)]) | _ => Ok (VDict [(KStr "n", VInt 0)]) end in
  exists o, run_sync (pure_controller flip) tt (mkS [(KInt 0, [(KStr "n", VInt 0)])] []) 3 = Ok o /\
    get_step (o_result o) 0 = get_step (o_result o) 2 /\ get_step (o_result o) 1 = get_step (o_result o) 3 /\ get_step (o_result o) 0 <> get_step (o_result o) 1.
Proof. cbv zeta. eexists. split; [vm_compute; reflexivity|]. split; [vm_compute; reflexivity|]. split; [vm_compute; reflexivity|]. vm_compute. discriminate. Qed.
