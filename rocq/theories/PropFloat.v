(** Properties C30, C75, C79, C84, C86, C89 to C91, C94 and C95: lookups, neighbourhoods, periodising, nucleation and the models in binary64 arithmetic. *)
From Coq Require Import Reals Lra Permutation.
From Flocq Require Import Core BinarySingleNaN.
From Verif Require Import Prelude Dict Val Arith FloatArith LatticeModel StructModel StateModel ResultModel RunnerModel GridModel NbModel SimModel SetupModel RulesModel SpecGeom SpecNb SpecGrid SpecRules SpecState SpecSetup SpecFloat64 SpecNuc RulesMore FloatNuc FloatCoord FloatGrid FloatMore FloatNb FloatFacts FloatPer LifeFloat GrowFloat FloatOpen FloatMotif FloatState FloatTorus FloatPerAll LifeFlAll LifeAsyncFl LifePlane.
Local Open Scope Z_scope.

(** C30, part: in binary64 an integer point resolves to the site at its periodic image, unless the product of a coordinate with the rounded reciprocal of the side falls short of a whole number; then (and only then) no site is found. Full claim: no point is lost (refuted below). Missing also: sides above 2^20, points beyond 2^30. *)
Theorem C30_lookup_partial : forall n m, 1 <= n <= 2 ^ 20 -> 1 <= m <= 2 ^ 20 ->
  exists s, fl_grid [n; m] s /\ Z.of_nat (length (sites s None)) = n * m /\
    (forall i j, 0 <= i < n -> 0 <= j < m -> exists u v,
       get_site s (i * m + j) = Some (mkSite "_A" [u; v] (i * m + j)) /\ denotes u (IZR j) /\ denotes v (IZR i)) /\
    forall x y, Z.abs x <= 2 ^ 30 -> Z.abs y <= 2 ^ 30 ->
      (~ falls_short m x -> ~ falls_short n y -> id_at FA s (fl_at [x; y]) = Ok (Some ((y mod n) * m + x mod m))) /\
      (falls_short m x \/ falls_short n y -> id_at FA s (fl_at [x; y]) = Ok None).
Proof. exact C30_lookup_lemma. Qed.
Print Assumptions C30_lookup_partial.
Example C30_lookup_example : ~ falls_short 4 (-3) /\ exists s, fl_grid [4; 4] s /\ id_at FA s (fl_at [-3; 9]) = Ok (Some 5).
Proof.
  split; [apply (C30_pow2_lemma 2); lia|]. destruct (C30_pow2_found_lemma 2 2) as (s & FG & H); try lia.
  exists s. split; [exact FG|]. rewrite H by lia. reflexivity.
Qed.

(** C30 is false: on a 49 x 49 grid the point one step past the border finds no site. *)
Theorem C30_lookup_refuted : exists n s x y, 1 <= n <= 2 ^ 20 /\ fl_grid [n; n] s /\ x = n /\ 0 <= y < n /\
  id_at FA s (fl_at [x; y]) = Ok None.
Proof. exact C30_refuted_lemma. Qed.
Print Assumptions C30_lookup_refuted.

(** C30, part: when both sides are powers of two every integer point is found. *)
Theorem C30_powers_of_two_partial : forall a b, 0 <= a <= 20 -> 0 <= b <= 20 -> exists s, fl_grid [2 ^ a; 2 ^ b] s /\
  forall x y, Z.abs x <= 2 ^ 30 -> Z.abs y <= 2 ^ 30 ->
    id_at FA s (fl_at [x; y]) = Ok (Some ((y mod 2 ^ a) * 2 ^ b + x mod 2 ^ b)).
Proof. exact C30_pow2_found_lemma. Qed.
Print Assumptions C30_powers_of_two_partial.
Example C30_powers_example : 0 <= 5 <= 20 /\ 2 ^ 5 = 32 /\ Z.abs (-1000000) <= 2 ^ 30.
Proof. lia. Qed.

(** C30, part: with sides up to 48 every point inside and one step past the border is found. *)
Theorem C30_adjacent_partial : forall n m, 1 <= n <= 48 -> 1 <= m <= 48 -> exists s, fl_grid [n; m] s /\
  forall x y, -1 <= x <= m -> -1 <= y <= n -> id_at FA s (fl_at [x; y]) = Ok (Some ((y mod n) * m + x mod m)).
Proof. exact C30_adjacent_found_lemma. Qed.
Print Assumptions C30_adjacent_partial.
Example C30_adjacent_example : exists s, fl_grid [3; 48] s /\ id_at FA s (fl_at [48; -1]) = Ok (Some 96).
Proof. destruct (C30_adjacent_found_lemma 3 48) as (s & FG & H); try lia. exists s. split; [exact FG|]. rewrite H by lia. reflexivity. Qed.

(** C30, part: the same on the 2D and 3D grids of the library, for every integer point up to 2^27. *)
Theorem C30_grids_partial : forall size s x, Forall (fun m => 1 <= m <= 2 ^ 20) size -> fl_square size s -> length x = length size -> Forall (fun a => Z.abs a <= 2 ^ 27) x ->
  (exists i, fl_cell size s x i) /\
  (forall i, fl_cell size s x i -> (forall a m v, nth_error (extents size) a = Some m -> nth_error x a = Some v -> ~ falls_short m v) -> id_at FA s (fl_at x) = Ok (Some i)) /\
  ((exists a m v, nth_error (extents size) a = Some m /\ nth_error x a = Some v /\ falls_short m v) -> id_at FA s (fl_at x) = Ok None).
Proof. exact C30_grids_lemma. Qed.
Print Assumptions C30_grids_partial.
Example C30_grids_example : exists s i, fl_square [3; 4; 5] s /\ id_at FA s (fl_at [4; -1; 2]) = Ok (Some i).
Proof.
  assert (Hk : Forall (fun m => 1 <= m <= 2 ^ 20) [3; 4; 5]) by (repeat constructor; lia).
  destruct (square_box [3; 4; 5] (or_intror eq_refl) Hk) as (s & L & FS & _).
  destruct (C30_grids_lemma [3; 4; 5] s [4; -1; 2] Hk FS eq_refl ltac:(repeat constructor; lia)) as ((i & Ci) & H & _). exists s, i. split; [exact FS|]. apply H; [exact Ci|].
  intros [|[|[|a]]] m v Em Ev; cbn in Em, Ev; try discriminate; [..|destruct a; discriminate]; injection Em as <-; injection Ev as <-; apply C30_adjacent_lemma; lia.
Qed.

(** C75, part: in binary64 the Moore builder of radius r returns the torus Moore neighbourhood if no coordinate up to r steps past the border falls short, and raises TypeError otherwise. Full claim: it always returns the neighbourhood (refuted below). *)
Theorem C75_moore_partial : forall n m r s, 1 <= n <= 2 ^ 20 -> 1 <= m <= 2 ^ 20 -> 0 <= r <= 2 ^ 20 -> fl_grid [n; m] s ->
  exists b, MooreNbHoodBuilder FA r 2 = Ok b /\
    (~ lost n r -> ~ lost m r -> exists N, nb_get FA b s None = Ok N /\ forall i j, 0 <= i < n -> 0 <= j < m ->
       neighbours N (i * m + j) (fun k => k <> i * m + j /\ exists dx dy, Z.abs dx <= r /\ Z.abs dy <= r /\
         k = ((i + dy) mod n) * m + (j + dx) mod m)) /\
    (lost n r \/ lost m r -> nb_get FA b s None = Err TypeError).
Proof. exact C75_moore_lemma. Qed.
Print Assumptions C75_moore_partial.
Example C75_example : exists s, fl_grid [3; 4] s /\ ~ lost 3 1 /\ ~ lost 4 1.
Proof.
  destruct (C30_adjacent_found_lemma 3 4) as (s & FG & _); try lia. exists s. split; [exact FG|].
  split; intros (x & Hx & S); revert S; apply C30_adjacent_lemma; lia.
Qed.

(** C75, part: the same dichotomy for every integer motif. *)
Theorem C75_motif_partial : forall n m s D, 1 <= n <= 2 ^ 20 -> 1 <= m <= 2 ^ 20 -> fl_grid [n; m] s ->
  Forall (fun d => exists dx dy, d = [dx; dy] /\ Z.abs dx <= 2 ^ 20 /\ Z.abs dy <= 2 ^ 20) D ->
  exists b, motif_builder FA (map (nums FA) D) = Ok b /\
    ((forall i j dx dy, 0 <= i < n -> 0 <= j < m -> In [dx; dy] D -> ~ falls_short m (j + dx) /\ ~ falls_short n (i + dy)) ->
     exists N, nb_get FA b s None = Ok N /\ forall i j, 0 <= i < n -> 0 <= j < m ->
       neighbours N (i * m + j) (fun k => k <> i * m + j /\ exists dx dy, In [dx; dy] D /\ k = ((i + dy) mod n) * m + (j + dx) mod m)) /\
    ((exists i j dx dy, 0 <= i < n /\ 0 <= j < m /\ In [dx; dy] D /\ (falls_short m (j + dx) \/ falls_short n (i + dy))) ->
     nb_get FA b s None = Err TypeError).
Proof. exact C75_motif_lemma. Qed.
Print Assumptions C75_motif_partial.
Example C75_motif_example : exists s, fl_grid [3; 4] s /\ (forall i j dx dy, 0 <= i < 3 -> 0 <= j < 4 -> In [dx; dy] [[1; 0]; [0; -1]] -> ~ falls_short 4 (j + dx) /\ ~ falls_short 3 (i + dy)).
Proof.
  destruct (C30_adjacent_found_lemma 3 4) as (s & FG & _); try lia. exists s. split; [exact FG|].
  intros i j dx dy Hi Hj [E|[E|[]]]; injection E as <- <-; split; apply C30_adjacent_lemma; lia.
Qed.

(** C75, part: the same dichotomy on 2D and 3D grids for the Moore and von Neumann builders of every radius up to 2^20. *)
Theorem C75_grids_partial : forall size s r P b, Forall (fun m => 1 <= m <= 2 ^ 20) size -> fl_square size s -> 0 <= r <= 2 ^ 20 -> fl_builder (length size) r P b ->
  (Forall (fun m => ~ lost m r) size -> exists N, nb_get FA b s None = Ok N /\ fl_torus_nb size s (P r) N) /\
  (Exists (fun m => lost m r) size -> nb_get FA b s None = Err TypeError).
Proof. exact C75_grids_lemma. Qed.
Print Assumptions C75_grids_partial.
Example C75_grids_example : exists s b, fl_square [3; 4; 5] s /\ fl_builder 3 1 within_vn b /\ Forall (fun m => ~ lost m 1) [3; 4; 5].
Proof.
  assert (Hk : Forall (fun m => 1 <= m <= 2 ^ 20) [3; 4; 5]) by (repeat constructor; lia).
  destruct (square_box [3; 4; 5] (or_intror eq_refl) Hk) as (s & L & FS & _). eexists s, _. split; [exact FS|]. split; [right; right; split; [reflexivity|split; reflexivity]|].
  repeat constructor; intros (x & Hx & S); revert S; apply C30_adjacent_lemma; lia.
Qed.

(** C75, part: with sides up to 48 the radius-1 builder always works. *)
Theorem C75_small_partial : forall n m s, 1 <= n <= 48 -> 1 <= m <= 48 -> fl_grid [n; m] s ->
  exists b N, MooreNbHoodBuilder FA 1 2 = Ok b /\ nb_get FA b s None = Ok N /\ forall i j, 0 <= i < n -> 0 <= j < m ->
    neighbours N (i * m + j) (fun k => k <> i * m + j /\ exists dx dy, Z.abs dx <= 1 /\ Z.abs dy <= 1 /\
      k = ((i + dy) mod n) * m + (j + dx) mod m).
Proof. exact C75_classic_lemma. Qed.
Print Assumptions C75_small_partial.
Example C75_small_example : exists s, fl_grid [48; 48] s.
Proof. destruct (C30_adjacent_found_lemma 48 48) as (s & FG & _); try lia. eauto. Qed.

(** C75 is false: on a 49 x 49 grid building the Moore neighbourhood raises TypeError. *)
Theorem C75_moore_refuted : exists n s b, 1 <= n <= 100 /\ fl_grid [n; n] s /\ MooreNbHoodBuilder FA 1 2 = Ok b /\
  nb_get FA b s None = Err TypeError.
Proof. exact C75_refuted_lemma. Qed.
Print Assumptions C75_moore_refuted.

(** C79, part: in binary64 open directions keep their value; periodic ones come out between 0 and 1, exact to 2^-54 up to a whole number, without any error outside (-1, 0), and equal to 1 exactly for inputs from -2^-54 up to but excluding 0. Infinities and nan come out as nan, also in open directions. Full claim: always below 1 (refuted below). *)
Theorem C79_periodise_partial : (forall (f : list b64) per, length f = length per ->
  exists g, periodize FA f per = Ok g /\ length g = length f /\
    forall i v b w, nth_error f i = Some v -> nth_error per i = Some b -> nth_error g i = Some w ->
      (is_finite v = false -> w = B754_nan) /\
      (is_finite v = true -> is_finite w = true /\ (b = false -> B2R w = B2R v) /\
       (b = true -> 0 <= B2R w <= 1 /\ (B2R w = 1 <-> - / IZR (2 ^ 54) <= B2R v < 0) /\
         (0 <= B2R v \/ B2R v <= -1 -> exists k, B2R w = B2R v + IZR k) /\
         exists k, Rabs (B2R w - (B2R v + IZR k)) <= / IZR (2 ^ 54))))%R.
Proof. exact C79_all_lemma. Qed.
Print Assumptions C79_periodise_partial.
Example C79_example : exists g, periodize FA [f_ofZ 3; f_div (f_ofZ (-1)) (f_ofZ 4); f_div (f_ofZ 1) (f_ofZ 0)] [true; true; false] = Ok g /\ map is_finite g = [true; true; false] /\ map (fun x => f_eqb x (f_div (f_ofZ 3) (f_ofZ 4))) g = [false; true; false].
Proof. eexists. split; [reflexivity|]. vm_compute. auto. Qed.

(** C79 is false: every value from -2^-54 up to but excluding 0 comes out as 1, and as 0 when periodised again. *)
Theorem C79_periodise_refuted : (forall (v : b64), is_finite v = true -> - / IZR (2 ^ 54) <= B2R v < 0 ->
  exists w u, periodize FA [v] [true] = Ok [w] /\ B2R w = 1 /\ periodize FA [w] [true] = Ok [u] /\ B2R u = 0)%R.
Proof. exact C79_refuted_lemma. Qed.
Print Assumptions C79_periodise_refuted.
Example C79_refuted_example : let v : b64 := @B754_finite 53 1024 true 4503599627370496 (-112) eq_refl in
  is_finite v = true /\ (- / IZR (2 ^ 54) <= B2R v < 0)%R.
Proof. split; [reflexivity|]. unfold B2R, F2R. simpl. lra. Qed.

(** C84, part: on a grid built in binary64 the run follows the B/S rule exactly when neither side falls short at the border, and raises TypeError otherwise. Full claim: every run follows the rule (refuted below). Missing also: sides of 1 or 2 (see C83) and above 2^20. *)
Theorem C84_life_float_partial : forall n m s variant ords rnd ctl born survive init g k, 3 <= n <= 2 ^ 20 -> 3 <= m <= 2 ^ 20 -> fl_grid [n; m] s -> (forall t, legal (ords t)) ->
  process_variant_string variant = Ok (born, survive) -> life_init FA s ords rnd variant = Ok ctl ->
  Permutation (site_ids init) (map (fun x => KInt (s_id x)) (sites s None)) -> shows_on n m init g ->
  (~ falls_short n n -> ~ falls_short m m ->
   (exists o, run_sync ctl (None, 0%nat) init k = Ok o /\ rlen (o_result o) = Z.max 0 k + 1 /\
      forall t, 0 <= t <= Z.max 0 k -> exists st, get_step (o_result o) t = Ok st /\ site_ids st = site_ids init /\
        shows_on n m st (life_after born survive (Z.to_nat t) g)) /\
   (forall p sched, 1 <= p -> exists o, run_parallel ctl p sched (None, 0%nat) init k = Ok o /\ rlen (o_result o) = Z.max 0 k + 1 /\
      forall t, 0 <= t <= Z.max 0 k -> exists st, get_step (o_result o) t = Ok st /\ site_ids st = site_ids init /\
        shows_on n m st (life_after born survive (Z.to_nat t) g))) /\
  (falls_short n n \/ falls_short m m ->
   run_sync ctl (None, 0%nat) init k = Err TypeError /\ run_async ctl (None, 0%nat) init k = Err TypeError /\
   forall p sched, run_parallel ctl p sched (None, 0%nat) init k = Err TypeError).
Proof. exact C84_lemma. Qed.
Print Assumptions C84_life_float_partial.
Example C84_life_example : process_variant_string Life = Ok ([3], [2; 3]) /\ exists s ctl, fl_grid [48; 3] s /\ life_init FA s (fun _ => fl_oracle) (fun _ => 0%nat) Life = Ok ctl /\ legal fl_oracle /\ ~ falls_short 48 48 /\ ~ falls_short 3 3.
Proof.
  split; [reflexivity|]. destruct (C30_adjacent_found_lemma 48 3) as (s & FG & _); try lia. destruct (C75_classic_lemma 48 3 s ltac:(lia) ltac:(lia) FG) as (b & N & E1 & E2 & _).
  exists s. eexists. split; [exact FG|]. split; [reflexivity|]. split; [exact fl_oracle_legal|]. split; apply C30_adjacent_lemma; lia.
Qed.

(** C84, part: with sides from 3 to 48 every run follows the rule. *)
Theorem C84_life_float_small_partial : forall n m s variant ords rnd ctl born survive init g k, 3 <= n <= 48 -> 3 <= m <= 48 -> fl_grid [n; m] s -> (forall t, legal (ords t)) ->
  process_variant_string variant = Ok (born, survive) -> life_init FA s ords rnd variant = Ok ctl ->
  Permutation (site_ids init) (map (fun x => KInt (s_id x)) (sites s None)) -> shows_on n m init g ->
  (exists o, run_sync ctl (None, 0%nat) init k = Ok o /\ rlen (o_result o) = Z.max 0 k + 1 /\
     forall t, 0 <= t <= Z.max 0 k -> exists st, get_step (o_result o) t = Ok st /\ site_ids st = site_ids init /\
       shows_on n m st (life_after born survive (Z.to_nat t) g)) /\
  (forall p sched, 1 <= p -> exists o, run_parallel ctl p sched (None, 0%nat) init k = Ok o /\ rlen (o_result o) = Z.max 0 k + 1 /\
     forall t, 0 <= t <= Z.max 0 k -> exists st, get_step (o_result o) t = Ok st /\ site_ids st = site_ids init /\
       shows_on n m st (life_after born survive (Z.to_nat t) g)).
Proof. exact C84_small_lemma. Qed.
Print Assumptions C84_life_float_small_partial.
Example C84_example : exists s, fl_grid [48; 3] s /\ Permutation (site_ids (picture 48 3 (fun x y => x mod 3 =? y mod 2))) (map (fun x => KInt (s_id x)) (sites s None)) /\
  shows_on 48 3 (picture 48 3 (fun x y => x mod 3 =? y mod 2)) (fun x y => x mod 3 =? y mod 2).
Proof.
  destruct (fl_core 48 3 ltac:(unfold M20; lia) ltac:(unfold M20; lia)) as (s & FG & DE & CT & _). exists s. split; auto. split.
  - rewrite picture_ids, <- (map_map s_id KInt). unfold NbFacts.dense in DE. rewrite DE, CT. apply Permutation_refl.
  - apply picture_shows; [lia|lia|]. intros x y. rewrite Z.mod_mod by lia. now replace ((y mod 48) mod 2) with (y mod 2) by (Z.div_mod_to_equations; lia).
Qed.

(** C84 is false: on a 49 x 49 grid every run of the Game of Life raises TypeError. *)
Theorem C84_life_float_refuted : exists n s, 3 <= n <= 100 /\ fl_grid [n; n] s /\
  forall ords rnd init k, exists ctl, life_init FA s ords rnd Life = Ok ctl /\ run_sync ctl (None, 0%nat) init k = Err TypeError.
Proof. exact C84_refuted_lemma. Qed.
Print Assumptions C84_life_float_refuted.

(** C84, part: on grids of every size, with sides that do not fall short at the border, serial and parallel runs apply the rule to the number of distinct living neighbours other than the cell itself, and each step of an asynchronous run does so at the one cell drawn. (Sides that fall short: TypeError, above.) Missing: sides above 2^20. *)
Theorem C84_life_float_every_size_partial : forall n m s variant ords rnd ctl born survive init k, 1 <= n <= 2 ^ 20 -> 1 <= m <= 2 ^ 20 -> fl_grid [n; m] s -> ~ falls_short n n -> ~ falls_short m m -> (forall t, legal (ords t)) ->
  process_variant_string variant = Ok (born, survive) -> life_init FA s ords rnd variant = Ok ctl ->
  Permutation (site_ids init) (map (fun x => KInt (s_id x)) (sites s None)) ->
  (forall x y, holds init (y mod n * m + x mod m) "alive" \/ holds init (y mod n * m + x mod m) "dead") ->
  let rule := fun st st' x y => forall l, NoDup l ->
    (forall j, In j l <-> j <> y mod n * m + x mod m /\ exists dx dy, Z.abs dx <= 1 /\ Z.abs dy <= 1 /\ j = (y + dy) mod n * m + (x + dx) mod m) ->
    exists p, holds st (y mod n * m + x mod m) p /\ (p = "alive" \/ p = "dead")%string /\
      holds st' (y mod n * m + x mod m) (if existsb (Z.eqb (count_in st l "alive")) (if eqb p "alive"%string then survive else born) then "alive" else "dead") in
  (exists o, run_sync ctl (None, 0%nat) init k = Ok o /\ rlen (o_result o) = Z.max 0 k + 1 /\ get_step (o_result o) 0 = Ok init /\
     forall t, 0 <= t < Z.max 0 k -> exists st st', get_step (o_result o) t = Ok st /\ get_step (o_result o) (t + 1) = Ok st' /\ forall x y, rule st st' x y) /\
  (forall p sched, 1 <= p -> exists o, run_parallel ctl p sched (None, 0%nat) init k = Ok o /\ rlen (o_result o) = Z.max 0 k + 1 /\
     (exists st, get_step (o_result o) 0 = Ok st /\ forall x y q, holds st (y mod n * m + x mod m) q <-> holds init (y mod n * m + x mod m) q) /\
     forall t, 0 <= t < Z.max 0 k -> exists st st', get_step (o_result o) t = Ok st /\ get_step (o_result o) (t + 1) = Ok st' /\ forall x y, rule st st' x y) /\
  (exists o, run_async ctl (None, 0%nat) init k = Ok o /\ rlen (o_result o) = Z.max 0 k + 1 /\ get_step (o_result o) 0 = Ok init /\
     forall t, 0 <= t < Z.max 0 k -> exists st st' x y, get_step (o_result o) t = Ok st /\ get_step (o_result o) (t + 1) = Ok st' /\
       y mod n * m + x mod m = Z.of_nat (rnd (2 * Z.to_nat t)%nat) mod (n * m) /\ rule st st' x y /\
       forall j q, j <> y mod n * m + x mod m -> (holds st' j q <-> holds st j q)).
Proof. exact C84_every_lemma. Qed.
Print Assumptions C84_life_float_every_size_partial.
Example C84_every_example : exists s, fl_grid [1; 2] s /\ ~ falls_short 1 1 /\ ~ falls_short 2 2 /\ Permutation (site_ids (picture 1 2 (fun x y => x mod 2 =? 0))) (map (fun x => KInt (s_id x)) (sites s None)) /\
  shows_on 1 2 (picture 1 2 (fun x y => x mod 2 =? 0)) (fun x y => x mod 2 =? 0).
Proof.
  destruct (fl_core 1 2 ltac:(unfold M20; lia) ltac:(unfold M20; lia)) as (s & FG & DE & CT & _). exists s. split; [exact FG|]. split; [apply C30_adjacent_lemma; lia|]. split; [apply C30_adjacent_lemma; lia|]. split.
  - rewrite picture_ids, <- (map_map s_id KInt). unfold NbFacts.dense in DE. rewrite DE, CT. apply Permutation_refl.
  - apply picture_shows; [lia|lia|]. intros x y. now rewrite Z.mod_mod by lia.
Qed.

(** C110. The same in binary64, on grids whose sides do not fall short at the border (C84): the drawn cell gets the value that the rule gives it on the plane. *)
Theorem C110_async_float : forall n m s variant ords rnd ctl born survive init g k, 3 <= n <= 2 ^ 20 -> 3 <= m <= 2 ^ 20 -> fl_grid [n; m] s -> ~ falls_short n n -> ~ falls_short m m -> (forall t, legal (ords t)) ->
  process_variant_string variant = Ok (born, survive) -> life_init FA s ords rnd variant = Ok ctl ->
  Permutation (site_ids init) (map (fun x => KInt (s_id x)) (sites s None)) -> shows_on n m init g ->
  exists o, run_async ctl (None, 0%nat) init k = Ok o /\ rlen (o_result o) = Z.max 0 k + 1 /\ get_step (o_result o) 0 = Ok init /\
    forall t, 0 <= t < Z.max 0 k -> exists st st' h h', get_step (o_result o) t = Ok st /\ get_step (o_result o) (t + 1) = Ok st' /\ shows_on n m st h /\ shows_on n m st' h' /\
      forall x y, h' x y = if (y mod n) * m + x mod m =? Z.of_nat (rnd (2 * Z.to_nat t)%nat) mod (n * m) then life_next born survive h x y else h x y.
Proof. exact C110_float_lemma. Qed.
Print Assumptions C110_async_float.
Example C110_float_example : exists s, fl_grid [9; 12] s /\ ~ falls_short 9 9 /\ ~ falls_short 12 12 /\ Permutation (site_ids (picture 9 12 (fun x y => x mod 4 =? y mod 3))) (map (fun x => KInt (s_id x)) (sites s None)) /\
  shows_on 9 12 (picture 9 12 (fun x y => x mod 4 =? y mod 3)) (fun x y => x mod 4 =? y mod 3).
Proof.
  destruct (fl_core 9 12 ltac:(unfold M20; lia) ltac:(unfold M20; lia)) as (s & FG & DE & CT & _). exists s. split; [exact FG|]. split; [apply C30_adjacent_lemma; lia|]. split; [apply C30_adjacent_lemma; lia|]. split.
  - rewrite picture_ids, <- (map_map s_id KInt). unfold NbFacts.dense in DE. rewrite DE, CT. apply Permutation_refl.
  - apply picture_shows; [lia|lia|]. intros x y. replace ((x mod 12) mod 4) with (x mod 4) by (Z.div_mod_to_equations; lia). now replace ((y mod 9) mod 3) with (y mod 3) by (Z.div_mod_to_equations; lia).
Qed.

(** C110. The same in binary64: patterns that the rule leaves alone stay for ever. *)
Theorem C110_async_still_float : forall n m s variant ords rnd ctl born survive init g k, 3 <= n <= 2 ^ 20 -> 3 <= m <= 2 ^ 20 -> fl_grid [n; m] s -> ~ falls_short n n -> ~ falls_short m m -> (forall t, legal (ords t)) ->
  process_variant_string variant = Ok (born, survive) -> life_init FA s ords rnd variant = Ok ctl ->
  Permutation (site_ids init) (map (fun x => KInt (s_id x)) (sites s None)) -> shows_on n m init g ->
  (forall x y, life_next born survive g x y = g x y) ->
  exists o, run_async ctl (None, 0%nat) init k = Ok o /\ rlen (o_result o) = Z.max 0 k + 1 /\
    forall t, 0 <= t <= Z.max 0 k -> exists st, get_step (o_result o) t = Ok st /\ shows_on n m st g.
Proof. exact C110_float_still_lemma. Qed.
Print Assumptions C110_async_still_float.
Example C110_float_still_example : exists s, fl_grid [12; 8] s /\ ~ falls_short 12 12 /\ ~ falls_short 8 8 /\ Permutation (site_ids (picture 12 8 (fun x y => (x mod 4 <=? 1) && (y mod 4 <=? 1)))) (map (fun x => KInt (s_id x)) (sites s None)) /\
  shows_on 12 8 (picture 12 8 (fun x y => (x mod 4 <=? 1) && (y mod 4 <=? 1))) (fun x y => (x mod 4 <=? 1) && (y mod 4 <=? 1)).
Proof.
  destruct (fl_core 12 8 ltac:(unfold M20; lia) ltac:(unfold M20; lia)) as (s & FG & DE & CT & _). exists s. split; [exact FG|]. split; [apply C30_adjacent_lemma; lia|]. split; [apply C30_adjacent_lemma; lia|]. split.
  - rewrite picture_ids, <- (map_map s_id KInt). unfold NbFacts.dense in DE. rewrite DE, CT. apply Permutation_refl.
  - apply picture_shows; [lia|lia|]. intros x y. replace ((x mod 8) mod 4) with (x mod 4) by (Z.div_mod_to_equations; lia). now replace ((y mod 12) mod 4) with (y mod 4) by (Z.div_mod_to_equations; lia).
Qed.

(** C94. The same in binary64, on grids whose sides do not fall short at the border (C84). *)
Theorem C94_plane_float : forall n m s variant ords rnd ctl born survive init ls k,
  3 <= n <= 2 ^ 20 -> 3 <= m <= 2 ^ 20 -> fl_grid [n; m] s -> ~ falls_short n n -> ~ falls_short m m -> (forall t, legal (ords t)) ->
  process_variant_string variant = Ok (born, survive) -> ~ In 0 born -> life_init FA s ords rnd variant = Ok ctl ->
  Permutation (site_ids init) (map (fun x => KInt (s_id x)) (sites s None)) ->
  evolves born survive ls -> (forall t, Z.of_nat t < k -> fits (m - 2) (n - 2) (ls t)) -> draws_on n m init (ls 0%nat) ->
  every_run ctl (None, 0%nat) init k (fun t st => draws_on n m st (ls t)).
Proof. exact C94_float_lemma. Qed.
Print Assumptions C94_plane_float.
Example C94_plane_float_example : exists s, fl_grid [7; 9] s /\ ~ falls_short 7 7 /\ ~ falls_short 9 9 /\ evolves [3] [2; 3] (gliding 3 4) /\ forall t, fits (9 - 2) (7 - 2) (gliding 3 4 t).
Proof.
  destruct (C30_adjacent_found_lemma 7 9) as (s & FG & _); try lia. exists s. split; [exact FG|]. split; [apply C30_adjacent_lemma; lia|]. split; [apply C30_adjacent_lemma; lia|].
  split; [apply glider_evolves|]. intros t. apply (fits_le 3 3); [lia|lia|apply glider_fits].
Qed.

(** C86, part: in binary64 the growth controller can be made exactly when neither side falls short at the border; then the occupied cells after t steps are those within t of a nucleus. Full claim: always (refuted below). Missing also: sides above 2^20. *)
Theorem C86_growth_float_partial : forall n m s bg ords rnd ids c0 init k, 1 <= n <= 2 ^ 20 -> 1 <= m <= 2 ^ 20 -> fl_grid [n; m] s -> (forall t, legal (ords t)) ->
  Permutation ids (map s_id (sites s None)) -> phased ids init ->
  (~ falls_short n n -> ~ falls_short m m -> exists N, growth_nbhood FA s None = Ok N /\
   (exists o, run_sync (growth_controller N bg ords rnd) c0 init k = Ok o /\ rlen (o_result o) = Z.max 0 k + 1 /\
      forall t, 0 <= t <= Z.max 0 k -> exists st, get_step (o_result o) t = Ok st /\
        forall x y, (occupied bg st ((y mod n) * m + x mod m) <->
          exists dx dy, Z.abs dx <= t /\ Z.abs dy <= t /\ occupied bg init (((y + dy) mod n) * m + (x + dx) mod m))) /\
   (forall q sched, 1 <= q -> exists o, run_parallel (growth_controller N bg ords rnd) q sched c0 init k = Ok o /\ rlen (o_result o) = Z.max 0 k + 1 /\
      forall t, 0 <= t <= Z.max 0 k -> exists st, get_step (o_result o) t = Ok st /\
        forall x y, (occupied bg st ((y mod n) * m + x mod m) <->
          exists dx dy, Z.abs dx <= t /\ Z.abs dy <= t /\ occupied bg init (((y + dy) mod n) * m + (x + dx) mod m)))) /\
  (falls_short n n \/ falls_short m m -> growth_nbhood FA s None = Err TypeError).
Proof. exact C86_lemma. Qed.
Print Assumptions C86_growth_float_partial.
Example C86_growth_example : exists s b N, fl_grid [48; 3] s /\ ~ falls_short 48 48 /\ ~ falls_short 3 3 /\ MooreNbHoodBuilder FA 1 2 = Ok b /\ nb_get FA b s None = Ok N.
Proof.
  destruct (C30_adjacent_found_lemma 48 3) as (s & FG & _); try lia. destruct (C75_classic_lemma 48 3 s ltac:(lia) ltac:(lia) FG) as (b & N & E1 & E2 & _). exists s, b, N. split; [exact FG|].
  split; [apply C30_adjacent_lemma; lia|]. split; [apply C30_adjacent_lemma; lia|]. split; [exact E1|exact E2].
Qed.

(** C86, part: the same on 2D and 3D grids, for the default, Moore and von Neumann neighbourhoods of every radius: the occupied cells after t steps are those within r t of a nucleus, in the metric of the neighbourhood. *)
Theorem C86_growth_grids_partial : forall size s r P b b' bg ords rnd ids c0 init k, Forall (fun m => 1 <= m <= 2 ^ 20) size -> fl_square size s -> 0 <= r <= 2 ^ 20 ->
  fl_builder (length size) r P b -> b' = Some b \/ (b' = None /\ r = 1 /\ P = within_moore) -> (forall t, legal (ords t)) ->
  Permutation ids (map s_id (sites s None)) -> phased ids init ->
  (Forall (fun m => ~ lost m r) size -> exists N, growth_nbhood FA s b' = Ok N /\
   (exists o, run_sync (growth_controller N bg ords rnd) c0 init k = Ok o /\ rlen (o_result o) = Z.max 0 k + 1 /\
      forall t, 0 <= t <= Z.max 0 k -> exists st, get_step (o_result o) t = Ok st /\
        forall p i, length p = length size -> fl_cell size s p i ->
          (occupied bg st i <-> exists d j, length d = length size /\ P (r * t) d /\ fl_cell size s (shift p d) j /\ occupied bg init j)) /\
   (forall q sched, 1 <= q -> exists o, run_parallel (growth_controller N bg ords rnd) q sched c0 init k = Ok o /\ rlen (o_result o) = Z.max 0 k + 1 /\
      forall t, 0 <= t <= Z.max 0 k -> exists st, get_step (o_result o) t = Ok st /\
        forall p i, length p = length size -> fl_cell size s p i ->
          (occupied bg st i <-> exists d j, length d = length size /\ P (r * t) d /\ fl_cell size s (shift p d) j /\ occupied bg init j))) /\
  (Exists (fun m => lost m r) size -> growth_nbhood FA s b' = Err TypeError).
Proof. exact C86_grids_lemma. Qed.
Print Assumptions C86_growth_grids_partial.
Example C86_grids_example : exists s b, fl_square [3; 4; 5] s /\ fl_builder 3 1 within_vn b /\ Forall (fun m => ~ lost m 1) [3; 4; 5] /\ exists ids, Permutation ids (map s_id (sites s None)).
Proof.
  assert (Hk : Forall (fun m => 1 <= m <= 2 ^ 20) [3; 4; 5]) by (repeat constructor; lia).
  destruct (square_box [3; 4; 5] (or_intror eq_refl) Hk) as (s & L & FS & _).
  eexists s, _. split; [exact FS|]. split; [right; right; split; [reflexivity|split; reflexivity]|].
  split; [repeat constructor; intros (x & Hx & S); revert S; apply C30_adjacent_lemma; lia|].
  exists (map s_id (sites s None)). apply Permutation_refl.
Qed.

(** C86, part: with sides up to 48 it always works. *)
Theorem C86_growth_float_small_partial : forall n m s bg ords rnd ids c0 init k, 1 <= n <= 48 -> 1 <= m <= 48 -> fl_grid [n; m] s -> (forall t, legal (ords t)) ->
  Permutation ids (map s_id (sites s None)) -> phased ids init ->
  exists N o, growth_nbhood FA s None = Ok N /\ run_sync (growth_controller N bg ords rnd) c0 init k = Ok o /\ rlen (o_result o) = Z.max 0 k + 1 /\
    forall t, 0 <= t <= Z.max 0 k -> exists st, get_step (o_result o) t = Ok st /\
      forall x y, (occupied bg st ((y mod n) * m + x mod m) <->
        exists dx dy, Z.abs dx <= t /\ Z.abs dy <= t /\ occupied bg init (((y + dy) mod n) * m + (x + dx) mod m)).
Proof. exact C86_small_lemma. Qed.
Print Assumptions C86_growth_float_small_partial.
Example C86_example : exists s ids, fl_grid [48; 3] s /\ Permutation ids (map s_id (sites s None)) /\ phased ids (picture 48 3 (fun x y => x mod 3 =? y mod 2)).
Proof.
  destruct (fl_core 48 3 ltac:(unfold M20; lia) ltac:(unfold M20; lia)) as (s & FG & DE & CT & _). exists s, (zrange 0 144). split; auto. split.
  - unfold NbFacts.dense in DE. rewrite DE, CT. apply Permutation_refl.
  - split; [apply picture_ids|]. intros i Hi. apply zrange_In in Hi.
    assert (SH : shows_on 48 3 (picture 48 3 (fun x y => x mod 3 =? y mod 2)) (fun x y => x mod 3 =? y mod 2)).
    { apply picture_shows; [lia|lia|]. intros x y. rewrite Z.mod_mod by lia. now replace ((y mod 48) mod 2) with (y mod 2) by (Z.div_mod_to_equations; lia). }
    specialize (SH (i mod 3) (i / 3)). replace ((i / 3) mod 48 * 3 + (i mod 3) mod 3) with i in SH by (Z.div_mod_to_equations; lia). eauto.
Qed.

(** C86 is false: on a 49 x 49 grid making the growth controller raises TypeError. *)
Theorem C86_growth_float_refuted : exists n s, 1 <= n <= 100 /\ fl_grid [n; n] s /\ growth_nbhood FA s None = Err TypeError.
Proof. exact C86_refuted_lemma. Qed.
Print Assumptions C86_growth_float_refuted.

(** C89. In binary64 a square lattice with any periodicity has one site per cell, and distance and annular neighbourhoods are exactly those of the cell offsets, for every cutoff clear of the lengths. *)
Theorem C89_cutoffs_float : forall n per L k z p, (n <= 3)%nat -> fl_axes n per L -> length k = n -> Forall (fun m => 1 <= m <= 2 ^ 20) k -> cell_position n z p ->
  exists s, build_from FA L k (MList [p]) false = Ok s /\ Z.of_nat (length (sites s None)) = fold_right Z.mul 1 k /\
    (forall i x, get_site s i = Some x -> exists c, Forall2 (fun a m => 0 <= a < m) c k /\ fl_site s z c i) /\
    (forall c, Forall2 (fun a m => 0 <= a < m) c k -> exists i, fl_site s z c i /\ forall i', fl_site s z c i' -> i' = i) /\
    (forall c c' i, fl_site s z c i -> fl_site s z c' i -> c = c') /\
    (forall K K' cut t, (forall d, length d = n -> K < sq d -> K' <= sq d) -> denotes cut t -> admits K t -> keeps_out K' t ->
       exists N, nb_get FA (BDistance cut) s None = Ok N /\ forall c i, fl_site s z c i ->
         neighbours N i (fun j => j <> i /\ exists c' d, fl_site s z c' j /\ reaches per k c d c' /\ sq d <= K) /\ lengths per k z s N c i) /\
    (forall K1 K2 cut1 cut2 t1 t2, denotes cut1 t1 -> denotes cut2 t2 -> skips K1 t1 -> passes (K1 + 1) t1 -> admits K2 t2 -> keeps_out (K2 + 1) t2 ->
       exists N, nb_get FA (BAnnular cut1 cut2) s None = Ok N /\ forall c i, fl_site s z c i ->
         neighbours N i (fun j => j <> i /\ exists c' d, fl_site s z c' j /\ shortest per k c d c' /\ K1 < sq d <= K2) /\ lengths per k z s N c i).
Proof. exact C89_lemma. Qed.
Print Assumptions C89_cutoffs_float.
Example C89_example : exists L p, fl_axes 2 [true; false] L /\ cell_position 2 [500; 250] p /\ length [3; 4] = 2%nat /\ Forall (fun m => 1 <= m <= 2 ^ 20) [3; 4] /\
  admits 1 (101 / 100) /\ keeps_out 2 (101 / 100) /\ (forall d, length d = 2%nat -> 1 < sq d -> 2 <= sq d).
Proof.
  assert (Hz : Forall (fun a => 0 <= a < 1000) [500; 250]) by (repeat constructor; lia). destruct (thousandths_exist _ Hz) as (p & Hp).
  eexists. exists p. split; [exists (PFlags [true; false]); split; [reflexivity|split; reflexivity]|]. split; [split; [reflexivity|split; [exact Hz|exact Hp]]|]. split; [reflexivity|].
  split; [repeat constructor; lia|]. split; [right; exists 1; split; [lia|split; [lia|lra]]|]. split; [left; pose proof sqrt2_bounds; lra|intros; lia].
Qed.

(** C89, the cutoffs of the guides: 1.01 gives the von Neumann, 1.5 the Moore neighbourhood. *)
Theorem C89_guides_float : forall per L k z p s, fl_axes 2 per L -> length k = 2%nat -> Forall (fun m => 1 <= m <= 2 ^ 20) k -> cell_position 2 z p ->
  build_from FA L k (MList [p]) false = Ok s ->
  (forall cut t, denotes cut t -> (1 < t <= 14136 / 10000)%R -> exists N, nb_get FA (BDistance cut) s None = Ok N /\ forall c i, fl_site s z c i ->
     neighbours N i (fun j => j <> i /\ exists c' d, fl_site s z c' j /\ reaches per k c d c' /\ within_vn 1 d)) /\
  (forall cut t, denotes cut t -> (14149 / 10000 <= t <= 2)%R -> exists N, nb_get FA (BDistance cut) s None = Ok N /\ forall c i, fl_site s z c i ->
     neighbours N i (fun j => j <> i /\ exists c' d, fl_site s z c' j /\ reaches per k c d c' /\ within_moore 1 d)).
Proof. exact C89_guide_lemma. Qed.
Print Assumptions C89_guides_float.
Example C89_guide_example : (1 < 101 / 100 <= 14136 / 10000)%R /\ (14149 / 10000 <= 15 / 10 <= 2)%R.
Proof. lra. Qed.

(** C90. In binary64 circular neighbourhoods on the square grids of the library are those of the torus for every side up to 2^20. *)
Theorem C90_circular_float : forall size s, (length size = 2%nat \/ length size = 3%nat) -> Forall (fun m => 1 <= m <= 2 ^ 20) size -> fl_square size s ->
  let per := repeat true (length size) in let z := repeat 0 (length size) in
  (forall c, Forall2 (fun a m => 0 <= a < m) c (extents size) -> exists i, fl_site s z c i) /\
  (forall i x, get_site s i = Some x -> exists c, Forall2 (fun a m => 0 <= a < m) c (extents size) /\ fl_site s z c i) /\
  (forall K K' cut t, (forall d, length d = length size -> K < sq d -> K' <= sq d) -> denotes cut t -> admits K t -> keeps_out K' t ->
     exists N, nb_get FA (CircularNeighborhoodBuilder cut) s None = Ok N /\ forall c i, fl_site s z c i ->
       neighbours N i (fun j => j <> i /\ exists c' d, fl_site s z c' j /\ reaches per (extents size) c d c' /\ sq d <= K) /\ lengths per (extents size) z s N c i).
Proof. exact C90_lemma. Qed.
Print Assumptions C90_circular_float.
Example C90_example : exists s, fl_square [49; 49] s /\ admits 2 (15 / 10) /\ keeps_out 4 (15 / 10) /\ (forall d, length d = 2%nat -> 2 < sq d -> 4 <= sq d).
Proof.
  destruct (fl_core 49 49 ltac:(unfold M20; lia) ltac:(unfold M20; lia)) as (s & FG & _). exists s. split; [left; split; [reflexivity|exact FG]|].
  split; [left; pose proof sqrt2_bounds; lra|]. split; [right; exists 2; split; [lia|split; [lia|lra]]|]. intros d Ld H. destruct (Z.eq_dec (sq d) 3) as [E|]; [|lia].
  exfalso. destruct d as [|x [|y [|]]]; try discriminate. unfold sq in E. simpl in E. assert (0 <= x * x /\ 0 <= y * y) by nia. assert (-1 <= x <= 1) by nia. assert (-1 <= y <= 1) by nia. nia.
Qed.

(** C91. In binary64 a motif neighbourhood consists of the sites reached by the offsets if none leaves the structure and none falls short; otherwise it is a TypeError. Only along periodic sides on whose cell borders the sites lie can an offset fall short. *)
Theorem C91_motif_float : forall n per L k z p s D, fl_axes n per L -> length k = n -> Forall (fun m => 1 <= m <= 2 ^ 20) k -> cell_position n z p ->
  Forall (fun d => length d = n /\ Forall (fun a => Z.abs a <= 2 ^ 20) d) D ->
  build_from FA L k (MList [p]) false = Ok s ->
  exists b, motif_builder FA (map (nums FA) D) = Ok b /\
    ((forall c d, Forall2 (fun a m => 0 <= a < m) c k -> In d D -> ~ blocked per k z c d /\ exists c', Forall2 (fun a m => 0 <= a < m) c' k /\ reaches per k c d c') ->
     exists N, nb_get FA b s None = Ok N /\ forall c i, fl_site s z c i ->
       neighbours N i (fun j => j <> i /\ exists c' d, fl_site s z c' j /\ In d D /\ reaches per k c d c')) /\
    ((exists c d, Forall2 (fun a m => 0 <= a < m) c k /\ In d D /\ (blocked per k z c d \/ forall c', Forall2 (fun a m => 0 <= a < m) c' k -> ~ reaches per k c d c')) ->
     nb_get FA b s None = Err TypeError).
Proof. exact C91_lemma. Qed.
Print Assumptions C91_motif_float.
Example C91_example : exists L p, fl_axes 2 [true; true] L /\ cell_position 2 [500; 1] p /\ Forall2 (fun b a => b = true -> 1 <= a) [true; true] [500; 1] /\
  Forall (fun d => length d = 2%nat /\ Forall (fun a => Z.abs a <= 2 ^ 20) d) [[0; 1]; [-3; 2]].
Proof.
  assert (Hz : Forall (fun a => 0 <= a < 1000) [500; 1]) by (repeat constructor; lia). destruct (thousandths_exist _ Hz) as (p & Hp).
  eexists. exists p. split; [exists (PBool true); split; [reflexivity|split; reflexivity]|]. split; [split; [reflexivity|split; [exact Hz|exact Hp]]|].
  split; [repeat constructor; lia|]. repeat constructor; simpl; lia.
Qed.

(** C91, lookups: a location off by at most 2^-20 still finds the site of the wrapped cell, and nothing outside an open side. *)
Theorem C91_lookup_float : forall n per L k z p s x v, fl_axes n per L -> length k = n -> Forall (fun m => 1 <= m <= 2 ^ 20) k -> cell_position n z p ->
  Forall2 (fun b a => b = true -> 1 <= a) per z -> build_from FA L k (MList [p]) false = Ok s ->
  length x = n -> Forall (fun a => Z.abs a <= 2 ^ 27) x ->
  Forall2 (fun q u => exists X, denotes u X /\ (Rabs (X - IZR q / 1000) <= / IZR (2 ^ 20))%R) (zipwith (fun a b => 1000 * a + b) x z) v ->
  (forall c i, fl_site s z c i -> reaches per k x (repeat 0 n) c -> id_at FA s v = Ok (Some i)) /\
  ((forall c, Forall2 (fun a m => 0 <= a < m) c k -> ~ reaches per k x (repeat 0 n) c) -> id_at FA s v = Ok None).
Proof. exact C91_lookup_lemma. Qed.
Print Assumptions C91_lookup_float.
Example C91_lookup_example : reaches [true; false] [3; 4] [-1; 2] (repeat 0 2) [2; 2].
Proof.
  split; [reflexivity|]. split; [reflexivity|]. split; [reflexivity|]. intros [|[|[|a]]] b m x y z H1 H2 H3 H4 H5; simpl in *; try discriminate;
    injection H1 as <-; injection H2 as <-; injection H3 as <-; injection H4 as <-; injection H5 as <-; [exists (-1)|]; reflexivity.
Qed.

(** C91, states: a location off by at most 2^-20 still finds the state of the site of the wrapped cell, and None outside an open side. *)
Theorem C91_state_float : forall n per L k z p s st x v, fl_axes n per L -> length k = n -> Forall (fun m => 1 <= m <= 2 ^ 20) k -> cell_position n z p ->
  Forall2 (fun b a => b = true -> 1 <= a) per z -> build_from FA L k (MList [p]) false = Ok s ->
  length x = n -> Forall (fun a => Z.abs a <= 2 ^ 27) x ->
  Forall2 (fun q u => exists X, denotes u X /\ (Rabs (X - IZR q / 1000) <= / IZR (2 ^ 20))%R) (zipwith (fun a b => 1000 * a + b) x z) v ->
  (forall c i, fl_site s z c i -> reaches per k x (repeat 0 n) c -> state_at FA (mkSim st s) v = Ok (get_site_state st (KInt i))) /\
  ((forall c, Forall2 (fun a m => 0 <= a < m) c k -> ~ reaches per k x (repeat 0 n) c) -> state_at FA (mkSim st s) v = Ok None).
Proof. exact C91_state_lemma. Qed.
Print Assumptions C91_state_float.
Example C91_state_example : exists L p s v, fl_axes 2 [true; false] L /\ cell_position 2 [500; 250] p /\ build_from FA L [3; 4] (MList [p]) false = Ok s /\
  Forall2 (fun q u => exists X, denotes u X /\ (Rabs (X - IZR q / 1000) <= / IZR (2 ^ 20))%R) (zipwith (fun a b => 1000 * a + b) [0; 0] [500; 250]) v.
Proof.
  assert (Hz : Forall (fun a => 0 <= a < 1000) [500; 250]) by (repeat constructor; lia). destruct (thousandths_exist _ Hz) as (p & Hp).
  assert (CP : cell_position 2 [500; 250] p) by (split; [reflexivity|split; [exact Hz|exact Hp]]).
  assert (Hk : Forall (fun m => 1 <= m <= 2 ^ 20) [3; 4]) by (repeat constructor; lia).
  assert (exists L, fl_axes 2 [true; false] L) as (L & FL) by (eexists; exists (PFlags [true; false]); split; [reflexivity|split; reflexivity]).
  destruct (C89_lemma 2 [true; false] L [3; 4] [500; 250] p) as (s & Es & _); auto; try lia. 
  exists L, p, s, [@B754_finite 53 1024 false 4503599627370496 (-53) eq_refl; @B754_finite 53 1024 false 4503599627370496 (-54) eq_refl].
  split; [exact FL|]. split; [exact CP|]. split; [exact Es|]. assert (0 < / IZR (2 ^ 20))%R by (apply Rinv_0_lt_compat, IZR_lt; lia).
  constructor; [exists (1/2)%R|constructor; [exists (1/4)%R|constructor]]; (split; [split; [reflexivity|unfold B2R, F2R; simpl; lra]|]); apply Rabs_le; simpl in *; lra.
Qed.

(** C91, Moore neighbourhoods on periodic lattices: they work unless a side loses a coordinate along which the sites lie on the cell borders, and raise TypeError then. *)
Theorem C91_moore_float : forall n L k z p s r, fl_axes n (repeat true n) L -> length k = n -> Forall (fun m => 1 <= m <= 2 ^ 20) k -> cell_position n z p ->
  0 <= r <= 2 ^ 20 -> build_from FA L k (MList [p]) false = Ok s ->
  exists b, MooreNbHoodBuilder FA r n = Ok b /\
    ((forall a m, nth_error k a = Some m -> nth_error z a = Some 0 -> ~ lost m r) -> exists N, nb_get FA b s None = Ok N /\ forall c i, fl_site s z c i ->
       neighbours N i (fun j => j <> i /\ exists c' d, fl_site s z c' j /\ reaches (repeat true n) k c d c' /\ within_moore r d)) /\
    ((exists a m, nth_error k a = Some m /\ nth_error z a = Some 0 /\ lost m r) -> nb_get FA b s None = Err TypeError).
Proof. exact C91_moore_lemma. Qed.
Print Assumptions C91_moore_float.
Example C91_moore_example : exists L p s, fl_axes 2 [true; true] L /\ cell_position 2 [500; 0] p /\ build_from FA L [49; 4] (MList [p]) false = Ok s /\
  (forall a m, nth_error [49; 4] a = Some m -> nth_error [500; 0] a = Some 0 -> ~ lost m 1).
Proof.
  assert (Hz : Forall (fun a => 0 <= a < 1000) [500; 0]) by (repeat constructor; lia). destruct (thousandths_exist _ Hz) as (p & Hp).
  assert (CP : cell_position 2 [500; 0] p) by (split; [reflexivity|split; [exact Hz|exact Hp]]).
  assert (Hk : Forall (fun m => 1 <= m <= 2 ^ 20) [49; 4]) by (repeat constructor; lia).
  assert (exists L, fl_axes 2 [true; true] L) as (L & FL) by (eexists; exists (PFlags [true; true]); split; [reflexivity|split; reflexivity]).
  destruct (C89_lemma 2 [true; true] L [49; 4] [500; 0] p) as (s & Es & _); auto; try lia. exists L, p, s. split; [exact FL|]. split; [exact CP|]. split; [exact Es|].
  intros [|[|[|a]]] m E1 E2; simpl in E1, E2; try discriminate. injection E1 as <-. intros (x & Hx & S). revert S. apply C30_adjacent_lemma; lia.
Qed.

(** C91, Moore neighbourhoods with an open side: they always raise TypeError. *)
Theorem C91_open_float : forall n per L k z p s r, fl_axes n per L -> length k = n -> Forall (fun m => 1 <= m <= 2 ^ 20) k -> cell_position n z p ->
  1 <= r <= 2 ^ 20 -> In false per -> build_from FA L k (MList [p]) false = Ok s ->
  exists b, MooreNbHoodBuilder FA r n = Ok b /\ nb_get FA b s None = Err TypeError.
Proof. exact C91_open_lemma. Qed.
Print Assumptions C91_open_float.
Example C91_open_example : exists L p s b, fl_axes 2 [true; false] L /\ cell_position 2 [500; 0] p /\ build_from FA L [3; 4] (MList [p]) false = Ok s /\ MooreNbHoodBuilder FA 1 2 = Ok b /\ nb_get FA b s None = Err TypeError.
Proof.
  assert (Hz : Forall (fun a => 0 <= a < 1000) [500; 0]) by (repeat constructor; lia). destruct (thousandths_exist _ Hz) as (p & Hp).
  assert (CP : cell_position 2 [500; 0] p) by (split; [reflexivity|split; [exact Hz|exact Hp]]).
  assert (Hk : Forall (fun m => 1 <= m <= 2 ^ 20) [3; 4]) by (repeat constructor; lia).
  assert (exists L, fl_axes 2 [true; false] L) as (L & FL) by (eexists; exists (PFlags [true; false]); split; [reflexivity|split; reflexivity]).
  destruct (C89_lemma 2 [true; false] L [3; 4] [500; 0] p) as (s & Es & _); auto; try lia.
  destruct (C91_open_lemma 2 [true; false] L [3; 4] [500; 0] p s 1 FL eq_refl Hk CP ltac:(lia) (or_intror (or_introl eq_refl)) Es) as (b & Eb & E). exists L, p, s, b. auto.
Qed.

(** C95, part: in binary64, on 2D and 3D grids, in whatever order numpy adds up the amounts, nucleation ends with RuntimeError or with the requested number of nuclei, separated by the buffer; a phase gets less than one more than its share, up to a rounding error of (k + 1) (phases + 2) / 2^50. A buffer for which the Moore neighbourhood cannot be built (C75) raises TypeError. Full claim: without the rounding error, and for all amounts (both refuted below). *)
Theorem C95_nucleation_float_partial : forall dim sz s k bg amts buffer rnd ords np_sum, fl_setup dim sz s -> 0 <= k ->
  fl_amounts bg amts -> (k + 1) * (Z.of_nat (length amts) + 2) <= 2 ^ 44 -> (forall t, legal (ords t)) -> summation FA np_sum ->
  (fl_buffer (grid_size dim sz) buffer -> exists r, (forall f1 f2, (k + 1) * Z.of_nat (length amts) <= Z.of_nat f1 -> 1000 * k + 2 <= Z.of_nat f2 ->
      setup_random_sites FA f1 f2 np_sum rnd ords (Z.of_nat dim) sz k bg amts buffer = Some r) /\
    (r = Err RuntimeError \/ exists st, r = Ok (mkSim st s) /\
       configuration s st (fun _ q => q = bg \/ In q (dkeys amts)) /\
       Z.of_nat (length (without_phase s st bg)) = k /\
       (forall b, buffer = Some b -> fl_separated (grid_size dim sz) s b (without_phase s st bg)) /\
       forall p a, In (p, a) amts -> (IZR (Z.of_nat (length (with_phase s st p))) <
         IZR k * B2R a / total_of amts + 1 + IZR ((k + 1) * (Z.of_nat (length amts) + 2)) / IZR (2 ^ 50))%R)) /\
  (bad_buffer (grid_size dim sz) buffer -> forall f1 f2, setup_random_sites FA f1 f2 np_sum rnd ords (Z.of_nat dim) sz k bg amts buffer = Some (Err TypeError)).
Proof. exact C95_lemma. Qed.
Print Assumptions C95_nucleation_float_partial.
Example C95_example : exists amts s, fl_amounts "bg" amts /\ map fst amts = ["a"; "b"]%string /\ fl_setup 3 (SzTuple [48; 4; 48]) s /\ fl_buffer [48; 4; 48] (Some 1) /\ legal fl_oracle /\ summation FA right_sum.
Proof.
  assert (Hk : Forall (fun m => 1 <= m <= 2 ^ 20) [48; 4; 48]) by (repeat constructor; lia).
  destruct (square_box [48; 4; 48] (or_intror eq_refl) Hk) as (s & L & FS & _). exists uneven, s. split; [apply uneven_ok|]. split; [reflexivity|].
  split; [split; [split; [auto|split; [reflexivity|]]|split; [|exact FS]]; repeat constructor; lia|].
  split; [|split; [exact fl_oracle_legal|exact right_sum_ok]]. split; [lia|]. repeat constructor; intros (x & Hx & S); revert S; apply C30_adjacent_lemma; lia.
Qed.

(** C95. Amounts 7 and 18 with 25 nuclei give 8 and 17, on every grid. *)
Theorem C95_counts : forall dim sz s buffer rnd ords np_sum, fl_setup dim sz s -> fl_buffer (grid_size dim sz) buffer ->
  (forall t, legal (ords t)) -> summation FA np_sum ->
  exists r, (forall f1 f2, 52 <= Z.of_nat f1 -> 25002 <= Z.of_nat f2 ->
      setup_random_sites FA f1 f2 np_sum rnd ords (Z.of_nat dim) sz 25 "bg" [("a"%string, f_ofZ 7); ("b"%string, f_ofZ 18)] buffer = Some r) /\
    (r = Err RuntimeError \/ exists st, r = Ok (mkSim st s) /\
       Z.of_nat (length (with_phase s st "a")) = 8 /\ Z.of_nat (length (with_phase s st "b")) = 17).
Proof. exact C95_ratio_lemma. Qed.
Print Assumptions C95_counts.
Example C95_counts_example : exists s, fl_setup 2 (SzTuple [48; 49]) s /\ fl_buffer [48; 49] None /\ legal fl_oracle /\ summation FA right_sum /\ 25 * 7 / (7 + 18) = 7.
Proof.
  assert (Hk : Forall (fun m => 1 <= m <= 2 ^ 20) [48; 49]) by (repeat constructor; lia).
  destruct (square_box [48; 49] (or_introl eq_refl) Hk) as (s & L & FS & _). exists s. split; [split; [split; [auto|split; [reflexivity|]]|split; [|exact FS]]; repeat constructor; lia|].
  split; [exact I|]. split; [exact fl_oracle_legal|]. split; [exact right_sum_ok|reflexivity].
Qed.

(** C95 is false: a phase can get its share and one more. *)
Theorem C95_ratio_refuted : exists s st amts np_sum rnd ords, fl_setup 2 (SzInt 5) s /\ fl_amounts "bg" amts /\ summation FA np_sum /\ (forall t, legal (ords t)) /\
  (forall f1 f2, 52 <= Z.of_nat f1 -> 25002 <= Z.of_nat f2 ->
     setup_random_sites FA f1 f2 np_sum rnd ords 2 (SzInt 5) 25 "bg" amts None = Some (Ok (mkSim st s))) /\
  exists p a, In (p, a) amts /\ (IZR (Z.of_nat (length (with_phase s st p))) = IZR 25 * B2R a / total_of amts + 1)%R.
Proof. exact C95_ratio_refuted_lemma. Qed.
Print Assumptions C95_ratio_refuted.

(** C95. If the sum of the amounts overflows, the selection never ends. *)
Theorem C95_overflow : forall dim sz s k bg amts buffer rnd ords np_sum, fl_setup dim sz s -> fl_buffer (grid_size dim sz) buffer ->
  0 < k < 2 ^ 53 -> uniq amts -> amts <> [] -> (forall p a, In (p, a) amts -> is_finite a = true /\ (0 <= B2R a)%R) -> np_sum (map snd amts) = B754_infinity false ->
  forall f1 f2, setup_random_sites FA f1 f2 np_sum rnd ords (Z.of_nat dim) sz k bg amts buffer = None.
Proof. exact C95_overflow_lemma. Qed.
Print Assumptions C95_overflow.
Example C95_overflow_example : let big : b64 := @B754_finite 53 1024 false 4503599627370496 971 eq_refl in is_finite big = true /\ (0 <= B2R big)%R /\ right_sum [big; big] = B754_infinity false.
Proof. split; [reflexivity|]. split; [unfold B2R, F2R; simpl; lra|]. reflexivity. Qed.

(** C95 is false: there are positive finite amounts for which the selection never ends. *)
Theorem C95_termination_refuted : forall dim sz s k buffer rnd ords np_sum, fl_setup dim sz s -> fl_buffer (grid_size dim sz) buffer ->
  0 < k < 2 ^ 53 -> summation FA np_sum -> exists amts, uniq amts /\ ~ In "bg"%string (dkeys amts) /\
  (forall p a, In (p, a) amts -> is_finite a = true /\ B2R a = bpow radix2 1023) /\
  forall f1 f2, setup_random_sites FA f1 f2 np_sum rnd ords (Z.of_nat dim) sz k "bg" amts buffer = None.
Proof. exact C95_endless_lemma. Qed.
Print Assumptions C95_termination_refuted.
