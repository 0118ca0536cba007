(** Properties C47-C50 and C68: starting states of square grids. *)
From Coq Require Import Reals Lra Permutation.
From Verif Require Import Prelude Dict Val Arith RVec RealArith LatticeModel StructModel StateModel NbModel GridModel SimModel SetupModel SpecState SpecGeom SpecNb SpecGrid SpecSetup NucMore SetupFacts SetupMore NucSigned NbDemo GridPoints StructMore.
Local Open Scope Z_scope.

(** C47. A solid phase, on every structure. *)
Theorem C47_solid : forall F (A : arith F) L s phase, built A L s ->
  configuration s (setup_solid_phase s phase) (fun _ p => p = phase).
Proof. exact C47_solid_lemma. Qed.
Print Assumptions C47_solid.
Example C47_solid_example : built RA open_line two /\ get_site two 1 = Some (mkSite "B" [1%R] 1).
Proof. split; [exact two_built|apply two_sites]. Qed.

(** C47. An interface at half the first size [k]. For a tuple the x extent is the second entry, so the interface is in the middle only when they agree. *)
Theorem C47_interface : forall dim sz k t p1 p2, good_size dim sz -> grid_size dim sz = k :: t ->
  exists s st, setup_interface RA (Z.of_nat dim) sz p1 p2 = Ok (mkSim st s) /\ square_grid (grid_size dim sz) s /\
    configuration s st (fun i q => forall x y, cell s (x :: y) i -> Forall2 (fun a m => 0 <= a < m) (x :: y) (extents (grid_size dim sz)) ->
      q = if x <? k / 2 then p1 else p2).
Proof. exact C47_interface_lemma. Qed.
Print Assumptions C47_interface.
Example C47_interface_example : good_size 3 (SzTuple [4; 6; 5]) /\ grid_size 3 (SzTuple [4; 6; 5]) = 4 :: [6; 5] /\ extents [4; 6; 5] = [6; 4; 5].
Proof. split; [|split; reflexivity]. split; [auto|]. split; [reflexivity|repeat constructor; lia]. Qed.

(** C47. Given coordinates; the last one listed wins. *)
Theorem C47_coords : forall dim sz bg coordinates, good_size dim sz ->
  exists s, build_structure RA (Z.of_nat dim) sz = Ok s /\ square_grid (grid_size dim sz) s /\
    ((forall e, In e (listed coordinates) -> exists i, id_at RA s (snd e) = Ok (Some i)) ->
     exists st, setup_coords RA (Z.of_nat dim) sz bg coordinates = Ok (mkSim st s) /\
       configuration s st (fun i q => last_hit (fun c => id_at RA s c = Ok (Some i)) (listed coordinates) bg q)).
Proof. exact C47_coords_lemma. Qed.
Print Assumptions C47_coords.
Example C47_coords_example : listed [("a"%string, [[0%R]; [1%R]]); ("b"%string, [[1%R]])] = [("a"%string, [0%R]); ("a"%string, [1%R]); ("b"%string, [1%R])] /\
  last_hit (fun c => c = [1%R]) [("a"%string, [0%R]); ("a"%string, [1%R]); ("b"%string, [1%R])] "bg"%string "b"%string.
Proof. split; [reflexivity|]. left. exists [("a"%string, [0%R]); ("a"%string, [1%R])], [1%R], []. repeat split. intros e []. Qed.

(** C47. A coordinate without a site raises TypeError. *)
Theorem C47_coords_missing : forall dim sz bg coordinates s, good_size dim sz -> build_structure RA (Z.of_nat dim) sz = Ok s ->
  (forall e, In e (listed coordinates) -> exists o, id_at RA s (snd e) = Ok o) ->
  (exists e, In e (listed coordinates) /\ id_at RA s (snd e) = Ok None) ->
  setup_coords RA (Z.of_nat dim) sz bg coordinates = Err TypeError.
Proof. exact C47_coords_missing_lemma. Qed.
Print Assumptions C47_coords_missing.
Example C47_coords_missing_example : good_size 2 (SzInt 3) /\ exists s, build_structure RA (Z.of_nat 2) (SzInt 3) = Ok s /\ square_grid [3; 3] s /\ id_at RA s [(1/2)%R; 0%R] = Ok None.
Proof.
  assert (H : good_size 2 (SzInt 3)) by (split; [auto|split; [reflexivity|repeat constructor; lia]]). split; [exact H|].
  destruct (setup_grid 2 (SzInt 3) H) as (s & L & E & SG & _). exists s. split; [exact E|]. split; [exact SG|].
  destruct (C67_points_lemma [3; 3] s [(1/2)%R; 0%R] SG eq_refl) as (_ & K & _). apply (K 0%nat (1/2)%R eq_refl). intros a.
  assert (D : (a <= 0)%Z \/ (1 <= a)%Z) by lia. destruct D as [D|D]; apply IZR_le in D; unfold Rabs; destruct (Rcase_abs _); lra.
Qed.

(** C47. Noise: always phases of the list, and every assignment is possible. *)
Theorem C47_noise : forall dim sz phases, good_size dim sz -> phases <> [] ->
  exists s, square_grid (grid_size dim sz) s /\
    (forall rnd, exists st, setup_noise RA (Z.of_nat dim) sz phases rnd = Ok (mkSim st s) /\ configuration s st (fun _ q => In q phases)) /\
    (forall f, (forall i, In (f i) phases) -> exists rnd st, setup_noise RA (Z.of_nat dim) sz phases rnd = Ok (mkSim st s) /\
       configuration s st (fun i q => q = f i)).
Proof. exact C47_noise_lemma. Qed.
Print Assumptions C47_noise.
Example C47_noise_example : good_size 2 (SzTuple [4; 6]) /\ ["a"; "b"]%string <> [].
Proof. split; [|discriminate]. split; [auto|]. split; [reflexivity|repeat constructor; lia]. Qed.

(** C47. Noise without phases raises IndexError. *)
Theorem C47_noise_empty : forall dim sz rnd, good_size dim sz -> setup_noise RA (Z.of_nat dim) sz [] rnd = Err IndexError.
Proof. exact C47_noise_empty_lemma. Qed.
Print Assumptions C47_noise_empty.
Example C47_noise_empty_example : good_size 3 (SzInt 2).
Proof. split; [auto|]. split; [reflexivity|repeat constructor; lia]. Qed.

(** C48. A particle added to any state of any structure. *)
Theorem C48_add_particle : forall n vs per L s st center r p, lattice_on n vs per L -> built RA L s -> length center = n ->
  exists st', add_particle_to_state RA s st center r p = Ok st' /\
    get_general_state st' = get_general_state st /\
    (forall i x, get_site s i = Some x ->
       ((dist (s_loc x) center < r)%R -> forall k, site_entry st' (KInt i) k = if eqb k DISCRETE_OCCUPANCY then Some (VStr p) else entry_or_new st (KInt i) k) /\
       (~ (dist (s_loc x) center < r)%R -> get_site_state st' (KInt i) = get_site_state st (KInt i))) /\
    (forall k, (forall i x, get_site s i = Some x -> k <> KInt i) -> get_site_state st' k = get_site_state st k).
Proof. exact C48_lemma. Qed.
Print Assumptions C48_add_particle.
Example C48_add_example : lattice_on 1 line [false] open_line /\ built RA open_line two /\ get_site two 1 = Some (mkSite "B" [1%R] 1) /\ (dist [1%R] [(5/4)%R] < 1/2)%R.
Proof.
  split; [exact open_on|]. split; [exact two_built|]. split; [apply two_sites|]. unfold dist, vlength, vdot, vminus. simpl.
  replace ((1 - 5/4) * (1 - 5/4) + 0)%R with (Rsqr (1/4)) by (unfold Rsqr; lra). rewrite sqrt_Rsqr; lra.
Qed.

(** C48. One particle in the middle. *)
Theorem C48_particle : forall dim sz k t r bulk p, good_size dim sz -> grid_size dim sz = k :: t ->
  exists s st, setup_particle RA (Z.of_nat dim) sz r bulk p = Ok (mkSim st s) /\ square_grid (grid_size dim sz) s /\
    configuration s st (fun i q => forall x, get_site s i = Some x ->
      ((dist (s_loc x) (repeat (IZR k / 2)%R dim) < r)%R -> q = p) /\ (~ (dist (s_loc x) (repeat (IZR k / 2)%R dim) < r)%R -> q = bulk)).
Proof. exact C48_particle_lemma. Qed.
Print Assumptions C48_particle.
Example C48_particle_example : good_size 2 (SzInt 5) /\ grid_size 2 (SzInt 5) = 5 :: [5].
Proof. split; [|reflexivity]. split; [auto|]. split; [reflexivity|repeat constructor; lia]. Qed.

(** C48. Random particles: later ones overwrite earlier ones. *)
Theorem C48_random : forall dim sz r m bulk phases pos ph, good_size dim sz -> phases <> [] ->
  exists s st parts, setup_random_particles RA (Z.of_nat dim) sz r m bulk phases pos ph = Ok (mkSim st s) /\ square_grid (grid_size dim sz) s /\
    length parts = Z.to_nat m /\
    (forall j q c, nth_error parts j = Some (q, c) -> choice phases (ph j) = Ok q /\ c = map (fun a => IZR (pos j a)) (seq 0 dim)) /\
    configuration s st (fun i q => (q = bulk \/ In q phases) /\
      forall x, get_site s i = Some x -> last_hit (fun c => (dist (s_loc x) c < r)%R) parts bulk q).
Proof. exact C48_random_lemma. Qed.
Print Assumptions C48_random.
Example C48_example : choice ["a"; "b"; "c"]%string 4 = Ok "b"%string.
Proof. reflexivity. Qed.

(** C49. Nucleation terminates with RuntimeError or with the requested, separated nuclei. *)
Theorem C49_random_sites : forall dim sz n bg amts buffer rnd ords np_sum, good_size dim sz -> 0 <= n -> amounts_ok bg amts -> (forall t, legal (ords t)) -> summation RA np_sum ->
  exists r, (forall f1 f2, (n + 1) * Z.of_nat (length amts) <= Z.of_nat f1 -> 1000 * n + 2 <= Z.of_nat f2 ->
      setup_random_sites RA f1 f2 np_sum rnd ords (Z.of_nat dim) sz n bg amts buffer = Some r) /\
    (r = Err RuntimeError \/ exists s st, r = Ok (mkSim st s) /\ square_grid (grid_size dim sz) s /\
       configuration s st (fun _ q => q = bg \/ In q (dkeys amts)) /\
       Z.of_nat (length (without_phase s st bg)) = n /\
       forall b, buffer = Some b -> separated s dim b (without_phase s st bg)).
Proof. exact C49_lemma. Qed.
Print Assumptions C49_random_sites.
Example C49_example : amounts_ok "bg" [("a"%string, 1%R); ("b"%string, 2%R)] /\ legal plain_oracle /\ good_size 2 (SzInt 5).
Proof.
  split; [|split; [exact plain_legal|split; [auto|split; [reflexivity|repeat constructor; lia]]]].
  split; [repeat constructor; simpl; intuition discriminate|]. split; [simpl; intuition discriminate|]. split; [|unfold sum; simpl; lra].
  intros p a [E|[E|[]]]; injection E as _ <-; lra.
Qed.

(** C50, part: no phase exceeds its share by one or more. Missing: the lower bound, which is false (below). *)
Theorem C50_upper_partial : forall dim sz n bg amts buffer rnd ords np_sum s st, good_size dim sz -> 0 <= n -> amounts_ok bg amts -> (forall t, legal (ords t)) -> summation RA np_sum ->
  forall f1 f2, (n + 1) * Z.of_nat (length amts) <= Z.of_nat f1 -> 1000 * n + 2 <= Z.of_nat f2 ->
  setup_random_sites RA f1 f2 np_sum rnd ords (Z.of_nat dim) sz n bg amts buffer = Some (Ok (mkSim st s)) ->
  forall p a, In (p, a) amts -> (IZR (Z.of_nat (length (with_phase s st p))) < IZR n * a / sum (map snd amts) + 1)%R.
Proof. exact C50_lemma. Qed.
Print Assumptions C50_upper_partial.
Example C50_example : amounts_ok "bg" [("a"%string, 1%R); ("b"%string, 2%R)] /\ (3 + 1) * Z.of_nat (length [("a"%string, 1%R); ("b"%string, 2%R)]) <= Z.of_nat 8 /\
  (3 * 2 / sum (map snd [("a"%string, 1%R); ("b"%string, 2%R)]) + 1 = 3)%R.
Proof.
  split; [|split; [simpl; lia|unfold sum; simpl; field]].
  split; [repeat constructor; simpl; intuition discriminate|]. split; [simpl; intuition discriminate|]. split; [|unfold sum; simpl; lra].
  intros p a [E|[E|[]]]; injection E as _ <-; lra.
Qed.

(** C50 is false: a phase can be short of its share by any amount. *)
Theorem C50_ratios_refuted : forall m np_sum, 0 <= m -> summation RA np_sum ->
  exists sz n bg amts buffer rnd ords s st p a, good_size 2 sz /\ 0 <= n /\ amounts_ok bg amts /\ (forall t, legal (ords t)) /\ In (p, a) amts /\
    (forall f1 f2, (n + 1) * Z.of_nat (length amts) <= Z.of_nat f1 -> 1000 * n + 2 <= Z.of_nat f2 ->
      setup_random_sites RA f1 f2 np_sum rnd ords 2 sz n bg amts buffer = Some (Ok (mkSim st s))) /\
    (IZR (Z.of_nat (length (with_phase s st p))) = IZR n * a / sum (map snd amts) - IZR m)%R.
Proof. exact C50_refuted_lemma. Qed.
Print Assumptions C50_ratios_refuted.

(** C68, part: the setup ends for all arguments, unless nuclei are asked for and all ratios (at least one) are zero.  Missing: that case, in which it never ends (refuted below). *)
Theorem C68_terminates_partial : forall dim sz n bg amts buffer rnd ords np_sum, uniq amts -> summation RA np_sum ->
  n <= 0 \/ amts = [] \/ (exists p a, In (p, a) amts /\ a <> 0%R) ->
  exists r, forall f1 f2, (Z.max n 0 + 1) * Z.of_nat (length amts) + 1 <= Z.of_nat f1 -> 1000 * Z.max n 0 + 2 <= Z.of_nat f2 ->
    setup_random_sites RA f1 f2 np_sum rnd ords dim sz n bg amts buffer = Some r.
Proof. exact C68_terminates_lemma. Qed.
Print Assumptions C68_terminates_partial.
Example C68_terminates_example : uniq [("a"%string, 1%R); ("b"%string, (-1)%R)] /\ exists p a, In (p, a) [("a"%string, 1%R); ("b"%string, (-1)%R)] /\ a <> 0%R.
Proof. split; [repeat constructor; simpl; intuition discriminate|]. exists "a"%string, 1%R. split; [simpl; auto|lra]. Qed.

(** C68. Ratios of any sign that are not all zero give the requested number of nuclei, or RuntimeError. Only phases whose ratio has the sign of the sum are planted, each less than its share plus one; if the ratios add up to zero, the positive ones. *)
Theorem C68_signed : forall dim sz n bg amts buffer rnd ords np_sum, good_size dim sz -> 0 <= n -> uniq amts -> ~ In bg (dkeys amts) ->
  (exists p a, In (p, a) amts /\ a <> 0%R) -> (forall t, legal (ords t)) -> summation RA np_sum ->
  exists r, (forall f1 f2, (n + 1) * Z.of_nat (length amts) <= Z.of_nat f1 -> 1000 * n + 2 <= Z.of_nat f2 ->
      setup_random_sites RA f1 f2 np_sum rnd ords (Z.of_nat dim) sz n bg amts buffer = Some r) /\
    (r = Err RuntimeError \/ exists s st, r = Ok (mkSim st s) /\ square_grid (grid_size dim sz) s /\
       configuration s st (fun _ q => q = bg \/ In q (dkeys amts)) /\
       Z.of_nat (length (without_phase s st bg)) = n /\
       (forall b, buffer = Some b -> separated s dim b (without_phase s st bg)) /\
       forall p a i, In (p, a) amts -> In i (with_phase s st p) ->
         let total := sum (map snd amts) in
         (total = 0 /\ 0 < a \/ 0 < a / total /\ IZR (Z.of_nat (length (with_phase s st p))) < IZR n * a / total + 1)%R).
Proof. exact C68_signed_lemma. Qed.
Print Assumptions C68_signed.
Example C68_signed_example : uniq [("a"%string, 3%R); ("b"%string, (-1)%R)] /\ ~ In "bg"%string (dkeys [("a"%string, 3%R); ("b"%string, (-1)%R)]) /\
  sum (map snd [("a"%string, 3%R); ("b"%string, (-1)%R)]) = 2%R.
Proof. split; [repeat constructor; simpl; intuition discriminate|]. split; [simpl; intuition discriminate|unfold sum; simpl; lra]. Qed.

(** C68. Without any phase the setup raises StopIteration. *)
Theorem C68_empty : forall dim sz n bg buffer rnd ords np_sum, good_size dim sz -> 0 < n ->
  forall f1 f2, (0 < f1)%nat -> setup_random_sites RA f1 f2 np_sum rnd ords (Z.of_nat dim) sz n bg [] buffer = Some (Err StopIteration).
Proof. exact C68_empty_lemma. Qed.
Print Assumptions C68_empty.
Example C68_empty_example : good_size 2 (SzInt 3).
Proof. split; [left; reflexivity|]. split; [reflexivity|]. repeat constructor. Qed.

(** C68 is false: with all ratios zero the selection loop never ends. *)
Theorem C68_termination_refuted : forall dim sz n bg amts buffer rnd ords np_sum, good_size dim sz -> 0 < n -> uniq amts -> amts <> [] ->
  (forall p a, In (p, a) amts -> a = 0%R) -> summation RA np_sum ->
  forall f1 f2, setup_random_sites RA f1 f2 np_sum rnd ords (Z.of_nat dim) sz n bg amts buffer = None.
Proof. exact C68_refuted_lemma. Qed.
Print Assumptions C68_termination_refuted.
Example C68_example : uniq [("a"%string, 0%R); ("b"%string, 0%R)] /\ forall p a, In (p, a) [("a"%string, 0%R); ("b"%string, 0%R)] -> a = 0%R.
Proof.
  split; [repeat constructor; simpl; intuition discriminate|]. intros p a [E|[E|[]]]; injection E as _ <-; reflexivity.
Qed.
