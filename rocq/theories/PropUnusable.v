(** Properties C133 and C134: misbehaving controllers and builders, unusable dimensions and sizes. *)
From Coq Require Import Reals Lra.
From Verif Require Import Prelude Dict Val Arith RealArith LatticeModel StructModel StateModel ResultModel RunnerModel NbModel GridModel SimModel SetupModel SpecGeom SpecNb SpecGrid SpecState SpecResult SpecRunner SpecMalformed SpecSetup RunRaise SetupRaise AnalyzerDemo.
Local Open Scope Z_scope.

(** C133. Asynchronous runs. *)
Theorem C133_async : forall C (ctl : controller C) c0 init n,
  (forall e, c_pre_run ctl c0 init = Err e -> run_async ctl c0 init n = Err e) /\
  (forall c1 e, c_pre_run ctl c0 init = Ok c1 -> c_random_site ctl c1 init = Err e -> run_async ctl c0 init n = Err e) /\
  (forall c1 v c2 k r, c_pre_run ctl c0 init = Ok c1 -> c_random_site ctl c1 init = Ok (v, c2) -> offers v (k :: r) -> 1 <= n ->
     (forall e, c_update ctl c2 k init = Err e -> run_async ctl c0 init n = Err e) /\
     (forall l c3, c_update ctl c2 k init = Ok (VTuple l, c3) -> length l <> 2%nat -> run_async ctl c0 init n = Err ValueError) /\
     (forall resp c3 ups nx, c_update ctl c2 k init = Ok (resp, c3) -> answer_of resp ups nx ->
        (no_entries ups -> run_async ctl c0 init n = Err TypeError) /\
        (forall S G, means k ups S G -> upd_wf S G -> no_entries nx -> run_async ctl c0 init n = Err TypeError))).
Proof. exact C133_async_lemma. Qed.
Print Assumptions C133_async.
Example C133_async_example : let ctl : controller unit := mkController (fun c _ => Ok c) (fun c _ => Ok (VList [VInt 1; VInt 0], c)) (fun c k _ => Ok (VTuple [VDict [(KStr "x", VInt 1)]; VInt 3], c)) in
  offers (VList [VInt 1; VInt 0]) [KInt 1; KInt 0] /\ answer_of (VTuple [VDict [(KStr "x", VInt 1)]; VInt 3]) (VDict [(KStr "x", VInt 1)]) (VInt 3) /\
  means (KInt 1) (VDict [(KStr "x", VInt 1)]) [(KInt 1, VDict [(KStr "x", VInt 1)])] [] /\ upd_wf [(KInt 1, VDict [(KStr "x", VInt 1)])] [] /\
  run_async ctl tt (duo "a" "b") 4 = Err TypeError.
Proof.
  cbv zeta. split; [constructor; repeat constructor; now left|]. split; [now left|]. split.
  { apply means_site; [split; reflexivity|]. intros [_ H]. destruct (H (KStr "x")) as [z E]; [now left|discriminate]. }
  split; [|reflexivity]. split; [repeat constructor; intros []|]. split; [constructor|]. intros i v [E|[]]. injection E as <- <-. eexists. split; [reflexivity|]. repeat constructor. intros [].
Qed.

(** C133. Serial synchronous runs. *)
Theorem C133_sync : forall C (ctl : controller C) c0 init n,
  (forall e, c_pre_run ctl c0 init = Err e -> run_sync ctl c0 init n = Err e) /\
  (forall c1, c_pre_run ctl c0 init = Ok c1 -> 1 <= n ->
     ((forall c k, In k (site_ids init) -> exists c', c_update ctl c k init = Ok (VNone, c')) -> run_sync ctl c0 init n = Err TypeError) /\
     (forall pre k post, site_ids init = pre ++ k :: post ->
        (forall c k', In k' pre -> exists v c' S G, c_update ctl c k' init = Ok (v, c') /\ means k' v S G) ->
        (forall e, (forall c, c_update ctl c k init = Err e) -> run_sync ctl c0 init n = Err e) /\
        ((forall c, exists v c', c_update ctl c k init = Ok (v, c') /\ no_entries v /\ v <> VNone) -> run_sync ctl c0 init n = Err TypeError))).
Proof. exact C133_sync_lemma. Qed.
Print Assumptions C133_sync.
Example C133_sync_example : let ctl : controller unit := mkController (fun c _ => Ok c) (fun c _ => Ok (VInt 0, c)) (fun c k _ => if eqb k (KInt 0) then Ok (VNone, c) else Ok (VFloat 1 2, c)) in
  site_ids (duo "a" "b") = [KInt 0] ++ KInt 1 :: [] /\ means (KInt 0) VNone [] [] /\ run_sync ctl tt (duo "a" "b") 2 = Err TypeError /\
  run_sync (mkController (fun c _ => Ok c) (fun c _ => Ok (VInt 0, c)) (fun c k _ => Ok (VNone, c))) tt (duo "a" "b") 2 = Err TypeError.
Proof. cbv zeta. split; [reflexivity|]. split; [constructor|]. split; reflexivity. Qed.

(** C133. Builders and neighbourhoods. *)
Theorem C133_nbhood : forall F (A : arith F) (s : structure F) c o i,
  (forall bs, nb_get A (BStochastic bs) s (Some c) = Err TypeError) /\
  (forall bs, nb_get A (BSiteClass bs) s (Some c) = Err TypeError) /\
  (forall pre c' bs bs' post, (forall d b, In (d, b) pre -> exists n, nb_get A b s (Some d) = Ok n) ->
     nb_get A (BSiteClass (pre ++ (c', BStochastic bs) :: post)) s None = Err TypeError /\ nb_get A (BSiteClass (pre ++ (c', BSiteClass bs') :: post)) s None = Err TypeError) /\
  (nb_get A (BStochastic []) s None = Ok (NStochastic []) /\ neighbors_of (F := F) o (NStochastic []) i = Err IndexError /\ weighted_neighbors_of (F := F) o (NStochastic []) i = Err IndexError).
Proof. exact C133_nbhood_lemma. Qed.
Print Assumptions C133_nbhood.
Example C133_nbhood_example : forall F (A : arith F) (s : structure F) b n, nb_get A b s (Some "x"%string) = Ok n ->
  nb_get A (BSiteClass [("x"%string, b); ("y"%string, BStochastic [b])]) s None = Err TypeError.
Proof.
  intros F A s b n E. destruct (C133_nbhood F A s "x"%string (mkOracle (fun l => l) (fun _ => 0%nat)) 0) as (_ & _ & H & _).
  apply (H [("x"%string, b)] "y"%string [b] [] []). intros d b' [K|[]]. injection K as <- <-. eauto.
Qed.

(** C134. Other dimensions and tuples of the wrong length. *)
Theorem C134_dimension : forall F (A : arith F) dim sz p q r m ps pos ph cs rnd,
  (dim <> 2 -> dim <> 3 ->
     build_structure A dim sz = Err AttributeError /\ setup_interface A dim sz p q = Err AttributeError /\ setup_particle A dim sz r p q = Err AttributeError /\
     setup_random_particles A dim sz r m p ps pos ph = Err AttributeError /\ setup_coords A dim sz p cs = Err AttributeError /\ setup_noise A dim sz ps rnd = Err AttributeError /\
     forall f1 f2 np_sum ords n amts buffer, setup_random_sites A f1 f2 np_sum rnd ords dim sz n p amts buffer = Some (Err AttributeError)) /\
  (forall l, dim = 2 \/ dim = 3 -> sz = SzTuple l -> Z.of_nat (length l) <> dim ->
     build_structure A dim sz = Err ValueError /\ setup_interface A dim sz p q = Err ValueError /\ setup_particle A dim sz r p q = Err ValueError /\
     setup_random_particles A dim sz r m p ps pos ph = Err ValueError /\ setup_coords A dim sz p cs = Err ValueError /\ setup_noise A dim sz ps rnd = Err ValueError /\
     forall f1 f2 np_sum ords n amts buffer, setup_random_sites A f1 f2 np_sum rnd ords dim sz n p amts buffer = Some (Err ValueError)).
Proof. exact C134_dimension_lemma. Qed.
Print Assumptions C134_dimension.
Example C134_dimension_example : setup_noise RA 4 (SzInt 3) ["a"%string] (fun _ => 0%nat) = Err AttributeError /\ setup_noise RA 3 (SzTuple [3; 3]) ["a"%string] (fun _ => 0%nat) = Err ValueError.
Proof.
  split; [apply (proj1 (C134_dimension R RA 4 (SzInt 3) "" "" 0%R 0 ["a"%string] (fun _ _ => 0) (fun _ => 0%nat) [] (fun _ => 0%nat))); lia|].
  apply (proj2 (C134_dimension R RA 3 (SzTuple [3; 3]) "" "" 0%R 0 ["a"%string] (fun _ _ => 0) (fun _ => 0%nat) [] (fun _ => 0%nat)) [3; 3]); [lia|reflexivity|cbn; lia].
Qed.

(** C134. Sizes with an entry of zero or less. *)
Theorem C134_empty : forall F (A : arith F) dim sz p q r ps cs rnd, dim = 2%nat \/ dim = 3%nat -> length (grid_size dim sz) = dim -> Exists (fun k => k <= 0) (grid_size dim sz) ->
  exists s, build_structure A (Z.of_nat dim) sz = Ok s /\ sites s None = [] /\
    setup_solid_phase s p = s_empty /\ setup_interface A (Z.of_nat dim) sz p q = Ok (mkSim s_empty s) /\ setup_particle A (Z.of_nat dim) sz r p q = Ok (mkSim s_empty s) /\
    setup_noise A (Z.of_nat dim) sz ps rnd = Ok (mkSim s_empty s) /\ (listed cs = [] -> setup_coords A (Z.of_nat dim) sz p cs = Ok (mkSim s_empty s)).
Proof. exact C134_empty_lemma. Qed.
Print Assumptions C134_empty.
Example C134_empty_example : length (grid_size 3 (SzTuple [4; -2; 3])) = 3%nat /\ Exists (fun k => k <= 0) (grid_size 3 (SzTuple [4; -2; 3])).
Proof. split; [reflexivity|]. cbn. right. left. lia. Qed.

(** C134. Random particles there. *)
Theorem C134_particles : forall dim sz k t r bulk ps pos ph m, dim = 2%nat \/ dim = 3%nat -> grid_size dim sz = k :: t -> length (k :: t) = dim ->
  Exists (fun k => k <= 0) (k :: t) -> exists s, build_structure RA (Z.of_nat dim) sz = Ok s /\
    (m <= 0 -> setup_random_particles RA (Z.of_nat dim) sz r m bulk ps pos ph = Ok (mkSim s_empty s)) /\
    (1 <= m -> k = 0 -> setup_random_particles RA (Z.of_nat dim) sz r m bulk ps pos ph = Err ValueError) /\
    (1 <= m -> k <> 0 -> ps = [] -> setup_random_particles RA (Z.of_nat dim) sz r m bulk ps pos ph = Err IndexError) /\
    (k <> 0 -> ps <> [] -> setup_random_particles RA (Z.of_nat dim) sz r m bulk ps pos ph = Ok (mkSim s_empty s)).
Proof. exact C134_particles_lemma. Qed.
Print Assumptions C134_particles.
Example C134_particles_example : grid_size 2 (SzTuple [3; 0]) = [3; 0] /\ Exists (fun k => k <= 0) [3; 0] /\ 3 <> 0.
Proof. split; [reflexivity|]. split; [right; left; lia|lia]. Qed.

(** C134. Nucleation there. *)
Theorem C134_nuclei : forall dim sz n bg amts np_sum rnd ords f1 f2 buffer, dim = 2%nat \/ dim = 3%nat -> length (grid_size dim sz) = dim -> Exists (fun k => k <= 0) (grid_size dim sz) ->
  0 <= n -> amounts_ok bg amts -> summation RA np_sum -> (n + 1) * Z.of_nat (length amts) <= Z.of_nat f1 -> 1000 * n + 2 <= Z.of_nat f2 ->
  exists s, build_structure RA (Z.of_nat dim) sz = Ok s /\
    setup_random_sites RA f1 f2 np_sum rnd ords (Z.of_nat dim) sz n bg amts buffer = Some (if n =? 0 then Ok (mkSim s_empty s) else Err IndexError).
Proof. exact C134_nuclei_lemma. Qed.
Print Assumptions C134_nuclei.
Example C134_nuclei_example : amounts_ok "bg" [("a"%string, 1%R); ("b"%string, 2%R)] /\ Exists (fun k => k <= 0) (grid_size 2 (SzInt 0)).
Proof.
  split; [|left; lia]. split; [repeat constructor; cbn; intuition discriminate|]. split; [cbn; intuition discriminate|]. split; [|cbn; lra].
  intros p a [E|[E|[]]]; injection E as <- <-; lra.
Qed.
