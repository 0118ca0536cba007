(** Grid setups with unusable dimensions or sizes (C134). *)
From Coq Require Import Reals Lra.
From Verif Require Import Prelude Dict Val Arith RVec RealArith LatticeModel StructModel StateModel ResultModel NbModel GridModel SimModel SetupModel SpecGeom SpecNb SpecGrid SpecState SpecSetup LatticeFacts SetupFacts NucFacts.
Local Open Scope Z_scope.

(** The dimensions of the setup and a size without a cell. *)
Lemma product_none {X} (l : list (list X)) : In [] l -> product l = [].
Proof.
  induction l as [|x l IH]; intros H; [destruct H|]. cbn [product]. destruct H as [->|H]; [reflexivity|]. rewrite (IH H).
  induction x as [|a x IHx]; [reflexivity|]. cbn. exact IHx.
Qed.
Lemma zrange_none k : k <= 0 -> zrange 0 k = [].
Proof. intros H. unfold zrange. now replace (Z.to_nat (k - 0)) with 0%nat by lia. Qed.

Lemma built_none {F} (A : arith F) dim sz : dim = 2%nat \/ dim = 3%nat -> length (grid_size dim sz) = dim -> Exists (fun k => k <= 0) (grid_size dim sz) ->
  exists s k t, grid_size dim sz = k :: t /\ build_structure A (Z.of_nat dim) sz = Ok s /\ sites s None = [] /\ p_dim s = dim /\ first_length A s = Ok (norm A (map (fun x => a_mul A x (a_ofZ A k)) (map (a_ofZ A) (if Nat.eqb dim 2 then [0; 1] else [0; 1; 0])))).
Proof.
  intros D L EX.
  assert (GS : forall b, l_dim (b_lattice b) = dim -> build A b sz = build_from A (b_lattice b) (grid_size dim sz) (b_motif b) (b_frac b)).
  { intros b Eb. destruct sz as [l|k]; cbn [build grid_size] in *; rewrite Eb; [rewrite L, Nat.eqb_refl|]; reflexivity. }
  assert (PB : forall d, get_points_in_box (repeat 0 (length (grid_size dim sz))) (grid_size dim sz) = [] -> d = dim -> get_points_in_box (repeat 0 d) (grid_size dim sz) = []) by (intros d H ->; now rewrite <- L at 1).
  assert (PN : get_points_in_box (repeat 0 (length (grid_size dim sz))) (grid_size dim sz) = []).
  { unfold get_points_in_box. apply product_none. clear - EX. induction EX as [k l H|k l H IH]; cbn [length repeat zipwith]; [left; now apply zrange_none|right; exact IH]. }
  specialize (fun d => PB d PN).
  unfold build_structure, setup_builder.
  destruct D as [->| ->].
  - change (Z.of_nat 2 =? 2) with true. cbv iota. unfold SimpleSquare2DStructureBuilder, SquareGridLattice2D. cbn -[build grid_size]. rewrite GS by reflexivity. unfold build_from.
    destruct (grid_size 2 sz) as [|k [|k1 [|]]]; try discriminate L. cbn -[get_points_in_box norm]. match goal with |- context [get_points_in_box ?l _] => change l with (repeat 0 (length l)) end. cbn [length]. rewrite PB by reflexivity. exists (struct_init (mkLattice [map (fun x => a_mul A x (a_ofZ A k)) [a_ofZ A 0; a_ofZ A 1]; map (fun x => a_mul A x (a_ofZ A k1)) [a_ofZ A 1; a_ofZ A 0]] [true; true] [map (fun x => a_mul A x (a_ofZ A k)) [a_ofZ A 0; a_ofZ A 1]; map (fun x => a_mul A x (a_ofZ A k1)) [a_ofZ A 1; a_ofZ A 0]] 2)), k, [k1].
    repeat split; reflexivity.
  - change (Z.of_nat 3 =? 2) with false. change (Z.of_nat 3 =? 3) with true. cbv iota. unfold SimpleSquare3DStructureBuilder, SquareGridLattice3D. cbn -[build grid_size]. rewrite GS by reflexivity. unfold build_from.
    destruct (grid_size 3 sz) as [|k [|k1 [|k2 [|]]]]; try discriminate L. cbn -[get_points_in_box norm]. match goal with |- context [get_points_in_box ?l _] => change l with (repeat 0 (length l)) end. cbn [length]. rewrite PB by reflexivity. eexists. exists k, [k1; k2].
    split; [reflexivity|]. split; [reflexivity|]. repeat split; reflexivity.
Qed.

Lemma C134_dimension_lemma : forall F (A : arith F) dim sz p q r m ps pos ph cs rnd,
  (dim <> 2 -> dim <> 3 ->
     build_structure A dim sz = Err AttributeError /\ setup_interface A dim sz p q = Err AttributeError /\ setup_particle A dim sz r p q = Err AttributeError /\
     setup_random_particles A dim sz r m p ps pos ph = Err AttributeError /\ setup_coords A dim sz p cs = Err AttributeError /\ setup_noise A dim sz ps rnd = Err AttributeError /\
     forall f1 f2 np_sum ords n amts buffer, setup_random_sites A f1 f2 np_sum rnd ords dim sz n p amts buffer = Some (Err AttributeError)) /\
  (forall l, dim = 2 \/ dim = 3 -> sz = SzTuple l -> Z.of_nat (length l) <> dim ->
     build_structure A dim sz = Err ValueError /\ setup_interface A dim sz p q = Err ValueError /\ setup_particle A dim sz r p q = Err ValueError /\
     setup_random_particles A dim sz r m p ps pos ph = Err ValueError /\ setup_coords A dim sz p cs = Err ValueError /\ setup_noise A dim sz ps rnd = Err ValueError /\
     forall f1 f2 np_sum ords n amts buffer, setup_random_sites A f1 f2 np_sum rnd ords dim sz n p amts buffer = Some (Err ValueError)).
Proof.
  intros F A dim sz p q r m ps pos ph cs rnd.
  assert (K : forall e, build_structure A dim sz = Err e ->
     build_structure A dim sz = Err e /\ setup_interface A dim sz p q = Err e /\ setup_particle A dim sz r p q = Err e /\
     setup_random_particles A dim sz r m p ps pos ph = Err e /\ setup_coords A dim sz p cs = Err e /\ setup_noise A dim sz ps rnd = Err e /\
     forall f1 f2 np_sum ords n amts buffer, setup_random_sites A f1 f2 np_sum rnd ords dim sz n p amts buffer = Some (Err e)).
  { intros e E. unfold setup_interface, setup_particle, setup_random_particles, setup_coords, setup_noise, setup_random_sites. rewrite E. repeat split. }
  split.
  - intros N2 N3. apply K. unfold build_structure, setup_builder. destruct (Z.eqb_spec dim 2); [contradiction|]. destruct (Z.eqb_spec dim 3); [contradiction|]. reflexivity.
  - intros l D -> NL. apply K. unfold build_structure, setup_builder. destruct D as [->| ->]; cbn [Z.eqb Pos.eqb]; unfold SimpleSquare2DStructureBuilder, SimpleSquare3DStructureBuilder, SquareGridLattice2D, SquareGridLattice3D; cbn -[build].
    + cbn [build l_dim b_lattice]. destruct (Nat.eqb_spec (length l) 2); [lia|reflexivity].
    + cbn [build l_dim b_lattice]. destruct (Nat.eqb_spec (length l) 3); [lia|reflexivity].
Qed.

Lemma C134_empty_lemma : forall F (A : arith F) dim sz p q r ps cs rnd, dim = 2%nat \/ dim = 3%nat -> length (grid_size dim sz) = dim -> Exists (fun k => k <= 0) (grid_size dim sz) ->
  exists s, build_structure A (Z.of_nat dim) sz = Ok s /\ sites s None = [] /\
    setup_solid_phase s p = s_empty /\ setup_interface A (Z.of_nat dim) sz p q = Ok (mkSim s_empty s) /\ setup_particle A (Z.of_nat dim) sz r p q = Ok (mkSim s_empty s) /\
    setup_noise A (Z.of_nat dim) sz ps rnd = Ok (mkSim s_empty s) /\ (listed cs = [] -> setup_coords A (Z.of_nat dim) sz p cs = Ok (mkSim s_empty s)).
Proof.
  intros F A dim sz p q r ps cs rnd D L EX. destruct (built_none A dim sz D L EX) as (s & k & t & _ & EB & ES & DI & FL). exists s.
  assert (SE : forall v, build_blank_state s v = s_empty) by (intros v; unfold build_blank_state; rewrite ES; reflexivity).
  split; [exact EB|]. split; [exact ES|]. split; [apply SE|]. split; [unfold setup_interface; rewrite EB; cbn [bind]; rewrite FL, SE, ES; reflexivity|]. split; [|split].
  - unfold setup_particle. rewrite EB. cbn [bind]. unfold setup_solid_phase, add_particle_to_state. rewrite SE, ES, FL. destruct D as [->| ->]; rewrite DI; reflexivity.
  - unfold setup_noise. rewrite EB. cbn [bind]. rewrite SE, ES. reflexivity.
  - intros EL. unfold setup_coords. rewrite EB. cbn [bind]. unfold setup_solid_phase. rewrite SE. revert EL. unfold listed. clear.
    assert (K : forall (cs : dict string (list (list F))) st, flat_map (fun pc => map (fun c => (fst pc, c)) (snd pc)) cs = [] ->
      foldM (fun st pc => foldM (fun st coords => do x <- site_at A s coords; match x with None => Err TypeError | Some x => Ok (set_site_state st (KInt (s_id x)) (occ (VStr (fst pc)))) end) (snd pc) st) cs st = Ok st).
    { clear cs. induction cs as [|[p' l] cs IH]; intros st EL; [reflexivity|]. cbn [flat_map fst snd] in EL. apply app_eq_nil in EL as [E1 E2]. destruct l; [|discriminate]. cbn [foldM snd bind]. apply IH, E2. }
    intros EL. rewrite K by exact EL. reflexivity.
Qed.

Lemma C134_particles_lemma : forall dim sz k t r bulk ps pos ph m, dim = 2%nat \/ dim = 3%nat -> grid_size dim sz = k :: t -> length (k :: t) = dim ->
  Exists (fun k => k <= 0) (k :: t) -> exists s, build_structure RA (Z.of_nat dim) sz = Ok s /\
    (m <= 0 -> setup_random_particles RA (Z.of_nat dim) sz r m bulk ps pos ph = Ok (mkSim s_empty s)) /\
    (1 <= m -> k = 0 -> setup_random_particles RA (Z.of_nat dim) sz r m bulk ps pos ph = Err ValueError) /\
    (1 <= m -> k <> 0 -> ps = [] -> setup_random_particles RA (Z.of_nat dim) sz r m bulk ps pos ph = Err IndexError) /\
    (k <> 0 -> ps <> [] -> setup_random_particles RA (Z.of_nat dim) sz r m bulk ps pos ph = Ok (mkSim s_empty s)).
Proof.
  intros dim sz k t r bulk ps pos ph m D GS L EX. rewrite <- GS in L, EX. destruct (built_none RA dim sz D L EX) as (s & k' & t' & GS' & EB & ES & DI & FL). rewrite GS' in GS. injection GS as -> ->. exists s. split; [exact EB|].
  assert (SE : setup_solid_phase s bulk = s_empty) by (unfold setup_solid_phase, build_blank_state; rewrite ES; reflexivity).
  assert (NM : norm RA (map (fun x => a_mul RA x (a_ofZ RA k)) (map (a_ofZ RA) (if Nat.eqb dim 2 then [0; 1] else [0; 1; 0]))) = IZR (Z.abs k)).
  { assert (Q : sqrt (IZR k * IZR k) = IZR (Z.abs k)) by (rewrite <- mult_IZR, abs_IZR, mult_IZR; apply sqrt_Rsqr_abs).
    rewrite <- Q. destruct D as [->| ->]; cbn; f_equal; ring. }
  rewrite NM in FL. unfold setup_random_particles. rewrite EB. cbn [bind]. rewrite SE, DI. unfold add_particle_to_state. rewrite ES, FL. cbn [bind foldM].
  assert (LT : a_ltb RA (IZR (Z.abs k)) (a_ofZ RA 1) = (k =? 0)).
  { cbn. destruct (Rlt_dec (IZR (Z.abs k)) 1) as [H|H]; [apply lt_IZR in H|]; destruct (Z.eqb_spec k 0); try lia; try reflexivity. subst. exfalso. apply H. cbn. lra. }
  rewrite LT.
  assert (RC : forall i, mapM (fun a => if k =? 0 then Err ValueError else Ok (a_ofZ RA (pos i a))) (seq 0 dim) = if k =? 0 then Err ValueError else Ok (map (fun a => a_ofZ RA (pos i a)) (seq 0 dim))).
  { intros i. destruct (k =? 0); [destruct D as [->| ->]; reflexivity|]. destruct D as [->| ->]; reflexivity. }
  split; [intros H; replace (Z.to_nat m) with 0%nat by lia; reflexivity|]. split; [|split].
  - intros H ->. destruct (Z.to_nat m) as [|n] eqn:EM; [lia|]. cbn [seq foldM]. rewrite RC. reflexivity.
  - intros H NK ->. destruct (Z.to_nat m) as [|n] eqn:EM; [lia|]. cbn [seq foldM]. rewrite RC. destruct (Z.eqb_spec k 0); [contradiction|]. cbn [bind].
    assert (choice (@nil string) (ph 0%nat) = Err IndexError) as -> by (unfold choice; destruct (ph 0%nat mod length (@nil string))%nat; reflexivity). reflexivity.
  - intros NK NP. assert (CH : forall j, exists x, choice ps j = Ok x).
    { intros j. unfold choice. destruct (nth_error ps (j mod length ps)) eqn:E; [eauto|]. apply nth_error_None in E. destruct ps; [congruence|]. pose proof (Nat.mod_upper_bound j (length (s0 :: ps)) ltac:(discriminate)). lia. }
    generalize (seq 0 (Z.to_nat m)). intros l. destruct (Z.eqb_spec k 0) as [|_]; [contradiction|].
    assert (K : forall l (st : sstate), foldM (fun st i => do c <- mapM (fun a => Ok (a_ofZ RA (pos i a))) (seq 0 dim); do ph0 <- choice ps (ph i); Ok st) l st = Ok st).
    { clear l. induction l as [|i l IH]; intros st; [reflexivity|]. cbn [foldM]. destruct (CH (ph i)) as [x ->]. assert (exists c, mapM (fun a => Ok (a_ofZ RA (pos i a))) (seq 0 dim) = Ok c) as [c ->] by (destruct D as [->| ->]; eexists; reflexivity). cbn [bind]. apply IH. }
    rewrite K. reflexivity.
Qed.

Lemma find_any {F} (A : arith F) D : forall d, exists d', foldM (fun d loc => do x <- euclidean_distance A (zeros A (length loc)) loc; Ok (@dset _ _ (Eqb_vec_nb A) loc x d)) D d = Ok d'.
Proof.
  induction D as [|v D IH]; intros d; [eexists; reflexivity|]. cbn [foldM]. unfold euclidean_distance, distance, bcast at 1.
  unfold zeros. rewrite repeat_length, Nat.eqb_refl. cbn [bind]. apply IH.
Qed.
Lemma motif_any {F} (A : arith F) D : exists d, motif_builder A D = Ok (BMotif D d).
Proof. unfold motif_builder, find_distances. destruct (find_any A D []) as [d ->]. cbn [bind]. eauto. Qed.

Lemma C134_nuclei_lemma : forall dim sz n bg amts np_sum rnd ords f1 f2 buffer, dim = 2%nat \/ dim = 3%nat -> length (grid_size dim sz) = dim -> Exists (fun k => k <= 0) (grid_size dim sz) ->
  0 <= n -> amounts_ok bg amts -> summation RA np_sum -> (n + 1) * Z.of_nat (length amts) <= Z.of_nat f1 -> 1000 * n + 2 <= Z.of_nat f2 ->
  exists s, build_structure RA (Z.of_nat dim) sz = Ok s /\
    setup_random_sites RA f1 f2 np_sum rnd ords (Z.of_nat dim) sz n bg amts buffer = Some (if n =? 0 then Ok (mkSim s_empty s) else Err IndexError).
Proof.
  intros dim sz n bg amts np_sum rnd ords f1 f2 buffer D L EX Hn AO SU F1 F2. destruct (built_none RA dim sz D L EX) as (s & k & t & _ & EB & ES & _ & _). exists s. split; [exact EB|].
  destruct AO as (A1 & A2 & A3 & A4). destruct (identities_start n amts np_sum A1 A3 A4 Hn SU f1 F1) as (ids & EI & _).
  assert (NB : exists g, match buffer with None => Ok None | Some r => do b <- MooreNbHoodBuilder RA r (p_dim s); do N <- nb_get RA b s None; Ok (Some N) end = Ok g).
  { destruct buffer as [r|]; [|eauto]. destruct (motif_any RA (map (nums RA) (get_points_in_cube (- r) (r + 1) (p_dim s)))) as [d E]. unfold MooreNbHoodBuilder. rewrite E. cbn [bind nb_get]. unfold get_graph. rewrite ES. cbn. eauto. }
  destruct NB as [g NB].
  unfold setup_random_sites. rewrite EB. cbn [bind]. rewrite NB. cbn [bind]. rewrite EI, ES. destruct f2 as [|f2]; [lia|]. cbn [plant].
  destruct (Z.ltb_spec 0 n), (Z.eqb_spec n 0); try lia.
  - replace (0 >? 1000 * n) with false by lia.
    assert (choice (@nil (site R)) (rnd (Z.to_nat 0)) = Err IndexError) as -> by (unfold choice; destruct (rnd (Z.to_nat 0) mod length (@nil (site R)))%nat; reflexivity). reflexivity.
  - unfold setup_solid_phase, build_blank_state. rewrite ES. reflexivity.
Qed.
