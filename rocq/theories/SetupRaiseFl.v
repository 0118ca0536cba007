(** Random particles on empty grids in binary64 (C134). *)
From Coq Require Import Reals Lra.
From Flocq Require Import Core BinarySingleNaN.
From Verif Require Import Prelude Dict Val Arith RVec RealArith LatticeModel StructModel StateModel ResultModel RunnerModel NbModel GridModel SimModel SetupModel SpecGeom SpecNb SpecGrid SpecState SpecSetup LatticeFacts SetupFacts NucFacts
  FloatArith SpecFloat64 SpecNuc FloatFacts FloatGrid FloatMore FloatNuc FloatSetup FloatDraw SetupRaise.
Local Open Scope Z_scope.

Lemma C134_float_lemma : forall dim sz k t r bulk ps pos ph m, dim = 2%nat \/ dim = 3%nat -> grid_size dim sz = k :: t -> length (k :: t) = dim ->
  Exists (fun k => k <= 0) (k :: t) -> Z.abs k <= 2 ^ 20 -> exists s, build_structure FA (Z.of_nat dim) sz = Ok s /\
    (m <= 0 -> setup_random_particles FA (Z.of_nat dim) sz r m bulk ps pos ph = Ok (mkSim s_empty s)) /\
    (1 <= m -> k = 0 -> setup_random_particles FA (Z.of_nat dim) sz r m bulk ps pos ph = Err ValueError) /\
    (1 <= m -> k <> 0 -> ps = [] -> setup_random_particles FA (Z.of_nat dim) sz r m bulk ps pos ph = Err IndexError) /\
    (k <> 0 -> ps <> [] -> setup_random_particles FA (Z.of_nat dim) sz r m bulk ps pos ph = Ok (mkSim s_empty s)).
Proof.
  intros dim sz k t r bulk ps pos ph m D GS L EX BK. rewrite <- GS in L, EX. destruct (built_none FA dim sz D L EX) as (s & k' & t' & GS' & EB & ES & DI & FL). rewrite GS' in GS. injection GS as -> ->. exists s. split; [exact EB|].
  assert (SE : setup_solid_phase s bulk = s_empty) by (unfold setup_solid_phase, build_blank_state; rewrite ES; reflexivity).
  assert (SC : forall b, Z.abs b <= 1 -> denotes (a_mul FA (a_ofZ FA b) (a_ofZ FA k)) (IZR (b * k))) by (intros b Hb; apply mul_int; try (apply denotes_ofZ; lia); nia).
  assert (NM : denotes (norm FA (map (fun x => a_mul FA x (a_ofZ FA k)) (map (a_ofZ FA) (if Nat.eqb dim 2 then [0; 1] else [0; 1; 0])))) (IZR (Z.abs k))).
  { destruct D as [->| ->]; cbn [Nat.eqb map].
    - apply (norm_axis _ [0 * k; 1 * k]); try lia; [constructor; [|constructor; [|constructor]]; apply SC; lia|repeat constructor; lia|auto|cbn [sqz]; lia].
    - apply (norm_axis _ [0 * k; 1 * k; 0 * k]); try lia; [constructor; [|constructor; [|constructor; [|constructor]]]; apply SC; lia|repeat constructor; lia|auto|cbn [sqz]; lia]. }
  revert FL NM. generalize (norm FA (map (fun x => a_mul FA x (a_ofZ FA k)) (map (a_ofZ FA) (if Nat.eqb dim 2 then [0; 1] else [0; 1; 0])))). intros v FL NM.
  unfold setup_random_particles. rewrite EB. cbn [bind]. rewrite SE, DI. unfold add_particle_to_state. rewrite ES, FL. cbn [bind foldM].
  assert (LT : a_ltb FA v (a_ofZ FA 1) = (k =? 0)).
  { change (f_ltb v (f_ofZ 1) = (k =? 0)). rewrite (denotes_ltb _ _ _ _ NM (denotes_ofZ 1 eq_refl)). destruct (Z.eqb_spec k 0) as [->|N]; [apply Rlt_bool_true; cbn; lra|apply Rlt_bool_false, IZR_le; lia]. }
  rewrite LT.
  assert (RC : forall i, mapM (fun a => if k =? 0 then Err ValueError else Ok (a_ofZ FA (pos i a))) (seq 0 dim) = if k =? 0 then Err ValueError else Ok (map (fun a => a_ofZ FA (pos i a)) (seq 0 dim))).
  { intros i. destruct (k =? 0); [destruct D as [->| ->]; reflexivity|]. destruct D as [->| ->]; reflexivity. }
  split; [intros H; replace (Z.to_nat m) with 0%nat by lia; reflexivity|]. split; [|split].
  - intros H ->. destruct (Z.to_nat m) as [|n] eqn:EM; [lia|]. cbn [seq foldM]. rewrite RC. reflexivity.
  - intros H NK ->. destruct (Z.to_nat m) as [|n] eqn:EM; [lia|]. cbn [seq foldM]. rewrite RC. destruct (Z.eqb_spec k 0); [contradiction|]. cbn [bind].
    assert (choice (@nil string) (ph 0%nat) = Err IndexError) as -> by (unfold choice; destruct (ph 0%nat mod length (@nil string))%nat; reflexivity). reflexivity.
  - intros NK NP. assert (CH : forall j, exists x, choice ps j = Ok x).
    { intros j. unfold choice. destruct (nth_error ps (j mod length ps)) eqn:E; [eauto|]. apply nth_error_None in E. destruct ps; [congruence|]. pose proof (Nat.mod_upper_bound j (length (s0 :: ps)) ltac:(discriminate)). lia. }
    generalize (seq 0 (Z.to_nat m)). intros l. destruct (Z.eqb_spec k 0) as [|_]; [contradiction|].
    assert (K : forall l (st : sstate), foldM (fun st i => do c <- mapM (fun a => Ok (a_ofZ FA (pos i a))) (seq 0 dim); do ph0 <- choice ps (ph i); Ok st) l st = Ok st).
    { clear l. induction l as [|i l IH]; intros st; [reflexivity|]. cbn [foldM]. destruct (CH (ph i)) as [x ->]. assert (exists c, mapM (fun a => Ok (a_ofZ FA (pos i a))) (seq 0 dim) = Ok c) as [c ->] by (destruct D as [->| ->]; eexists; reflexivity). cbn [bind]. apply IH. }
    rewrite K. reflexivity.
Qed.
