(** Asynchronous runs of life-like automata on grids built in binary64 (C110), and drawings of boxes there (C102). *)
From Coq Require Import Reals Permutation.
From Flocq Require Import Core BinarySingleNaN.
From Verif Require Import Prelude Dict Val ValFacts Arith LatticeModel StructModel StateModel ResultModel RunnerModel NbModel GridModel SimModel SetupModel RulesModel AnalyzerModel VizModel
  SpecState SpecResult SpecRunner SpecGeom SpecNb SpecGrid SpecSetup SpecRules SpecAnalyze SpecViz StateFacts ResultFacts RunnerFacts SyncFacts ParFacts ParRun GenRun
  LatticeFacts StructFacts StructMore NbFacts NbMore GridFacts GridMore GridNb SetupFacts RulesFacts LifeFacts LifeGen
  FloatArith SpecFloat64 FloatFacts FloatCoord FloatGrid FloatMore FloatNb LifeFloat LifeAsync VoxFacts FloatDraw.
Local Open Scope Z_scope.

Lemma C110_float_lemma : forall n m s variant ords rnd ctl born survive init g k, 3 <= n <= 2 ^ 20 -> 3 <= m <= 2 ^ 20 -> fl_grid [n; m] s -> ~ falls_short n n -> ~ falls_short m m -> (forall t, legal (ords t)) ->
  process_variant_string variant = Ok (born, survive) -> life_init FA s ords rnd variant = Ok ctl ->
  Permutation (site_ids init) (map (fun x => KInt (s_id x)) (sites s None)) -> shows_on n m init g ->
  exists o, run_async ctl (None, 0%nat) init k = Ok o /\ rlen (o_result o) = Z.max 0 k + 1 /\ get_step (o_result o) 0 = Ok init /\
    forall t, 0 <= t < Z.max 0 k -> exists st st' h h', get_step (o_result o) t = Ok st /\ get_step (o_result o) (t + 1) = Ok st' /\ shows_on n m st h /\ shows_on n m st' h' /\
      forall x y, h' x y = if (y mod n) * m + x mod m =? Z.of_nat (rnd (2 * Z.to_nat t)%nat) mod (n * m) then life_next born survive h x y else h x y.
Proof.
  intros n m s variant ords rnd ctl born survive init g k Hn Hm FG Sn Sm LO EV EI PI SH. unfold life_init in EI. rewrite EV in EI. cbn [bind] in EI. injection EI as <-.
  destruct (C75_moore_lemma n m 1 s ltac:(lia) ltac:(lia) ltac:(lia) FG) as (b & Eb & OKC & _).
  pose proof (lost_1 n ltac:(unfold M20; lia)) as LN. pose proof (lost_1 m ltac:(unfold M20; lia)) as LM.
  destruct OKC as (N & EN & HN); [tauto|tauto|].
  assert (EP : forall c st, life_pre_run FA s c st = Ok (Some N, snd c)).
  { intros c st. unfold life_pre_run. rewrite Eb. cbn [bind]. rewrite EN. reflexivity. }
  destruct (fl_any n m s ltac:(unfold M20; lia) ltac:(unfold M20; lia) FG) as (DE & CT & GS & ALL & _).
  rewrite <- map_map in PI. apply map_KInt_inv in PI as (ids & EI & PI).
  assert (PZ : Permutation ids (zrange 0 (n * m))) by (unfold dense in DE; rewrite DE, CT in PI; exact PI).
  assert (IDS : forall i, In i ids <-> exists x y, 0 <= x < m /\ 0 <= y < n /\ i = fcell n m x y).
  { intros i. split.
    - intros Hi. apply (Permutation_in _ PI) in Hi. apply in_map_iff in Hi as (z & <- & Hz). destruct (ALL z Hz) as (y & x & Hy & Hx & Gz).
      exists x, y. split; auto. split; auto. rewrite fcell_small by auto. destruct (GS y x Hy Hx) as (u & v & Gz' & _). rewrite Gz in Gz'. injection Gz' as ->. reflexivity.
    - intros (x & y & Hx & Hy & ->). rewrite fcell_small by auto. apply (Permutation_in _ (Permutation_sym PZ)), zrange_In. nia. }
  assert (INF : forall x y, In (fcell n m x y) ids).
  { intros x y. apply IDS. exists (x mod m), (y mod n). split; [apply Z.mod_pos_bound; lia|]. split; [apply Z.mod_pos_bound; lia|]. apply fcell_eq; symmetry; apply Z.mod_mod; lia. }
  assert (NB : forall o i, legal o -> In i ids -> exists l, neighbors_of o N i = Ok l /\ Permutation l (fnbs n m i)).
  { intros o i Lo Hi. apply IDS in Hi as (x & y & Hx & Hy & ->). rewrite fnbs_cell by lia. pose proof (HN y x Hy Hx o Lo) as (l & El & ND & IN). rewrite <- (fcell_small n m x y Hx Hy) in El, IN.
    exists l. split; auto. apply NoDup_Permutation; auto.
    - apply nodup_map_in; [|apply around_NoDup]. intros [a1 a2] [b1 b2] Ha Hb E. apply around_bound in Ha as (A1 & A2 & _), Hb as (B1 & B2 & _). cbn [fst snd] in *.
      apply fcell_inj in E as [E1 E2]; try lia. apply mod_near in E1; try lia. apply mod_near in E2; try lia. congruence.
    - intros j. rewrite IN, in_map_iff. split.
      + intros (D & dx & dy & A1 & A2 & ->). exists (dx, dy). split; [reflexivity|]. apply around_all; auto. intros [= -> ->]. apply D. now rewrite !Z.add_0_r.
      + intros ([dx dy] & <- & Hd). apply around_bound in Hd as (B1 & B2 & B3). cbn [fst snd] in *. split.
        * intros E. apply B3. replace x with (x + 0) in E at 2 by lia. replace y with (y + 0) in E at 2 by lia. apply fcell_inj in E as [E1 E2]; try lia.
          apply mod_near in E1; try lia. apply mod_near in E2; try lia. congruence.
        * exists dx, dy. auto. }
  assert (HI : forall i, In i ids -> incl (fnbs n m i) ids).
  { intros i Hi j Hj. unfold fnbs in Hj. apply in_map_iff in Hj as (d & <- & _). apply INF. }
  pose (a := fun i => phase_at init i "alive").
  assert (AG : forall x y, a (fcell n m x y) = g x y).
  { intros x y. unfold a. pose proof (SH x y) as H. fold (fcell n m x y) in H. rewrite (holds_phase _ _ _ _ H). destruct (g x y); reflexivity. }
  assert (LV : lives ids init a).
  { intros i Hi. apply IDS in Hi as (x & y & _ & _ & ->). rewrite AG. apply SH. }
  assert (HM : 0 < n * m) by nia.
  destruct (async_life FA s born survive ords rnd ids (n * m) N (fnbs n m) LO HM PZ EP NB HI init a EI LV k) as (o & E & RL & GST).
  exists o. split; [exact E|]. split; [exact RL|]. split; [exact (GST 0 ltac:(lia))|]. intros t Ht.
  set (P := pat born survive rnd (n * m) (fnbs n m) a) in *. set (stt := sts born survive rnd (n * m) (fnbs n m) init a) in *.
  assert (SHO : forall j, shows_on n m (stt j) (fun x y => P j (fcell n m x y))).
  { intros j x y. apply (proj1 (proj2 (sts_shape born survive rnd ids (n * m) (fnbs n m) HM PZ init a EI LV j)) (fcell n m x y)), INF. }
  exists (stt (Z.to_nat t)), (stt (S (Z.to_nat t))), (fun x y => P (Z.to_nat t) (fcell n m x y)), (fun x y => P (S (Z.to_nat t)) (fcell n m x y)).
  split; [apply GST; lia|]. split; [rewrite GST by lia; do 2 f_equal; lia|]. split; [apply SHO|]. split; [apply SHO|].
  intros x y. unfold P at 1. cbn [pat]. fold P. fold (fcell n m x y). destruct (fcell n m x y =? _); [|reflexivity].
  pose proof (graph_grid born survive n m (P (Z.to_nat t)) (fun x y => P (Z.to_nat t) (fcell n m x y)) 1 ltac:(lia) ltac:(lia) (fun _ _ => eq_refl) x y) as X. exact X.
Qed.

Lemma C110_float_still_lemma : forall n m s variant ords rnd ctl born survive init g k, 3 <= n <= 2 ^ 20 -> 3 <= m <= 2 ^ 20 -> fl_grid [n; m] s -> ~ falls_short n n -> ~ falls_short m m -> (forall t, legal (ords t)) ->
  process_variant_string variant = Ok (born, survive) -> life_init FA s ords rnd variant = Ok ctl ->
  Permutation (site_ids init) (map (fun x => KInt (s_id x)) (sites s None)) -> shows_on n m init g ->
  (forall x y, life_next born survive g x y = g x y) ->
  exists o, run_async ctl (None, 0%nat) init k = Ok o /\ rlen (o_result o) = Z.max 0 k + 1 /\
    forall t, 0 <= t <= Z.max 0 k -> exists st, get_step (o_result o) t = Ok st /\ shows_on n m st g.
Proof.
  intros n m s variant ords rnd ctl born survive init g k Hn Hm FG Sn Sm LO EV EI PI SH FX.
  destruct (C110_float_lemma n m s variant ords rnd ctl born survive init g k Hn Hm FG Sn Sm LO EV EI PI SH) as (o & E & RL & G0 & H).
  exists o. split; [exact E|]. split; [exact RL|].
  assert (K : forall j : nat, Z.of_nat j <= Z.max 0 k -> exists st, get_step (o_result o) (Z.of_nat j) = Ok st /\ shows_on n m st g).
  { induction j as [|j IH]; intros Hk; [exists init; split; [exact G0|exact SH]|]. destruct IH as (st0 & E0 & S0); [lia|].
    destruct (H (Z.of_nat j) ltac:(lia)) as (st & st' & h & h' & E1 & E2 & S1 & S2 & R). rewrite E0 in E1. injection E1 as <-. exists st'. split; [rewrite <- E2; f_equal; lia|].
    assert (HG : forall x y, h x y = g x y).
    { intros x y. pose proof (holds_fun _ _ _ _ (S0 x y) (S1 x y)) as X. destruct (g x y), (h x y); congruence. }
    intros x y. pose proof (S2 x y) as X. rewrite (R x y) in X.
    assert (LX : life_next born survive h x y = g x y).
    { rewrite <- FX. unfold life_next, alive_around. rewrite HG. rewrite (filter_ext _ (fun d => g (x + fst d) (y + snd d))); auto. }
    rewrite LX, HG in X. destruct (_ =? _); exact X. }
  intros t Ht. destruct (K (Z.to_nat t) ltac:(lia)) as (st & E1 & S1). rewrite Z2Nat.id in E1 by lia. eauto.
Qed.

Lemma C102_fitting_lemma : forall s art st colr n0 n1 n2 cube_root shell, fl_square [n0; n1; n2] s -> 1 <= n0 <= 2 ^ 20 -> 1 <= n1 <= 2 ^ 20 -> 1 <= n2 <= 2 ^ 20 -> colours art s st colr ->
  n0 <= cube_root (size st) -> n1 <= cube_root (size st) -> n2 <= cube_root (size st) ->
  exists ds, draw_3d f_int f_is cube_root s art st shell = Ok (cube_root (size st), ds) /\
    forall c v, voxel ds c v <-> exists x y z i, v = [x; y; z] /\ 0 <= x < n1 /\ 0 <= y < n0 /\ 0 <= z < n2 /\ fl_cell [n0; n1; n2] s v i /\ c = colr i /\ (shell = true -> y = 0).
Proof.
  intros s art st colr n0 n1 n2 cube_root shell FS B0 B1 B2 CO C0 C1 C2.
  destruct (draw_3d_all f_int f_is (fun a b c i => fl_cell [n0; n1; n2] s [a; b; c] i) s art st colr n0 n1 n2 cube_root shell (screen3_float s n0 n1 n2 FS B0 B1 B2) CO C0 C1 C2) as (ds & E & H).
  exists ds. split; [exact E|]. intros c v. rewrite H. split; intros (x & y & z & i & -> & K); exists x, y, z, i; (split; [reflexivity|exact K]).
Qed.
