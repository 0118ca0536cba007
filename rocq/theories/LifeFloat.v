(** The Game of Life on grids built in binary64 (C84). *)
From Coq Require Import Reals Permutation.
From Flocq Require Import Core BinarySingleNaN.
From Verif Require Import Prelude Dict Val ValFacts Arith LatticeModel StructModel StateModel ResultModel RunnerModel NbModel GridModel SimModel SetupModel RulesModel
  SpecState SpecResult SpecRunner SpecGeom SpecNb SpecGrid SpecSetup SpecRules StateFacts ResultFacts RunnerFacts SyncFacts ParFacts ParRun GenRun
  LatticeFacts StructFacts StructMore NbFacts NbMore GridFacts GridMore GridNb SetupFacts RulesFacts LifeFacts LifeGen
  FloatArith SpecFloat64 FloatFacts FloatCoord FloatGrid FloatMore FloatNb.
Local Open Scope Z_scope.

Definition fcell (n m x y : Z) : Z := (y mod n) * m + x mod m.
Lemma fcell_inj n m x y x' y' : 1 <= n -> 1 <= m -> fcell n m x y = fcell n m x' y' -> x mod m = x' mod m /\ y mod n = y' mod n.
Proof.
  intros Hn Hm E. unfold fcell in E. pose proof (Z.mod_pos_bound x m ltac:(lia)). pose proof (Z.mod_pos_bound x' m ltac:(lia)).
  rewrite !(Z.mul_comm _ m) in E. apply (Z.div_mod_unique m) in E; lia.
Qed.
Lemma fcell_eq n m x y x' y' : x mod m = x' mod m -> y mod n = y' mod n -> fcell n m x y = fcell n m x' y'.
Proof. unfold fcell. congruence. Qed.
Lemma fcell_small n m x y : 0 <= x < m -> 0 <= y < n -> fcell n m x y = y * m + x.
Proof. intros Hx Hy. unfold fcell. now rewrite !Z.mod_small. Qed.
Lemma mod_near m x a b : 3 <= m -> Z.abs a <= 1 -> Z.abs b <= 1 -> (x + a) mod m = (x + b) mod m -> a = b.
Proof.
  intros Hm Ha Hb E. assert (D : (m | a - b)).
  { apply Z.mod_divide; [lia|]. replace (a - b) with ((x + a) - (x + b)) by lia. rewrite Zminus_mod, E, Z.sub_diag. apply Zmod_0_l. }
  destruct D as [k K]. assert (k = 0) by nia. lia.
Qed.

Definition fnbs (n m k : Z) : list Z := map (fun d => fcell n m (k mod m + fst d) (k / m + snd d)) around.
Lemma fnbs_cell n m x y : 1 <= n -> 1 <= m -> fnbs n m (fcell n m x y) = map (fun d => fcell n m (x + fst d) (y + snd d)) around.
Proof.
  intros Hn Hm. unfold fnbs. apply map_ext. intros [dx dy]. cbn [fst snd]. pose proof (Z.mod_pos_bound x m ltac:(lia)).
  replace (fcell n m x y mod m) with (x mod m). replace (fcell n m x y / m) with (y mod n).
  - apply fcell_eq; apply Zplus_mod_idemp_l.
  - unfold fcell. rewrite Z.div_add_l by lia. rewrite Z.div_small by lia. lia.
  - unfold fcell. rewrite Z.add_comm, Z.mod_add by lia. now rewrite Z.mod_mod by lia.
Qed.

Lemma graph_grid born survive n m a g t : 1 <= n -> 1 <= m -> (forall x y, a (fcell n m x y) = g x y) ->
  forall x y, graph_after born survive (fnbs n m) t a (fcell n m x y) = life_after born survive t g x y.
Proof.
  intros Hn Hm H. induction t as [|t IH]; [exact H|]. intros x y. cbn [graph_after life_after]. unfold graph_next, life_next, alive_around.
  rewrite IH, fnbs_cell, filter_map, map_length by auto. rewrite (filter_ext _ (fun d => life_after born survive t g (x + fst d) (y + snd d))); auto.
Qed.

Lemma C84_lemma : forall n m s variant ords rnd ctl born survive init g k, 3 <= n <= 2 ^ 20 -> 3 <= m <= 2 ^ 20 -> fl_grid [n; m] s -> (forall t, legal (ords t)) ->
  process_variant_string variant = Ok (born, survive) -> life_init FA s ords rnd variant = Ok ctl ->
  Permutation (site_ids init) (map (fun x => KInt (s_id x)) (sites s None)) -> shows_on n m init g ->
  (~ falls_short n n -> ~ falls_short m m ->
   (exists o, run_sync ctl (None, 0%nat) init k = Ok o /\ rlen (o_result o) = Z.max 0 k + 1 /\
      forall t, 0 <= t <= Z.max 0 k -> exists st, get_step (o_result o) t = Ok st /\ site_ids st = site_ids init /\
        shows_on n m st (life_after born survive (Z.to_nat t) g)) /\
   (forall p sched, 1 <= p -> exists o, run_parallel ctl p sched (None, 0%nat) init k = Ok o /\ rlen (o_result o) = Z.max 0 k + 1 /\
      forall t, 0 <= t <= Z.max 0 k -> exists st, get_step (o_result o) t = Ok st /\ site_ids st = site_ids init /\
        shows_on n m st (life_after born survive (Z.to_nat t) g))) /\
  (falls_short n n \/ falls_short m m ->
   run_sync ctl (None, 0%nat) init k = Err TypeError /\ run_async ctl (None, 0%nat) init k = Err TypeError /\
   forall p sched, run_parallel ctl p sched (None, 0%nat) init k = Err TypeError).
Proof.
  intros n m s variant ords rnd ctl born survive init g k Hn Hm FG LO EV EI PI SH. unfold life_init in EI. rewrite EV in EI. cbn [bind] in EI. injection EI as <-.
  destruct (C75_moore_lemma n m 1 s ltac:(lia) ltac:(lia) ltac:(lia) FG) as (b & Eb & OKC & BAD).
  pose proof (lost_1 n ltac:(unfold M20; lia)) as LN. pose proof (lost_1 m ltac:(unfold M20; lia)) as LM. split.
  2:{ intros H. assert (EP : forall c st, life_pre_run FA s c st = Err TypeError).
      { intros c st. unfold life_pre_run. rewrite Eb. cbn [bind]. rewrite BAD by tauto. reflexivity. }
      unfold run_sync, run_async, run_parallel, life_controller. cbn [c_pre_run]. rewrite EP. auto. }
  intros Sn Sm. destruct OKC as (N & EN & HN); [tauto|tauto|].
  assert (EP : forall c st, life_pre_run FA s c st = Ok (Some N, snd c)).
  { intros c st. unfold life_pre_run. rewrite Eb. cbn [bind]. rewrite EN. reflexivity. }
  destruct (fl_any n m s ltac:(unfold M20; lia) ltac:(unfold M20; lia) FG) as (DE & CT & GS & ALL & _).
  rewrite <- map_map in PI. apply map_KInt_inv in PI as (ids & EI & PI).
  assert (NI : NoDup ids) by (apply (Permutation_NoDup (Permutation_sym PI)), dense_NoDup, DE).
  assert (IDS : forall i, In i ids <-> exists x y, 0 <= x < m /\ 0 <= y < n /\ i = fcell n m x y).
  { intros i. split.
    - intros Hi. apply (Permutation_in _ PI) in Hi. apply in_map_iff in Hi as (z & <- & Hz). destruct (ALL z Hz) as (y & x & Hy & Hx & Gz).
      exists x, y. split; auto. split; auto. rewrite fcell_small by auto. destruct (GS y x Hy Hx) as (u & v & Gz' & _). rewrite Gz in Gz'. injection Gz' as ->. reflexivity.
    - intros (x & y & Hx & Hy & ->). rewrite fcell_small by auto. apply (Permutation_in _ (Permutation_sym PI)).
      unfold dense in DE. rewrite DE, CT. apply zrange_In. nia. }
  assert (INF : forall x y, In (fcell n m x y) ids).
  { intros x y. apply IDS. exists (x mod m), (y mod n). split; [apply Z.mod_pos_bound; lia|]. split; [apply Z.mod_pos_bound; lia|]. apply fcell_eq; symmetry; apply Z.mod_mod; lia. }
  assert (NB : forall o i, legal o -> In i ids -> exists l, neighbors_of o N i = Ok l /\ Permutation l (fnbs n m i)).
  { intros o i Lo Hi. apply IDS in Hi as (x & y & Hx & Hy & ->). rewrite fnbs_cell by lia. pose proof (HN y x Hy Hx o Lo) as (l & El & ND & IN). rewrite <- (fcell_small n m x y Hx Hy) in El, IN.
    exists l. split; auto. apply NoDup_Permutation; auto.
    - apply nodup_map_in; [|apply around_NoDup]. intros [a1 a2] [b1 b2] Ha Hb E. apply around_bound in Ha as (A1 & A2 & _), Hb as (B1 & B2 & _). cbn [fst snd] in *.
      apply fcell_inj in E as [E1 E2]; try lia. apply mod_near in E1; try lia. apply mod_near in E2; try lia. congruence.
    - intros j. rewrite IN, in_map_iff. split.
      + intros (D & dx & dy & A1 & A2 & ->). exists (dx, dy). split; [reflexivity|]. apply around_all; auto. intros [= -> ->]. apply D. now rewrite !Z.add_0_r.
      + intros ([dx dy] & <- & Hd). apply around_bound in Hd as (B1 & B2 & B3). cbn [fst snd] in *. split.
        * intros E. apply B3. replace x with (x + 0) in E at 2 by lia. replace y with (y + 0) in E at 2 by lia. apply fcell_inj in E as [E1 E2]; try lia.
          apply mod_near in E1; try lia. apply mod_near in E2; try lia. congruence.
        * exists dx, dy. auto. }
  assert (HI : forall i, In i ids -> incl (fnbs n m i) ids).
  { intros i Hi j Hj. unfold fnbs in Hj. apply in_map_iff in Hj as (d & <- & _). apply INF. }
  pose (a := fun i => phase_at init i "alive").
  assert (AG : forall x y, a (fcell n m x y) = g x y).
  { intros x y. unfold a. pose proof (SH x y) as H. fold (fcell n m x y) in H. rewrite (holds_phase _ _ _ _ H). destruct (g x y); reflexivity. }
  assert (LV : lives ids init a).
  { intros i Hi. apply IDS in Hi as (x & y & _ & _ & ->). rewrite AG. apply SH. }
  assert (NE : ids <> []) by (intros E; specialize (INF 0 0); rewrite E in INF; destruct INF).
  assert (BACK : forall st t, lives ids st (graph_after born survive (fnbs n m) t a) -> shows_on n m st (life_after born survive t g)).
  { intros st t H x y. rewrite <- (graph_grid born survive n m a g t) by (auto; lia). apply (H (fcell n m x y)), INF. }
  destruct (life_graph FA s born survive ords rnd ids N (fnbs n m) LO NI NE EP NB HI init a k EI LV) as [(o & E & RL & HS) PAR]. split.
  - exists o. split; auto. split; auto. intros t Ht. destruct (HS t Ht) as (st & E1 & E2 & E3). exists st. auto.
  - intros p sched Hp. destruct (PAR p sched Hp) as (op & Ep & RLp & HP). exists op. split; auto. split; auto. intros t Ht. destruct (HP t Ht) as (st & E1 & E2 & E3). exists st. auto.
Qed.

Lemma C84_small_lemma : forall n m s variant ords rnd ctl born survive init g k, 3 <= n <= 48 -> 3 <= m <= 48 -> fl_grid [n; m] s -> (forall t, legal (ords t)) ->
  process_variant_string variant = Ok (born, survive) -> life_init FA s ords rnd variant = Ok ctl ->
  Permutation (site_ids init) (map (fun x => KInt (s_id x)) (sites s None)) -> shows_on n m init g ->
  (exists o, run_sync ctl (None, 0%nat) init k = Ok o /\ rlen (o_result o) = Z.max 0 k + 1 /\
     forall t, 0 <= t <= Z.max 0 k -> exists st, get_step (o_result o) t = Ok st /\ site_ids st = site_ids init /\
       shows_on n m st (life_after born survive (Z.to_nat t) g)) /\
  (forall p sched, 1 <= p -> exists o, run_parallel ctl p sched (None, 0%nat) init k = Ok o /\ rlen (o_result o) = Z.max 0 k + 1 /\
     forall t, 0 <= t <= Z.max 0 k -> exists st, get_step (o_result o) t = Ok st /\ site_ids st = site_ids init /\
       shows_on n m st (life_after born survive (Z.to_nat t) g)).
Proof.
  intros n m s variant ords rnd ctl born survive init g k Hn Hm FG LO EV EI PI SH.
  apply (C84_lemma n m s variant ords rnd ctl born survive init g k); auto; try lia; apply C30_adjacent_lemma; lia.
Qed.

Lemma C84_refuted_lemma : exists n s, 3 <= n <= 100 /\ fl_grid [n; n] s /\
  forall ords rnd init k, exists ctl, life_init FA s ords rnd Life = Ok ctl /\ run_sync ctl (None, 0%nat) init k = Err TypeError.
Proof.
  destruct (fl_core 49 49 ltac:(unfold M20; lia) ltac:(unfold M20; lia)) as (s & FG & _).
  destruct (C75_moore_lemma 49 49 1 s ltac:(lia) ltac:(lia) ltac:(lia) FG) as (b & Eb & _ & H).
  exists 49, s. split; [lia|]. split; auto. intros ords rnd init k. unfold life_init. change (process_variant_string Life) with (@Ok (list Z * list Z) ([3], [2; 3])). cbn [bind].
  eexists. split; [reflexivity|]. unfold run_sync, life_controller. cbn [c_pre_run]. unfold life_pre_run. rewrite Eb. cbn [bind]. rewrite H; [reflexivity|].
  left. apply lost_1; [unfold M20; lia|]. apply short_at_border; [unfold M20; lia|vm_compute; reflexivity].
Qed.

(** A state showing a given pattern. *)
Definition picture (n m : Z) (g : Z -> Z -> bool) : sstate :=
  mkS (map (fun i => (KInt i, [(KStr "_site_id", VInt i); (KStr "DISCRETE_OCCUPANCY", VStr (if g (i mod m) (i / m) then "alive" else "dead"))])) (zrange 0 (n * m))) [].
Lemma picture_ids n m g : site_ids (picture n m g) = map KInt (zrange 0 (n * m)).
Proof. unfold picture, site_ids, dkeys. cbn [s_sites]. rewrite map_map. reflexivity. Qed.
Lemma picture_shows n m g : 1 <= n -> 1 <= m -> (forall x y, g (x mod m) (y mod n) = g x y) -> shows_on n m (picture n m g) g.
Proof.
  intros Hn Hm P x y. pose proof (Z.mod_pos_bound x m ltac:(lia)) as Bx. pose proof (Z.mod_pos_bound y n ltac:(lia)) as By. rewrite <- P.
  set (i := y mod n * m + x mod m). assert (Hi : In i (zrange 0 (n * m))) by (apply zrange_In; unfold i; nia).
  assert (Ex : i mod m = x mod m) by (unfold i; rewrite Z.add_comm, Z.mod_add, Z.mod_mod; lia).
  assert (Ey : i / m = y mod n) by (unfold i; rewrite Z.div_add_l, Z.div_small; lia). rewrite <- Ex, <- Ey. clearbody i. clear - Hi.
  unfold holds, site_entry, picture, get_site_state. cbn [s_sites].
  assert (E : forall l, In i l -> dget (KInt i) (map (fun i => (KInt i, [(KStr "_site_id", VInt i); (KStr "DISCRETE_OCCUPANCY", VStr (if g (i mod m) (i / m) then "alive" else "dead"))])) l)
    = Some [(KStr "_site_id", VInt i); (KStr "DISCRETE_OCCUPANCY", VStr (if g (i mod m) (i / m) then "alive" else "dead"))]).
  { induction l as [|j l IH]; intros H; [destruct H|]. cbn [map dget]. destruct (Z.eq_dec i j) as [->|D]; [now rewrite eqb_refl|].
    destruct (eqb_spec (KInt i) (KInt j)) as [E|_]; [congruence|]. apply IH. destruct H; congruence. }
  rewrite E; auto.
Qed.
