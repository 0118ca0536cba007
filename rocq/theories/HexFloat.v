(** Growth with a fixed pseudo-hexagonal member on grids built in binary64. *)
From Coq Require Import Reals Lra Permutation.
From Flocq Require Import Core BinarySingleNaN.
From Verif Require Import Prelude Dict Val ValFacts Arith LatticeModel StructModel StateModel ResultModel RunnerModel NbModel GridModel SimModel SetupModel RulesModel
  SpecState SpecResult SpecRunner SpecGeom SpecNb SpecGrid SpecSetup SpecRules
  LatticeFacts StructFacts StructMore StructBuild NbFacts NbMore GridFacts GridMore GridNb NbShapes SetupFacts RulesFacts RulesMore GrowBall
  FloatArith SpecFloat64 FloatFacts FloatCoord FloatGrid FloatMore FloatNb FloatVec FloatAxis FloatBox FloatNorm FloatCut FloatOpen FloatMotif FloatTorus SpecDraw DrawFloat SpecSame SameRuns SpecHex ConstDraw.
Local Open Scope Z_scope.

Lemma fl_member size s motifs k D b N : Forall (fun m => 1 <= m <= M20) size -> fl_square size s -> Forall (fun m => ~ falls_short m m) size ->
  (forall M d, In M motifs -> In d M -> length d = length size /\ within_moore 1 d) -> nth_error motifs k = Some D ->
  stochastic_motifs FA motifs = Ok b -> nb_get FA b s None = Ok N ->
  exists l M, N = NStochastic l /\ length l = length motifs /\ nth_error l k = Some M /\
    forall x i, length x = length size -> fl_cell size s x i -> neighbours M i (fun j => j <> i /\ exists d, In d D /\ fl_cell size s (shift x d) j).
Proof.
  intros Hk FS NF ST HD Eb EN. unfold stochastic_motifs in Eb. apply bind_Ok in Eb as (bs & Ebs & Eb). injection Eb as <-.
  destruct (built_nth FA motifs bs Ebs) as [LBS NBS]. destruct (stochastic_index FA s bs N EN) as (l & -> & LL & GI & _).
  destruct (NBS k D HD) as (b & Hb & Eb). destruct (GI k b Hb) as (M & HM & EM). exists l, M. split; auto. split; [congruence|]. split; auto.
  destruct (torus_motif size s Hk FS D b (fun d => ST D d (nth_error_In _ _ HD)) Eb) as (_ & G & _).
  destruct G as (N' & EN' & H); [|rewrite EM in EN'; injection EN' as <-; exact H]. rewrite Forall_forall in *. intros m Hm L. apply (NF m Hm). apply lost_1; auto.
Qed.

Lemma fl_hex_grow size s motifs k D e b N bg ords rnd ids c0 init n : Forall (fun m => 1 <= m <= M20) size -> fl_square size s -> Forall (fun m => ~ falls_short m m) size ->
  length e = length size -> (forall M d, In M motifs -> In d M -> length d = length size /\ within_moore 1 d) -> nth_error motifs k = Some D ->
  (forall d, length d = length size -> (hexagonal e d <-> In d D \/ forallb (Z.eqb 0) d = true)) ->
  stochastic_motifs FA motifs = Ok b -> nb_get FA b s None = Ok N -> (forall t, legal (ords t)) -> (forall t l, length l = length motifs -> o_choice (ords t) l = k) ->
  Permutation ids (map s_id (sites s None)) -> phased ids init ->
  (exists o, run_sync (growth_controller N bg ords rnd) c0 init n = Ok o /\ rlen (o_result o) = Z.max 0 n + 1 /\
     forall t, 0 <= t <= Z.max 0 n -> exists st, get_step (o_result o) t = Ok st /\
       forall p i, length p = length size -> fl_cell size s p i -> (occupied bg st i <-> exists d j, length d = length size /\ hex_within e t d /\ fl_cell size s (shift p d) j /\ occupied bg init j)) /\
  (forall q sched, 1 <= q -> exists o, run_parallel (growth_controller N bg ords rnd) q sched c0 init n = Ok o /\ rlen (o_result o) = Z.max 0 n + 1 /\
     forall t, 0 <= t <= Z.max 0 n -> exists st, get_step (o_result o) t = Ok st /\
       forall p i, length p = length size -> fl_cell size s p i -> (occupied bg st i <-> exists d j, length d = length size /\ hex_within e t d /\ fl_cell size s (shift p d) j /\ occupied bg init j)).
Proof.
  intros Hk FS NF Le ST HD SE Eb EN LO CH PI PH. destruct (fl_member size s motifs k D b N Hk FS NF ST HD Eb EN) as (l & M & -> & LL & HM & NB).
  assert (FUN : forall p i j, fl_cell size s p i -> fl_cell size s p j -> i = j) by (apply (fl_fun size s Hk FS)).
  pose proof (hex_balls e) as BB. rewrite Le in BB.
  destruct (C130_constant_lemma b64 l k M bg ords rnd c0 init n HM (fun t => CH t l LL)) as (S1 & _ & S3).
  destruct (grow_ball M bg ords rnd ids (fl_cell size s) (length size) (fun k => hex_within e (Z.of_nat k)) c0 init n) as [(o & E & RL & H) PAR]; auto.
  - intros p Lp. now apply torus_total.
  - now apply torus_shift.
  - apply (Permutation_NoDup (Permutation_sym PI)), dense_NoDup, (torus_dense size s Hk FS).
  - intros E0. destruct (torus_total size s Hk FS (repeat 0 (length size)) (repeat_length _ _)) as (i & Ci).
    assert (X : In i ids) by (apply (Permutation_in _ (Permutation_sym PI)), (torus_ids size s Hk FS); exists (repeat 0 (length size)); split; auto using repeat_length). rewrite E0 in X. destruct X.
  - intros i. rewrite <- (torus_ids size s Hk FS). split; apply Permutation_in; auto using Permutation_sym.
  - intros x i Lx Cx o LO'. destruct (NB x i Lx Cx o LO') as (l0 & El & ND & IN). exists l0. split; auto. split; auto.
    intros j. rewrite IN. split; intros (NJ & d & K); (split; [exact NJ|]).
    + destruct K as [Hd Cd]. destruct (ST D d (nth_error_In _ _ HD) Hd) as [Ld _]. exists d. split; auto. split; auto. apply (hex_one e d ltac:(congruence)). apply SE; auto.
    + destruct K as (Ld & Sd & Cd). apply (hex_one e d ltac:(congruence)) in Sd. apply SE in Sd as [Hd|Zd]; auto; [eauto|]. exfalso. apply NJ. rewrite shift_zeros in Cd by congruence. exact (FUN _ _ _ Cd Cx).
  - split.
    + exists o. rewrite S1. split; auto. split; auto. intros t Ht. destruct (H t Ht) as (st & Es & K). exists st. split; auto. rewrite Z2Nat.id in K by lia. exact K.
    + intros q sched Hq. destruct (PAR q sched Hq) as (op & Ep & RLp & HP). exists op. rewrite S3. split; auto. split; auto. intros t Ht. destruct (HP t Ht) as (st & Es & K). exists st. split; auto. rewrite Z2Nat.id in K by lia. exact K.
Qed.

Lemma C131_float_lemma : forall size s k e b N bg ords rnd ids c0 init n, Forall (fun m => 1 <= m <= 2 ^ 20) size -> fl_square size s -> Forall (fun m => ~ falls_short m m) size -> hex_diagonal (length size) k e ->
  (length size = 2%nat /\ PseudoHexagonalNeighborhoodBuilder2D FA = Ok b \/ length size = 3%nat /\ PseudoHexagonalNeighborhoodBuilder3D FA = Ok b) -> growth_nbhood FA s (Some b) = Ok N ->
  (forall t, legal (ords t)) -> (forall t l, length l = hex_members (length size) -> o_choice (ords t) l = k) -> Permutation ids (map s_id (sites s None)) -> phased ids init ->
  (exists o, run_sync (growth_controller N bg ords rnd) c0 init n = Ok o /\ rlen (o_result o) = Z.max 0 n + 1 /\
     forall t, 0 <= t <= Z.max 0 n -> exists st, get_step (o_result o) t = Ok st /\
       forall p i, length p = length size -> fl_cell size s p i -> (occupied bg st i <-> exists d j, length d = length size /\ hex_within e t d /\ fl_cell size s (shift p d) j /\ occupied bg init j)) /\
  (forall q sched, 1 <= q -> exists o, run_parallel (growth_controller N bg ords rnd) q sched c0 init n = Ok o /\ rlen (o_result o) = Z.max 0 n + 1 /\
     forall t, 0 <= t <= Z.max 0 n -> exists st, get_step (o_result o) t = Ok st /\
       forall p i, length p = length size -> fl_cell size s p i -> (occupied bg st i <-> exists d j, length d = length size /\ hex_within e t d /\ fl_cell size s (shift p d) j /\ occupied bg init j)).
Proof.
  intros size s k e b N bg ords rnd ids c0 init n Hk FS NF HE HB EN LO CH PI PH. unfold growth_nbhood in EN. cbn [bind] in EN. change (2 ^ 20) with M20 in Hk.
  destruct HB as [[L Eb]|[L Eb]]; destruct HE as [[L' HE]|[L' HE]]; try congruence; unfold hex_members in CH; rewrite L in CH; cbn [Nat.eqb] in CH.
  - assert (ST : forall M d, In M hex2_motifs -> In d M -> length d = length size /\ within_moore 1 d).
    { rewrite L. clear. intros M d HM HD. unfold hex2_motifs, In in HM. destruct HM as [<-|[<-|[]]]; unfold In in HD; repeat (destruct HD as [<-|HD]; [split; [reflexivity|repeat constructor; lia]|]); destruct HD. }
    destruct k as [|[|[|k]]]; cbn [nth_error] in HE; try discriminate; injection HE as <-; (match type of CH with forall t l, _ -> _ = ?k => refine (fl_hex_grow size s hex2_motifs k _ _ b N bg ords rnd ids c0 init n Hk FS NF _ ST eq_refl _ Eb EN LO CH PI PH) end; [now rewrite L|]); rewrite L; clear; shape2.
  - assert (ST : forall M d, In M hex3_motifs -> In d M -> length d = length size /\ within_moore 1 d).
    { rewrite L. clear. intros M d HM HD. unfold hex3_motifs, hex3_common, In in HM. destruct HM as [<-|[<-|[<-|[<-|[]]]]]; unfold In, app in HD; repeat (destruct HD as [<-|HD]; [split; [reflexivity|repeat constructor; lia]|]); destruct HD. }
    destruct k as [|[|[|[|[|k]]]]]; cbn [nth_error] in HE; try discriminate; injection HE as <-; (match type of CH with forall t l, _ -> _ = ?k => refine (fl_hex_grow size s hex3_motifs k _ _ b N bg ords rnd ids c0 init n Hk FS NF _ ST eq_refl _ Eb EN LO CH PI PH) end; [now rewrite L|]); rewrite L; clear; unfold hex3_common; shape3.
Qed.
