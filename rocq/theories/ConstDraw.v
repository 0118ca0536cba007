(** Growth when the draws always pick the same member: the member alone decides, and the
    pseudo-hexagonal neighbourhoods give hexagons. *)
From Coq Require Import Reals Permutation.
From Verif Require Import Prelude Dict Val ValFacts Arith RVec RealArith LatticeModel JsonModel StructModel StateModel ResultModel RunnerModel NbModel GridModel SimModel SetupModel RulesModel
  SpecGeom SpecNb SpecGrid LatticeFacts LatticeMore StructFacts StructMore StructBuild NbFacts NbMore NbDemo GridFacts GridMore GridNb NbShapes
  SpecRules SpecVisit GrowBall SpecSame SameRuns SpecHex.
Local Open Scope Z_scope.

Lemma pick_same {F} (o : @nb_oracle F) l k M i : o_choice o l = k -> nth_error l k = Some M -> neighbors_of o (NStochastic l) i = neighbors_of o M i.
Proof.
  intros EK EM. cbn [neighbors_of]. rewrite EK. revert EM. generalize k. clear.
  induction l as [|x l IH]; intros [|k] E; try discriminate; simpl in E; [injection E as <-; auto|]. apply (IH k E).
Qed.

Lemma C130_constant_lemma : forall F (l : list (nbhood F)) k M bg ords rnd c0 init n, nth_error l k = Some M -> (forall t, o_choice (ords t) l = k) ->
  run_sync (growth_controller (NStochastic l) bg ords rnd) c0 init n = run_sync (growth_controller M bg ords rnd) c0 init n /\
  run_async (growth_controller (NStochastic l) bg ords rnd) c0 init n = run_async (growth_controller M bg ords rnd) c0 init n /\
  forall p sched, run_parallel (growth_controller (NStochastic l) bg ords rnd) p sched c0 init n = run_parallel (growth_controller M bg ords rnd) p sched c0 init n.
Proof.
  intros F l k M bg ords rnd c0 init n HM HC.
  assert (U : forall c i st, growth_update (NStochastic l) bg ords c i st = growth_update M bg ords c i st).
  { intros c i st. unfold growth_update. destruct (occupancy_of st i) as [v|e]; [|reflexivity]. cbn [bind]. destruct (val_eqb v (VStr bg)); [|reflexivity].
    replace (neighbors_of_key (ords c) (NStochastic l) i) with (neighbors_of_key (ords c) M i); [reflexivity|].
    unfold neighbors_of_key. destruct i as [i|i]; [|reflexivity]. symmetry. apply (pick_same (ords c) l k M i (HC c) HM). }
  apply (C130_same_lemma nat nat eq); [|reflexivity]. split.
  - intros c c' st <-. reflexivity.
  - intros c c' st <-. cbn [c_random_site growth_controller]. destruct (basic_random_site rnd c st) as [[v d]|e]; cbn; auto.
  - intros c c' i st <-. cbn [c_update growth_controller]. rewrite U. destruct (growth_update M bg ords c i st) as [[v d]|e]; cbn; auto.
Qed.

(** Hexagons are balls. *)
Definition scale (m : Z) (e : list Z) : list Z := map (fun a => m * a) e.
Lemma shift_scale d e m : length d = length e -> shift (shift d (map (fun a => - m * a) e)) (scale m e) = d.
Proof. unfold shift, scale. revert e; induction d as [|a d IH]; intros [|b e] L; try discriminate; auto. cbn [map zipwith]. f_equal; [lia|apply IH; simpl in L; lia]. Qed.
Lemma shift_assoc a b c : length a = length b -> length b = length c -> shift (shift a b) c = shift a (shift b c).
Proof. unfold shift. revert b c; induction a as [|x a IH]; intros [|y b] [|z c] L1 L2; try discriminate; auto. cbn [zipwith]. f_equal; [lia|apply IH; simpl in *; lia]. Qed.
Lemma shift_comm a b : length a = length b -> shift a b = shift b a.
Proof. unfold shift. revert b; induction a as [|x a IH]; intros [|y b] L; try discriminate; auto. cbn [zipwith]. f_equal; [lia|apply IH; simpl in *; lia]. Qed.
Lemma scale_length m e : length (scale m e) = length e.
Proof. apply map_length. Qed.
Lemma opp_scale m e : map (fun a => - m * a) e = scale (- m) e.
Proof. reflexivity. Qed.
Lemma scale_sum m p e : shift (scale m e) (scale p e) = scale (m + p) e.
Proof. unfold shift, scale. induction e as [|a e IH]; simpl; auto. f_equal; [lia|exact IH]. Qed.
Lemma scale_zero d e : length d = length e -> shift d (scale 0 e) = d.
Proof. unfold shift, scale. revert e; induction d as [|a d IH]; intros [|b e] L; try discriminate; auto. cbn [map zipwith]. f_equal; [lia|apply IH; simpl in L; lia]. Qed.
Lemma l1_zero d : l1 d <= 0 -> Forall (fun a => a = 0) d.
Proof. induction d as [|a d IH]; constructor; unfold l1 in *; cbn [fold_right] in H; pose proof (l1_nonneg d); unfold l1 in *; [lia|apply IH; lia]. Qed.
Lemma zero_l1 d : Forall (fun a => a = 0) d -> l1 d = 0.
Proof. induction 1 as [|a d -> H IH]; unfold l1 in *; simpl; lia. Qed.

Lemma l1_scale g e : length g = length e -> l1 g <= 0 -> g = scale 0 e.
Proof.
  intros L Z. apply l1_zero in Z. unfold scale. revert g Z L; induction e as [|a e IH]; intros [|b g] Z L; try discriminate; auto. inversion Z as [|? ? HB Z']; subst.
  change (0 :: g = 0 :: map (fun a => 0 * a) e). f_equal. apply IH; auto.
Qed.

Lemma hex_iff e k d : length d = length e -> (hex_within e k d <-> exists m g, length g = length e /\ Z.abs m + l1 g <= k /\ d = shift (scale m e) g).
Proof.
  intros L. unfold hex_within. split.
  - intros [m H]. exists m, (shift d (map (fun a => - m * a) e)). split; [rewrite shift_length; rewrite ?map_length; congruence|]. split; [exact H|].
    rewrite shift_comm by (rewrite scale_length, shift_length; rewrite ?map_length; congruence). symmetry. now apply shift_scale.
  - intros (m & g & Lg & H & ->). exists m. fold (l1 (shift (shift (scale m e) g) (map (fun a => - m * a) e))). rewrite opp_scale.
    rewrite (shift_comm (scale m e) g) by (rewrite scale_length; congruence). rewrite shift_assoc by (rewrite !scale_length; congruence).
    rewrite scale_sum, Z.add_opp_diag_r, scale_zero by congruence. exact H.
Qed.

Lemma hex_balls e : balls (length e) (fun k => hex_within e (Z.of_nat k)).
Proof.
  split.
  - intros d Ld. rewrite hex_iff by auto. split.
    + intros (m & g & Lg & H & ->). pose proof (l1_nonneg g). assert (m = 0) by lia. subst m. rewrite shift_comm, scale_zero by (rewrite ?scale_length; congruence). apply l1_zero. lia.
    + intros H. exists 0, d. split; auto. split; [rewrite (zero_l1 d H); reflexivity|]. rewrite shift_comm, scale_zero by (rewrite ?scale_length; congruence). reflexivity.
  - intros k d Ld H. apply hex_iff in H; auto. destruct H as (m & g & Lg & H & ->). destruct (Z.eq_dec m 0) as [->|NM].
    + destruct (take1_facts g 1 ltac:(lia)) as (f & Lf & L1 & L2 & E). exists (take1 1 g), f. rewrite take1_length. split; auto. split; [congruence|]. split; [|split].
      * apply hex_iff; [now rewrite take1_length|]. exists 0, (take1 1 g). rewrite take1_length. split; auto. split; [lia|]. rewrite shift_comm, scale_zero by (rewrite ?scale_length, ?take1_length; congruence). reflexivity.
      * apply hex_iff; [congruence|]. exists 0, f. split; [congruence|]. split; [lia|]. rewrite shift_comm, scale_zero by (rewrite ?scale_length; congruence). reflexivity.
      * rewrite shift_comm, scale_zero by (rewrite ?scale_length; congruence). exact E.
    + exists (scale (Z.sgn m) e), (shift (scale (m - Z.sgn m) e) g). rewrite scale_length, shift_length, scale_length by (rewrite ?scale_length; congruence). split; auto. split; auto. split; [|split].
      * apply hex_iff; [apply scale_length|]. exists (Z.sgn m), (scale 0 e). rewrite scale_length. split; auto. split.
        -- rewrite zero_l1; [lia|]. unfold scale. rewrite Forall_map. apply Forall_forall. intros; lia.
        -- rewrite scale_sum. f_equal. lia.
      * apply hex_iff; [rewrite shift_length, scale_length; rewrite ?scale_length; congruence|]. exists (m - Z.sgn m), g. split; auto. split; [lia|reflexivity].
      * rewrite <- shift_assoc by (rewrite !scale_length; congruence). rewrite scale_sum. do 2 f_equal. lia.
  - intros k d f Ld Lf Hd Hf. apply hex_iff in Hd; auto. apply hex_iff in Hf; auto. destruct Hd as (m & g & Lg & H & ->), Hf as (m' & g' & Lg' & H' & ->).
    apply hex_iff; [rewrite shift_length; rewrite ?shift_length, ?scale_length; rewrite ?scale_length; congruence|]. exists (m + m'), (shift g g'). split; [rewrite shift_length; congruence|].
    split; [pose proof (l1_shift g g' ltac:(congruence)); lia|]. rewrite <- scale_sum.
    assert (forall a b c d : list Z, length a = length b -> length b = length c -> length c = length d -> shift (shift a b) (shift c d) = shift (shift a c) (shift b d)) as SW.
    { clear. unfold shift. induction a as [|x a IH]; intros [|y b] [|z c] [|w d] L1 L2 L3; try discriminate; auto. cbn [zipwith]. f_equal; [lia|apply IH; simpl in *; lia]. }
    apply SW; rewrite ?scale_length; congruence.
  - intros k d Ld [m H]. exists m. lia.
Qed.

Lemma hex_one e d : length d = length e -> (hex_within e 1 d <-> hexagonal e d).
Proof.
  intros L. rewrite hex_iff by auto. unfold hexagonal, within_vn. fold (l1 d). split.
  - intros (m & g & Lg & H & ->). pose proof (l1_nonneg g) as G. assert (m = 0 \/ l1 g <= 0 /\ (m = 1 \/ m = -1)) as [->|[Z [->| ->]]] by lia.
    + left. rewrite shift_comm, scale_zero by (rewrite ?scale_length; congruence). lia.
    + right; left. rewrite (l1_scale g e Lg Z).
      rewrite scale_sum. unfold scale. rewrite <- (map_id e) at 2. apply map_ext. intros; lia.
    + right; right. rewrite (l1_scale g e Lg Z).
      rewrite scale_sum. unfold scale. apply map_ext. intros; lia.
  - assert (Z0 : l1 (scale 0 e) = 0) by (apply zero_l1; unfold scale; rewrite Forall_map; apply Forall_forall; intros; lia).
    intros [H|[->| ->]].
    + exists 0, d. split; auto. split; [lia|]. rewrite shift_comm, scale_zero by (rewrite ?scale_length; congruence). reflexivity.
    + exists 1, (scale 0 e). rewrite scale_length, Z0, scale_sum. split; auto. split; [lia|]. unfold scale. rewrite <- (map_id e) at 1. apply map_ext. intros; lia.
    + exists (-1), (scale 0 e). rewrite scale_length, Z0, scale_sum. split; auto. split; [lia|]. unfold scale. apply map_ext. intros; lia.
Qed.

(** The members of a stochastic neighbourhood of motifs. *)
Lemma stochastic_member size s motifs k D b N : square_grid size s -> Forall (Forall (fun d => length d = length size)) motifs -> nth_error motifs k = Some D ->
  stochastic_motifs RA motifs = Ok b -> nb_get RA b s None = Ok N ->
  exists l M, N = NStochastic l /\ length l = length motifs /\ nth_error l k = Some M /\
    forall x i, length x = length size -> cell s x i -> neighbours M i (fun j => j <> i /\ exists d, In d D /\ cell s (shift x d) j).
Proof.
  intros SG FM HD Eb EN. destruct (square_facts size s SG) as [L G]. unfold stochastic_motifs in Eb. apply bind_Ok in Eb as (bs & Ebs & Eb). injection Eb as <-.
  assert (LB : forall l bs, mapM (fun m => motif_builder RA (map (nums RA) m)) l = Ok bs -> length bs = length l /\ forall k D, nth_error l k = Some D -> exists b, nth_error bs k = Some b /\ motif_builder RA (map (nums RA) D) = Ok b).
  { clear. induction l as [|a l IH]; intros bs E; cbn [mapM] in E.
    - injection E as <-. split; auto. intros [|k]; discriminate.
    - apply bind_Ok in E as (y & Ey & E). apply bind_Ok in E as (t & Et & E). injection E as <-. destruct (IH t Et) as [H1 H2].
      split; [simpl; auto|]. intros [|k] z Hk; simpl in *; [injection Hk as <-; eauto|eauto]. }
  destruct (LB motifs bs Ebs) as [LBS NBS]. destruct (stochastic_index RA s bs N EN) as (l & -> & LL & GI & _).
  destruct (NBS k D HD) as (b & Hb & Eb). destruct (GI k b Hb) as (M & HM & EM). exists l, M. split; auto. split; [congruence|]. split; auto.
  rewrite Forall_forall in FM. destruct (grid_motif size s L D G (FM D (nth_error_In _ _ HD))) as (b' & M' & Eb' & EM' & H). rewrite Eb in Eb'. injection Eb' as <-. rewrite EM in EM'. injection EM' as <-. exact H.
Qed.

Lemma member_torus size s (shape : list Z -> Prop) D M : square_grid size s -> Forall (fun d => length d = length size) D ->
  (forall d, length d = length size -> (shape d <-> In d D \/ forallb (Z.eqb 0) d = true)) ->
  (forall x i, length x = length size -> cell s x i -> neighbours M i (fun j => j <> i /\ exists d, In d D /\ cell s (shift x d) j)) -> torus_nb size s shape M.
Proof.
  intros SG FD SE HN x i Lx Cx o LO. destruct (HN x i Lx Cx o LO) as (l0 & El & ND & IN). exists l0. split; auto. split; auto.
  intros j. rewrite IN. rewrite Forall_forall in FD. split; intros (NJ & d & H); (split; [exact NJ|]).
  - destruct H as [Hd Cd]. exists d. split; [auto|]. split; auto. apply SE; auto.
  - destruct H as (Ld & Sd & Cd). apply SE in Sd as [Hd|Zd]; auto; [eauto|]. exfalso. apply NJ. rewrite shift_zeros in Cd by congruence.
    unfold cell in Cx, Cd. congruence.
Qed.

Lemma hex_grow size s motifs k D e b N bg ords rnd ids c0 init n : square_grid size s -> length e = length size -> Forall (Forall (fun d => length d = length size)) motifs -> nth_error motifs k = Some D ->
  (forall d, length d = length size -> (hexagonal e d <-> In d D \/ forallb (Z.eqb 0) d = true)) ->
  stochastic_motifs RA motifs = Ok b -> nb_get RA b s None = Ok N -> (forall t, legal (ords t)) -> (forall t l, length l = length motifs -> o_choice (ords t) l = k) ->
  Permutation ids (map s_id (sites s None)) -> phased ids init ->
  (exists o, run_sync (growth_controller N bg ords rnd) c0 init n = Ok o /\ rlen (o_result o) = Z.max 0 n + 1 /\
     forall t, 0 <= t <= Z.max 0 n -> exists st, get_step (o_result o) t = Ok st /\
       forall p i, length p = length size -> cell s p i -> (occupied bg st i <-> exists d j, length d = length size /\ hex_within e t d /\ cell s (shift p d) j /\ occupied bg init j)) /\
  (forall q sched, 1 <= q -> exists o, run_parallel (growth_controller N bg ords rnd) q sched c0 init n = Ok o /\ rlen (o_result o) = Z.max 0 n + 1 /\
     forall t, 0 <= t <= Z.max 0 n -> exists st, get_step (o_result o) t = Ok st /\
       forall p i, length p = length size -> cell s p i -> (occupied bg st i <-> exists d j, length d = length size /\ hex_within e t d /\ cell s (shift p d) j /\ occupied bg init j)).
Proof.
  intros SG Le FM HD SE Eb EN LO CH PI PH. destruct (stochastic_member size s motifs k D b N SG FM HD Eb EN) as (l & M & -> & LL & HM & NB).
  pose proof FM as FM'. rewrite Forall_forall in FM'. specialize (FM' D (nth_error_In _ _ HD)).
  pose proof (member_torus size s (hexagonal e) D M SG FM' SE NB) as T.
  assert (T1 : torus_nb size s (hex_within e (Z.of_nat 1)) M).
  { intros x i Lx Cx o Lo. destruct (T x i Lx Cx o Lo) as (l0 & E0 & ND & IN). exists l0. split; auto. split; auto. intros j. rewrite IN.
    split; intros (NJ & d & Ld & H & Cd); (split; [exact NJ|]); exists d; (split; [exact Ld|]); (split; [|exact Cd]); apply (hex_one e d ltac:(congruence)); exact H. }
  pose proof (hex_balls e) as BB. rewrite Le in BB.
  destruct (C130_constant_lemma R l k M bg ords rnd c0 init n HM (fun t => CH t l LL)) as (S1 & _ & S3).
  destruct (torus_ball size s (fun k => hex_within e (Z.of_nat k)) M bg ords rnd ids c0 init n SG BB T1 LO PI PH) as [(o & E & RL & H) PAR]. split.
  - exists o. rewrite S1. split; auto. split; auto. intros t Ht. destruct (H t Ht) as (st & Es & K). exists st. split; auto. rewrite Z2Nat.id in K by lia. exact K.
  - intros q sched Hq. destruct (PAR q sched Hq) as (op & Ep & RLp & HP). exists op. rewrite S3. split; auto. split; auto. intros t Ht. destruct (HP t Ht) as (st & Es & K). exists st. split; auto. rewrite Z2Nat.id in K by lia. exact K.
Qed.

Lemma C131_hexagon_lemma : forall size s k e b N bg ords rnd ids c0 init n, square_grid size s -> hex_diagonal (length size) k e ->
  (length size = 2%nat /\ PseudoHexagonalNeighborhoodBuilder2D RA = Ok b \/ length size = 3%nat /\ PseudoHexagonalNeighborhoodBuilder3D RA = Ok b) -> growth_nbhood RA s (Some b) = Ok N ->
  (forall t, legal (ords t)) -> (forall t l, length l = hex_members (length size) -> o_choice (ords t) l = k) -> Permutation ids (map s_id (sites s None)) -> phased ids init ->
  (exists o, run_sync (growth_controller N bg ords rnd) c0 init n = Ok o /\ rlen (o_result o) = Z.max 0 n + 1 /\
     forall t, 0 <= t <= Z.max 0 n -> exists st, get_step (o_result o) t = Ok st /\
       forall p i, length p = length size -> cell s p i -> (occupied bg st i <-> exists d j, length d = length size /\ hex_within e t d /\ cell s (shift p d) j /\ occupied bg init j)) /\
  (forall q sched, 1 <= q -> exists o, run_parallel (growth_controller N bg ords rnd) q sched c0 init n = Ok o /\ rlen (o_result o) = Z.max 0 n + 1 /\
     forall t, 0 <= t <= Z.max 0 n -> exists st, get_step (o_result o) t = Ok st /\
       forall p i, length p = length size -> cell s p i -> (occupied bg st i <-> exists d j, length d = length size /\ hex_within e t d /\ cell s (shift p d) j /\ occupied bg init j)).
Proof.
  intros size s k e b N bg ords rnd ids c0 init n SG HE HB EN LO CH PI PH. unfold growth_nbhood in EN. cbn [bind] in EN.
  destruct HB as [[L Eb]|[L Eb]]; destruct HE as [[L' HE]|[L' HE]]; try congruence; unfold hex_members in CH; rewrite L in CH; cbn [Nat.eqb] in CH.
  - destruct k as [|[|[|k]]]; cbn [nth_error] in HE; try discriminate; injection HE as <-; (match type of CH with forall t l, _ -> _ = ?k => refine (hex_grow size s hex2_motifs k _ _ b N bg ords rnd ids c0 init n SG _ _ eq_refl _ Eb EN LO CH PI PH) end; [now rewrite L|rewrite L; repeat constructor|]); rewrite L; clear; shape2.
  - destruct k as [|[|[|[|[|k]]]]]; cbn [nth_error] in HE; try discriminate; injection HE as <-; (match type of CH with forall t l, _ -> _ = ?k => refine (hex_grow size s hex3_motifs k _ _ b N bg ords rnd ids c0 init n SG _ _ eq_refl _ Eb EN LO CH PI PH) end; [now rewrite L|rewrite L; repeat constructor|]); rewrite L; clear; unfold hex3_common; shape3.
Qed.

(** In the plane the hexagons are the familiar ones. *)
Lemma hex_plane t x y : (hex_within [1; 1] t [x; y] <-> Z.abs x <= t /\ Z.abs y <= t /\ Z.abs (x - y) <= t) /\
  (hex_within [-1; 1] t [x; y] <-> Z.abs x <= t /\ Z.abs y <= t /\ Z.abs (x + y) <= t).
Proof.
  unfold hex_within, shift. cbn [zipwith map fold_right]. split; split.
  - intros [m H]. lia.
  - intros H. exists (if (0 <=? x) && (0 <=? y) then Z.min x y else if (x <=? 0) && (y <=? 0) then Z.max x y else 0).
    destruct (0 <=? x) eqn:A, (0 <=? y) eqn:B, (x <=? 0) eqn:C, (y <=? 0) eqn:D; cbn [andb]; lia.
  - intros [m H]. lia.
  - intros H. exists (if (x <=? 0) && (0 <=? y) then Z.min (- x) y else if (0 <=? x) && (y <=? 0) then Z.max (- x) y else 0).
    destruct (0 <=? x) eqn:A, (0 <=? y) eqn:B, (x <=? 0) eqn:C, (y <=? 0) eqn:D; cbn [andb]; lia.
Qed.

Lemma C131_plane_lemma : forall size s k e b N bg ords rnd ids c0 init n, square_grid size s -> length size = 2%nat -> (k = 0%nat /\ e = -1 \/ k = 1%nat /\ e = 1) ->
  PseudoHexagonalNeighborhoodBuilder2D RA = Ok b -> growth_nbhood RA s (Some b) = Ok N ->
  (forall t, legal (ords t)) -> (forall t l, length l = 2%nat -> o_choice (ords t) l = k) -> Permutation ids (map s_id (sites s None)) -> phased ids init ->
  exists o, run_sync (growth_controller N bg ords rnd) c0 init n = Ok o /\
     forall t, 0 <= t <= Z.max 0 n -> exists st, get_step (o_result o) t = Ok st /\
       forall a b i, cell s [a; b] i ->
         (occupied bg st i <-> exists x y j, Z.abs x <= t /\ Z.abs y <= t /\ Z.abs (x + e * y) <= t /\ cell s [a + x; b + y] j /\ occupied bg init j).
Proof.
  intros size s k e b N bg ords rnd ids c0 init n SG L HK Eb EN LO CH PI PH.
  assert (exists E, hex_diagonal (length size) k E /\ forall t x y, hex_within E t [x; y] <-> Z.abs x <= t /\ Z.abs y <= t /\ Z.abs (x + e * y) <= t) as (E & HE & EQ).
  { destruct HK as [[-> ->]|[-> ->]]; [exists [1; 1]|exists [-1; 1]]; (split; [left; auto|]); intros t x y; destruct (hex_plane t x y) as [H1 H2]; [rewrite H1|rewrite H2]; intuition lia. }
  destruct (C131_hexagon_lemma size s k E b N bg ords rnd ids c0 init n SG HE (or_introl (conj L Eb)) EN LO ltac:(rewrite L; exact CH) PI PH) as [(o & Eo & _ & H) _].
  exists o. split; auto. intros t Ht. destruct (H t Ht) as (st & Es & K). exists st. split; auto. intros a c i Ci. rewrite (K [a; c] i) by auto. split.
  - intros (d & j & Ld & Hd & Cj & Oj). rewrite L in Ld. destruct d as [|x [|y [|]]]; try discriminate. apply EQ in Hd. exists x, y, j. tauto.
  - intros (x & y & j & H1 & H2 & H3 & Cj & Oj). exists [x; y], j. rewrite L. split; auto. split; [apply EQ; tauto|]. auto.
Qed.
