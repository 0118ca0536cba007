(** Phase fractions in binary64 (C103). *)
From Coq Require Import Reals Lra Psatz Permutation.
From Flocq Require Import Core BinarySingleNaN.
From Verif Require Import Prelude Dict Val Arith RealArith FloatArith LatticeModel StructModel StateModel ResultModel AnalyzerModel HashFacts
  SpecState SpecResult SpecAnalyze SpecFloat64 StateFacts ResultFacts AnalyzerFacts AnalyzerMore FloatFacts FloatPer.
Local Open Scope Z_scope.

(** ** Quotients of counts *)
Lemma quotient a b : 0 <= a < 2 ^ 53 -> 0 < b < 2 ^ 53 -> denotes (f_div (f_ofZ a) (f_ofZ b)) (rnd (IZR a / IZR b)).
Proof.
  intros Ha Hb. apply denotes_div; try (apply denotes_ofZ; lia); [apply not_0_IZR; lia|].
  apply Rle_trans with (IZR (2 ^ 100)); [|apply big_large]. assert (B : (0 < IZR b)%R) by (apply IZR_lt; lia). assert (B1 : (1 <= IZR b)%R) by (apply (IZR_le 1); lia). assert (A : (0 <= IZR a)%R) by (apply IZR_le; lia).
  assert (Q : (0 <= IZR a / IZR b <= IZR a)%R).
  { split; [apply Rmult_le_pos; [exact A|left; now apply Rinv_0_lt_compat]|]. unfold Rdiv. rewrite <- (Rmult_1_r (IZR a)) at 2. apply Rmult_le_compat_l; auto. rewrite <- Rinv_1. apply Rinv_le; lra. }
  rewrite Rabs_right by lra. apply Rle_trans with (IZR a); [lra|]. apply IZR_le. lia.
Qed.
Lemma part_pos a b : 0 <= a <= b -> 0 < b -> (0 <= IZR a / IZR b <= 1)%R.
Proof.
  intros Ha Hb. assert (B : (0 < IZR b)%R) by (apply IZR_lt; lia). split; [apply Rmult_le_pos; [apply IZR_le; lia|left; now apply Rinv_0_lt_compat]|].
  apply (Rmult_le_reg_r (IZR b)); auto. unfold Rdiv. rewrite Rmult_assoc, Rinv_l by lra. rewrite Rmult_1_r, Rmult_1_l. apply IZR_le. lia.
Qed.
Lemma part_close a b : 0 <= a <= b -> 0 < b -> (Rabs (rnd (IZR a / IZR b) - IZR a / IZR b) <= tiny)%R.
Proof.
  intros Ha Hb. pose proof (part_pos a b Ha Hb) as P. destruct (Rle_lt_or_eq_dec _ _ (proj2 P)) as [L|E]; [apply rnd_unit; lra|].
  rewrite E. rewrite (rnd_IZR 1) by lia. rewrite Rminus_diag_eq by reflexivity. rewrite Rabs_R0. unfold tiny. lra.
Qed.
Lemma apart a a' b : 0 <= a < a' -> a' <= b -> 0 < b < 2 ^ 53 -> (rnd (IZR a / IZR b) < rnd (IZR a' / IZR b))%R.
Proof.
  intros Ha Ha' Hb. pose proof (part_close a b ltac:(lia) ltac:(lia)) as C. pose proof (part_close a' b ltac:(lia) ltac:(lia)) as C'.
  assert (B : (0 < IZR b)%R) by (apply IZR_lt; lia). assert (I : (2 * tiny < / IZR b)%R).
  { unfold tiny. apply (Rmult_lt_reg_r (IZR b)); auto. rewrite Rinv_l by lra. assert (U : (IZR b < IZR (2 ^ 53))%R) by (apply IZR_lt; lia). simpl in U |- *. lra. }
  assert (D : (IZR a / IZR b + / IZR b <= IZR a' / IZR b)%R).
  { unfold Rdiv. assert (S : (IZR a + 1 <= IZR a')%R) by (rewrite <- plus_IZR; apply IZR_le; lia). apply (Rmult_le_compat_r (/ IZR b)) in S; [lra|]. left. now apply Rinv_0_lt_compat. }
  apply Rabs_le_inv in C, C'. lra.
Qed.
Lemma rnd_part a b : 0 <= a <= b -> 0 < b < 2 ^ 53 -> (0 <= rnd (IZR a / IZR b) <= 1)%R /\ (rnd (IZR a / IZR b) = 0%R <-> a = 0) /\ (rnd (IZR a / IZR b) = 1%R <-> a = b).
Proof.
  intros Ha Hb. assert (B : (IZR b <> 0)%R) by (apply not_0_IZR; lia). pose proof (part_pos a b Ha ltac:(lia)) as P.
  assert (Z0 : rnd (IZR 0 / IZR b) = 0%R) by (unfold Rdiv; rewrite Rmult_0_l; apply rnd_0). assert (Z1 : rnd (IZR b / IZR b) = 1%R) by (unfold Rdiv; rewrite Rinv_r by auto; now apply (rnd_IZR 1)).
  split; [|split].
  - split; [rewrite <- rnd_0; apply rnd_le; lra|]. rewrite <- (rnd_IZR 1) by lia. apply rnd_le. lra.
  - split; [|intros ->; exact Z0]. intros E. destruct (Z.eq_dec a 0); auto. pose proof (apart 0 a b ltac:(lia) ltac:(lia) Hb). lra.
  - split; [|intros ->; exact Z1]. intros E. destruct (Z.eq_dec a b); auto. pose proof (apart a b b ltac:(lia) ltac:(lia) Hb). lra.
Qed.

Lemma occ_size st p : discrete st -> 0 <= occurrences st p <= size st.
Proof.
  intros DI. pose proof (proj1 (sum_all st DI [p] (NoDup_cons _ (in_nil (a := p)) (NoDup_nil _)))) as H. cbn [map zsum] in H. unfold zsum in H. cbn in H. pose proof (occ_nonneg st p). lia.
Qed.

(** ** Maximum and threshold *)
Lemma max_fl (v : b64) m : denotes v m -> forall t x, is_finite x = true -> (forall y, In y t -> is_finite y = true) ->
  exists M, list_max FA (x :: t) = Ok M /\ a_ltb FA v M = existsb (a_ltb FA v) (x :: t).
Proof.
  intros Dv. assert (LT : forall a b, is_finite a = true -> is_finite b = true -> a_ltb FA a b = Rlt_bool (B2R a) (B2R b)) by (intros; apply denotes_ltb; split; auto).
  induction t as [|y t IH]; intros x Fx Ft.
  - exists x. split; [reflexivity|]. cbn [existsb]. now rewrite orb_false_r.
  - assert (Fy : is_finite y = true) by (apply Ft; simpl; auto). assert (Ft' : forall z, In z t -> is_finite z = true) by (intros; apply Ft; simpl; auto).
    pose proof (LT x y Fx Fy) as Lxy. destruct (a_ltb FA x y) eqn:E.
    + destruct (IH y Fy Ft') as (M & EM & HM). exists M. split; [cbn [list_max fold_left] in *; rewrite E; exact EM|]. rewrite HM. cbn [existsb]. destruct (a_ltb FA v x) eqn:Vx; [|reflexivity].
      rewrite (LT v x (proj1 Dv) Fx) in Vx. assert (Vy : a_ltb FA v y = true); [|now rewrite Vy]. rewrite (LT v y (proj1 Dv) Fy). revert Vx Lxy. repeat case Rlt_bool_spec; intros; auto; try discriminate; lra.
    + destruct (IH x Fx Ft') as (M & EM & HM). exists M. split; [cbn [list_max fold_left] in *; rewrite E; exact EM|]. rewrite HM. cbn [existsb]. destruct (a_ltb FA v y) eqn:Vy; [|reflexivity].
      rewrite (LT v y (proj1 Dv) Fy) in Vy. assert (Vx : a_ltb FA v x = true); [|now rewrite Vx]. rewrite (LT v x (proj1 Dv) Fx). revert Vy Lxy. repeat case Rlt_bool_spec; intros; auto; try discriminate; lra.
Qed.

(** * Interface *)
Lemma C103_lemma : forall F (so : option (structure F)) st p, discrete st -> suits so st -> 0 < size st < 2 ^ 53 ->
  exists x, cell_fraction so FA st p = Ok x /\ denotes x (rnd (IZR (occurrences st p) / IZR (size st))) /\
    (0 <= B2R x <= 1)%R /\ (Rabs (B2R x - IZR (occurrences st p) / IZR (size st)) <= / IZR (2 ^ 54))%R /\
    (B2R x = 0%R <-> ~ present st p) /\
    (B2R x = 1%R <-> forall k, In k (site_ids st) -> site_entry st k (KStr "DISCRETE_OCCUPANCY") = Some p).
Proof.
  intros F so st p DI SU HS. pose proof (occ_size st p DI) as OS. exists (f_div (f_ofZ (occurrences st p)) (f_ofZ (size st))).
  pose proof (quotient (occurrences st p) (size st) ltac:(lia) HS) as D. destruct (rnd_part (occurrences st p) (size st) OS HS) as (B & E0 & E1).
  split; [rewrite fraction_gen by auto; rewrite (proj2 (Z.eqb_neq _ _)) by lia; reflexivity|]. split; [exact D|]. rewrite (proj2 D). split; [exact B|]. split; [apply part_close; lia|]. split.
  - rewrite E0, <- (occ_pos st DI). lia.
  - rewrite E1. unfold occurrences. rewrite size_ids. split.
    + intros E k Hk. apply (phase_val st DI k p Hk). apply Nat2Z.inj in E. destruct (has_phase st p k) eqn:Hp; auto. exfalso. clear -E Hk Hp. 
      assert (LE : forall l, (length (filter (has_phase st p) l) <= length l)%nat) by (induction l as [|a l IHl]; cbn; auto; destruct (has_phase st p a); cbn; lia).
      induction (site_ids st) as [|a l IH]; [destruct Hk|]. cbn [filter length] in E. destruct Hk as [->|Hk].
      * rewrite Hp in E. pose proof (LE l). lia.
      * destruct (has_phase st p a); [cbn [length] in E; apply IH; auto; lia|]. pose proof (LE l). lia.
    + intros H. f_equal. f_equal. assert (H' : forall k, In k (site_ids st) -> has_phase st p k = true) by (intros k Hk; apply (phase_val st DI k p Hk); auto). clear -H'. induction (site_ids st) as [|a l IH]; [reflexivity|]. cbn [filter].
      rewrite (H' a) by (simpl; auto). f_equal. apply IH. intros; apply H'; simpl; auto.
Qed.

Lemma C103_order_lemma : forall F (so : option (structure F)) st p q x y, discrete st -> suits so st -> 0 < size st < 2 ^ 53 ->
  cell_fraction so FA st p = Ok x -> cell_fraction so FA st q = Ok y ->
  ((B2R x < B2R y)%R <-> occurrences st p < occurrences st q) /\ (B2R x = B2R y <-> occurrences st p = occurrences st q).
Proof.
  intros F so st p q x y DI SU HS Ex Ey. pose proof (occ_size st p DI) as OP. pose proof (occ_size st q DI) as OQ. rewrite fraction_gen in Ex, Ey by auto. rewrite (proj2 (Z.eqb_neq _ _)) in Ex, Ey by lia. injection Ex as <-. injection Ey as <-.
  pose proof (quotient (occurrences st p) (size st) ltac:(lia) HS) as [_ ->]. pose proof (quotient (occurrences st q) (size st) ltac:(lia) HS) as [_ ->].
  destruct (Z.lt_trichotomy (occurrences st p) (occurrences st q)) as [L|[E|L]].
  - pose proof (apart _ _ (size st) (conj (proj1 OP) L) (proj2 OQ) HS). split; split; intros; try lia; lra.
  - rewrite E. split; split; intros; try lia; try lra.
  - pose proof (apart _ _ (size st) (conj (proj1 OQ) L) (proj2 OP) HS). split; split; intros; try lia; lra.
Qed.

Lemma C103_sum_lemma : forall F (so : option (structure F)) st ord ps, discrete st -> suits so st -> any_order ord -> 0 < size st < 2 ^ 53 ->
  phases_present ord st = Ok ps ->
  exists fs, mapM (cell_fraction so FA st) ps = Ok fs /\ (Rabs (fold_right Rplus 0 (map B2R fs) - 1) <= IZR (Z.of_nat (length ps)) / IZR (2 ^ 54))%R.
Proof.
  intros F so st ord ps DI SU O HS EP. destruct (phases_lemma st DI ord O) as (ps' & E & ND & IP). rewrite E in EP. injection EP as EP.
  subst ps'.
  exists (map (fun p => f_div (f_ofZ (occurrences st p)) (f_ofZ (size st))) ps). split.
  - clear -HS SU DI. induction ps as [|p ps IH]; [reflexivity|]. cbn [mapM map]. rewrite fraction_gen by auto. rewrite (proj2 (Z.eqb_neq _ _)) by lia. cbn [bind]. rewrite IH. reflexivity.
  - pose proof (proj2 (proj2 (sum_all st DI ps ND)) (fun p H => proj2 (IP p) H)) as S.
    assert (S1 : (fold_right Rplus 0 (map (fun p => IZR (occurrences st p) / IZR (size st)) ps) = 1)%R) by (rewrite sum_fracs by lia; rewrite S; field; apply not_0_IZR; lia). rewrite <- S1. clear -HS SU DI.
    induction ps as [|p ps IH]; [simpl; rewrite Rminus_diag_eq by reflexivity; rewrite Rabs_R0; simpl; lra|]. pose proof (occ_size st p DI) as OP. cbn [map fold_right length].
    pose proof (quotient (occurrences st p) (size st) ltac:(lia) HS) as [_ ->]. pose proof (part_close (occurrences st p) (size st) OP ltac:(lia)) as C. unfold tiny in C. rewrite Nat2Z.inj_succ, <- Z.add_1_r, plus_IZR.
    apply Rabs_le_inv in C, IH. apply Rabs_le. unfold Rdiv in *. lra.
Qed.

Lemma C103_ratio_lemma : forall F (so : option (structure F)) st p q, discrete st -> suits so st -> size st < 2 ^ 53 ->
  (present st q -> exists x, cell_ratio so FA st p q = Ok x /\ denotes x (rnd (IZR (occurrences st p) / IZR (occurrences st q)))) /\
  (~ present st q -> cell_ratio so FA st p q = Err ZeroDivisionError).
Proof.
  intros F so st p q DI SU HS. pose proof (occ_size st p DI) as OP. pose proof (occ_size st q DI) as OQ. pose proof (occ_pos st DI q) as P. rewrite ratio_gen by auto. split; intros H.
  - apply P in H. rewrite (proj2 (Z.eqb_neq _ _)) by lia. eexists. split; [reflexivity|]. apply quotient; lia.
  - assert (E : occurrences st q = 0) by (rewrite <- P in H; lia). rewrite E. reflexivity.
Qed.

Lemma C103_final_lemma : forall init h T ord, course init (added h) T -> any_order ord ->
  let r := fold_left apply_rop h (new_result init) in let n := length (added h) in 0 < size (T n) < 2 ^ 53 ->
  exists ps fs, all_phases ord None r = Ok (ps, Some ps) /\ NoDup ps /\ (forall p, In p ps <-> exists m, (m < n)%nat /\ present (T m) p) /\
    final_phase_fractions ord FA None r = Ok fs /\ dkeys fs = ps /\
    (forall p x, hashable p = true -> dget p fs = Some x -> denotes x (rnd (IZR (occurrences (T n) p) / IZR (size (T n))))).
Proof.
  intros init h T ord CO O r n HS. destruct (fractions_gen init h T CO FA ord O (proj1 HS)) as (ps & E & ND & IP & EF). fold n r in E, IP, EF. exists ps. eexists. split; [exact E|]. split; auto. split; auto. split; [exact EF|].
  split; [unfold dkeys; rewrite map_map; apply map_id|]. intros p x HP G. apply (hget_In p) in G; [|exact HP]. apply in_map_iff in G as (q & X & _). injection X as <- <-.
  pose proof (occ_size (T n) q (proj2 (course_replay init (added h) T n CO (le_n _)))). apply quotient; lia.
Qed.

Lemma C103_plot_lemma : forall init h T ord v m, course init (added h) T -> any_order ord -> (forall n, 0 < size (T n) < 2 ^ 53) -> denotes v m ->
  let r := fold_left apply_rop h (new_result init) in
  exists r' idxs kept lines, get_steps_to_plot r = (r', Ok (idxs, map (fun i => T (Z.to_nat i)) idxs)) /\
    plot_phase_fractions FA ord None r v = (r', Ok ((0, last idxs 0), lines)) /\
    Forall2 (fun p line => fst line = (p, idxs) /\ Forall2 (fun i y => denotes y (rnd (IZR (occurrences (T (Z.to_nat i)) p) / IZR (size (T (Z.to_nat i)))))) idxs (snd line)) kept lines /\
    NoDup kept /\
    (forall p, In p kept <-> (exists n, (n < length (added h))%nat /\ present (T n) p) /\
                            exists i, In i idxs /\ (m < rnd (IZR (occurrences (T (Z.to_nat i)) p) / IZR (size (T (Z.to_nat i)))))%R).
Proof.
  intros init h T ord v m CO O HS Dv r.
  assert (DI : forall n, (n <= length (added h))%nat -> discrete (T n)) by (intros n Hn; apply (course_replay init (added h) T n CO Hn)).
  assert (Q : forall n p, (n <= length (added h))%nat -> denotes (f_div (f_ofZ (occurrences (T n) p)) (f_ofZ (size (T n)))) (rnd (IZR (occurrences (T n) p) / IZR (size (T n))))).
  { intros n p Hn. pose proof (occ_size (T n) p (DI n Hn)). pose proof (HS n). apply quotient; lia. }
  destruct (plot_gen FA init h T ord v CO O (fun n => proj1 (HS n))) as (r' & idxs & kept & E1 & E2 & ND & IK).
  - intros ys NE HY. assert (FY : forall y, In y ys -> is_finite y = true) by (intros y Hy; destruct (HY y Hy) as (n & p & Hn & ->); apply (Q n p Hn)).
    destruct ys as [|x t]; [congruence|]. apply (max_fl v m Dv); [apply FY; simpl; auto|intros; apply FY; simpl; auto].
  - assert (HT : forall n, (n <= length (added h))%nat -> replay init (added h) n = Ok (T n)) by (intros n Hn; now apply (course_replay init (added h) T)).
    assert (I0 : forall i, In i idxs -> (Z.to_nat i <= length (added h))%nat).
    { pose proof (plot_steps init h T HT) as PS. cbv zeta in PS. rewrite PS in E1. injection E1 as _ E1 _. intros i Hi. rewrite <- E1 in Hi. apply range_step_In in Hi as (j & J1 & -> & J2); [|apply interval_pos]. match type of J2 with ?x < _ => generalize dependent x end. intros x J2. rewrite (course_len init h) in J2. lia. }
    exists r', idxs, kept. eexists. split; [exact E1|]. split; [exact E2|]. split; [|split; [exact ND|]].
    + clear -Q I0. induction kept as [|p kept IH]; cbn [map]; constructor; auto. cbn [fst snd]. split; [reflexivity|]. clear IH. induction idxs as [|i l IH]; cbn [map]; constructor; [apply (Q (Z.to_nat i)); apply I0; simpl; auto|]. apply IH. intros; apply I0; simpl; auto.
    + intros p. rewrite IK. split; intros [H (i & Hi & L)]; (split; [auto|]); exists i; (split; [auto|]).
      * change (f_ltb v (f_div (f_ofZ (occurrences (T (Z.to_nat i)) p)) (f_ofZ (size (T (Z.to_nat i))))) = true) in L. rewrite (denotes_ltb _ _ _ _ Dv (Q (Z.to_nat i) p (I0 i Hi))) in L. revert L. case Rlt_bool_spec; auto; discriminate.
      * change (f_ltb v (f_div (f_ofZ (occurrences (T (Z.to_nat i)) p)) (f_ofZ (size (T (Z.to_nat i))))) = true). rewrite (denotes_ltb _ _ _ _ Dv (Q (Z.to_nat i) p (I0 i Hi))). now apply Rlt_bool_true.
Qed.
