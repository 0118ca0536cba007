(** Results: phases over time, plotted steps; simulations. *)
From Coq Require Import Reals Lra Permutation.
From Verif Require Import Prelude Dict Val ValFacts Arith RealArith LatticeModel StructModel StateModel ResultModel JsonModel SimModel SetupModel AnalyzerModel HashFacts
  SpecState SpecResult SpecGeom SpecNb SpecSetup SpecAnalyze StateFacts ResultFacts JsonFacts StructFacts StructMore NbFacts SetupFacts AnalyzerFacts.
Local Open Scope Z_scope.

Lemma nth_error_ext {B} (l m : list B) : (forall k, nth_error l k = nth_error m k) -> l = m.
Proof.
  revert m. induction l as [|x l IH]; intros [|y m] H; auto; try (specialize (H 0%nat); discriminate).
  f_equal; [specialize (H 0%nat); cbn in H; congruence|]. apply IH. intros k. exact (H (S k)).
Qed.
Lemma dset_fresh {K V} `{EqbOk K} (k : K) (v : V) d : ~ In k (dkeys d) -> dset k v d = d ++ [(k, v)].
Proof.
  induction d as [|[k' v'] d IH]; intros N; [reflexivity|]. cbn [dset]. destruct (eqb_spec k k') as [->|D]; [exfalso; apply N; simpl; auto|]. cbn [app]. f_equal. apply IH. intros X. apply N. simpl. auto.
Qed.
Lemma fold_err {A B} (f : A -> B -> res A) l e : fold_left (fun r u => match r with Ok s => f s u | Err e => Err e end) l (Err e) = Err e.
Proof. induction l; auto. Qed.
Lemma fold_foldM {A B} (f : A -> B -> res A) l : forall a, foldM f l a = fold_left (fun r u => match r with Ok s => f s u | Err e => Err e end) l (Ok a).
Proof. induction l as [|x l IH]; intros a; [reflexivity|]. cbn [foldM fold_left]. destruct (f a x) as [b|e]; cbn [bind]; [apply IH|]. now rewrite fold_err. Qed.
Lemma course_replay init ds T n : course init ds T -> (n <= length ds)%nat -> replay init ds n = Ok (T n) /\ discrete (T n).
Proof. intros H L. unfold replay. rewrite fold_foldM. apply H; auto. Qed.

Section Course.
  Variables (init : sstate) (h : list rop) (T : nat -> sstate).
  Hypothesis CO : course init (added h) T.
  Let r := fold_left apply_rop h (new_result init).
  Let len := length (added h).

  Lemma course_get n : (n <= len)%nat -> get_step r (Z.of_nat n) = Ok (T n).
  Proof.
    intros H. destruct (hist_inv h init) as (I & E1 & E2). fold r in I, E1, E2. rewrite get_step_replay; auto; [|rewrite E2; auto]. rewrite E1, E2. now apply (course_replay init (added h) T).
  Qed.
  Lemma course_last : last_step r = Ok (T len).
  Proof. destruct (C07_lemma init h 0) as (_ & _ & E & _). fold r in E. rewrite E. now apply (course_replay init (added h) T). Qed.
  Lemma course_len : rlen r = 1 + Z.of_nat len.
  Proof. now destruct (C07_lemma init h 0) as (E & _). Qed.
  Lemma course_steps : steps_lazy r = (map T (seq 0 len), Ok tt).
  Proof.
    destruct (hist_inv h init) as (I & E1 & E2). fold r in I, E1, E2. destruct (steps_lazy r) as [l out] eqn:S. unfold steps_lazy in S.
    destruct (steps_loop_spec (r_init r) (r_diffs r) (r_diffs r) (r_init r) 0%nat (Nat.le_0_l _) eq_refl eq_refl l out S) as (A1 & A2 & A3 & A4). rewrite E1, E2 in *.
    destruct out as [[]|e].
    - f_equal. specialize (A3 eq_refl). fold len in A3. apply nth_error_ext. intros i. destruct (le_lt_dec len i) as [G|G].
      + rewrite !(proj2 (nth_error_None _ _)); auto; [rewrite map_length, seq_length|]; lia.
      + destruct (nth_error l i) as [s|] eqn:E; [|apply nth_error_None in E; lia]. apply A2 in E. destruct (course_replay init (added h) T (0 + i)%nat CO) as [E' _]; [unfold len in G; cbn; lia|]. rewrite E' in E. injection E as <-.
        symmetry. apply map_nth_error. rewrite (nth_error_nth' _ 0%nat) by (rewrite seq_length; auto). now rewrite seq_nth.
    - destruct (A4 e eq_refl) as (i & Ei & Er). destruct (course_replay init (added h) T (0 + Datatypes.S i)%nat CO) as [E' _]; [cbn; lia|]. rewrite E' in Er. discriminate.
  Qed.

  Lemma collect ord : any_order ord -> exists ps, collect_phases ord r = Ok ps /\ forall p, In p ps <-> exists n, (n < len)%nat /\ present (T n) p.
  Proof.
    intros O. unfold collect_phases. rewrite course_steps.
    assert (H : forall m, (m <= len)%nat -> exists ps, foldM (fun phases step => do curr_phases <- phases_present ord step; Ok (phases ++ curr_phases)) (map T (seq 0 m)) [] = Ok ps /\
      forall p, In p ps <-> exists n, (n < m)%nat /\ present (T n) p).
    { induction m as [|m IH]; intros Hm.
      - exists []. split; [reflexivity|]. intros p. split; [intros []|]. intros (n & Hn & _). lia.
      - destruct IH as (ps & E & IP); [lia|]. destruct (phases_lemma (T m) (proj2 (course_replay init (added h) T m CO ltac:(unfold len in *; lia))) ord O) as (qs & Eq & _ & IQ).
        exists (ps ++ qs). split.
        + rewrite seq_S, map_app, foldM_app, E. cbn [bind map foldM Nat.add]. now rewrite Eq.
        + intros p. rewrite in_app_iff, IP, IQ. split.
          * intros [(n & Hn & P)|P]; [exists n|exists m]; split; auto; lia.
          * intros (n & Hn & P). destruct (Nat.eq_dec n m) as [->|D]; [auto|]. left. exists n. split; auto; lia. }
    destruct (H len (le_n _)) as (ps & E & IP). exists ps. rewrite E. cbn [bind]. auto.
  Qed.
  Lemma all_lemma ord : any_order ord -> exists ps, all_phases ord None r = Ok (ps, Some ps) /\ NoDup ps /\ forall p, In p ps <-> exists n, (n < len)%nat /\ present (T n) p.
  Proof.
    intros O. destruct (collect ord O) as (ps & E & IP). unfold all_phases. rewrite E. cbn [bind]. assert (H : forallb hashable ps = true).
    { apply forallb_forall. intros p Hp. apply IP in Hp as (n & Hn & P). apply (present_hash (T n)) with (2 := P). apply CO. unfold len in Hn. lia. }
    pose proof (O (dedup ps)) as P. exists (ord (dedup ps)). split; auto. split.
    - eapply Permutation_NoDup; [exact P|]. now apply hdedup_NoDup.
    - intros p. rewrite <- IP. rewrite <- (hdedup_In p ps H). split; intros Hp; [eapply Permutation_in; [symmetry; exact P|]; auto|eapply Permutation_in; [exact P|]; auto].
  Qed.
  Lemma fractions_gen {G} (A : arith G) ord : any_order ord -> 0 < size (T len) -> exists ps, all_phases ord None r = Ok (ps, Some ps) /\ NoDup ps /\ (forall p, In p ps <-> exists n, (n < len)%nat /\ present (T n) p) /\
    final_phase_fractions ord A None r = Ok (map (fun p => (p, a_div A (a_ofZ A (occurrences (T len) p)) (a_ofZ A (size (T len))))) ps).
  Proof.
    intros O HS. destruct (all_lemma ord O) as (ps & E & ND & IP). exists ps. split; auto. split; auto. split; auto. unfold final_phase_fractions. rewrite E. cbn [bind]. rewrite course_last. cbn [bind].
    assert (H : forall qs acc, NoDup (map fst acc ++ qs) -> forallb hashable qs = true -> foldM (fun fracs phase => do f <- cell_fraction (F := G) None A (T len) phase; Ok (dset phase f fracs)) qs acc
      = Ok (acc ++ map (fun p => (p, a_div A (a_ofZ A (occurrences (T len) p)) (a_ofZ A (size (T len))))) qs)).
    { induction qs as [|q qs IH]; intros acc N HH; [cbn; now rewrite app_nil_r|]. cbn [forallb] in HH. apply Bool.andb_true_iff in HH as [H1 H2]. cbn [map foldM]. rewrite fraction_gen; [|apply (course_replay init (added h) T len CO (le_n _))|exact Logic.I].
      rewrite (proj2 (Z.eqb_neq _ _)) by lia. cbn [bind].
      assert (Q : ~ In q (dkeys acc)) by (apply NoDup_remove_2 in N; intros X; apply N, in_or_app; left; exact X).
      rewrite hset_fresh by auto. rewrite IH; [now rewrite <- app_assoc| |exact H2]. rewrite map_app. cbn [map fst]. now rewrite <- app_assoc. }
    apply H; [exact ND|]. apply forallb_forall. intros p Hp. apply IP in Hp as (n & Hn & P). apply (present_hash (T n)) with (2 := P). apply CO. unfold len in Hn. lia.
  Qed.
  Lemma fractions_lemma ord : any_order ord -> 0 < size (T len) -> exists ps, all_phases ord None r = Ok (ps, Some ps) /\ NoDup ps /\ (forall p, In p ps <-> exists n, (n < len)%nat /\ present (T n) p) /\
    final_phase_fractions ord RA None r = Ok (map (fun p => (p, IZR (occurrences (T len) p) / IZR (size (T len)))%R) ps).
  Proof. exact (fractions_gen RA ord). Qed.
End Course.

Lemma C60_lemma : forall init h T ord, course init (added h) T -> any_order ord ->
  let r := fold_left apply_rop h (new_result init) in let n := length (added h) in 0 < size (T n) ->
  exists ps fs, all_phases ord None r = Ok (ps, Some ps) /\ NoDup ps /\
    (forall p, In p ps <-> exists m, (m < n)%nat /\ present (T m) p) /\
    final_phase_fractions ord RA None r = Ok fs /\ dkeys fs = ps /\
    (forall p x, hashable p = true -> dget p fs = Some x -> x = (IZR (occurrences (T n) p) / IZR (size (T n)))%R) /\
    (fold_right Rplus 0%R (dvals fs) = 1%R <-> forall p, present (T n) p -> exists m, (m < n)%nat /\ present (T m) p).
Proof.
  intros init h T ord CO O r n HS. destruct (fractions_lemma init h T CO ord O HS) as (ps & E & ND & IP & EF). fold n r in E, IP, EF, HS. exists ps. eexists. split; [exact E|]. split; auto. split; auto. split; [exact EF|].
  split; [unfold dkeys; rewrite map_map; apply map_id|]. split.
  - intros p x Hh G. apply hget_In in G; auto. apply in_map_iff in G as (q & X & _). injection X as <- <-. reflexivity.
  - unfold dvals. rewrite map_map. cbn [snd]. rewrite sum_fracs by lia. pose proof (proj2 (course_replay init (added h) T n CO (le_n _))) as DI. destruct (sum_all (T n) DI ps ND) as [_ SA].
    assert (NZ : (IZR (size (T n)) <> 0)%R) by (apply not_0_IZR; lia). split.
    + intros S1 p Hp. apply IP, SA; auto. apply eq_IZR. apply (Rmult_eq_reg_r (/ IZR (size (T n)))); [|now apply Rinv_neq_0_compat]. unfold Rdiv in S1. rewrite S1. field; auto.
    + intros H. rewrite (proj2 SA) by (intros p Hp; apply IP; auto). field; auto.
Qed.
Lemma present_size st p : present st p -> 0 < size st.
Proof. intros (k & Hk & _). unfold size. destruct (site_ids st); [destruct Hk|cbn [length]; lia]. Qed.
Lemma C60_refuted_lemma : forall init h T ord p, course init (added h) T -> any_order ord ->
  let r := fold_left apply_rop h (new_result init) in let n := length (added h) in
  present (T n) p -> (forall m, (m < n)%nat -> ~ present (T m) p) ->
  exists ps fs, all_phases ord None r = Ok (ps, Some ps) /\ ~ In p ps /\
    final_phase_fractions ord RA None r = Ok fs /\ dget p fs = None /\ fold_right Rplus 0%R (dvals fs) <> 1%R.
Proof.
  intros init h T ord p CO O r n Hp HN. destruct (C60_lemma init h T ord CO O (present_size _ _ Hp)) as (ps & fs & E & ND & IP & EF & EK & _ & SM). fold n r in E, IP, EF, SM.
  assert (NI : ~ In p ps) by (intros X; apply IP in X as (m & Hm & Pm); exact (HN m Hm Pm)). exists ps, fs. split; auto. split; auto. split; auto. split.
  - apply hget_None; [|now rewrite EK]. apply (present_hash (T n)) with (2 := Hp). apply (CO n). unfold n. lia.
  - intros S1. destruct (proj1 SM S1 p Hp) as (m & Hm & Pm). exact (HN m Hm Pm).
Qed.
Lemma C60_cache_lemma : forall ord r l c u, all_phases ord None r = Ok (l, c) -> all_phases ord c (add_step r u) = Ok (l, c).
Proof. intros ord r l c u E. unfold all_phases in E. destruct (collect_phases ord r) as [ps|]; [|discriminate]. cbn [bind] in E. injection E as <- <-. reflexivity. Qed.
Lemma C60_empty_lemma : forall init ord, any_order ord -> all_phases ord None (new_result init) = Ok ([], Some []) /\ final_phase_fractions ord RA None (new_result init) = Ok [].
Proof.
  intros init ord O. assert (E : ord [] = []) by (apply Permutation_nil, O). assert (E' : all_phases ord None (new_result init) = Ok ([], Some [])) by (unfold all_phases; cbn; now rewrite E).
  split; auto. unfold final_phase_fractions. rewrite E'. reflexivity.
Qed.

(** ** Plotted steps *)
Lemma load_ok init ds k T : k <> 0 -> (forall n, (n <= length ds)%nat -> replay init ds n = Ok (T n)) ->
  forall rest live stored n, (n <= length ds)%nat -> rest = skipn n ds -> live = T n -> snd (load_loop k live stored (Z.of_nat n) rest) = Ok tt.
Proof.
  intros NK HT. induction rest as [|d rest IH]; intros live stored n L R ->; [reflexivity|]. cbn [load_loop].
  assert (Hn : nth_error ds n = Some d).
  { rewrite <- (firstn_skipn n ds). rewrite nth_error_app2 by (rewrite firstn_length; lia). rewrite firstn_length. replace (n - Nat.min n (length ds))%nat with 0%nat by lia. now rewrite <- R. }
  assert (L' : (S n <= length ds)%nat) by (apply nth_error_Some; congruence).
  assert (R' : rest = skipn (S n) ds).
  { clear -R. revert n R. induction ds as [|x t IHt]; intros [|n] R; cbn in R; try discriminate.
    - injection R as -> ->. reflexivity.
    - cbn. now apply IHt. }
  pose proof (HT (S n) L') as E. rewrite (replay_S _ _ _ _ Hn), (HT n L) in E. cbn [bind] in E. rewrite E. rewrite (proj2 (Z.eqb_neq _ _) NK).
  replace (Z.of_nat n + 1) with (Z.of_nat (S n)) by lia. apply IH; auto.
Qed.
Lemma interval_pos len : 1 <= plot_interval len.
Proof. unfold plot_interval. lia. Qed.
Lemma round_close a b : 0 < b -> 2 * b * round_quotient a b - b <= 2 * a <= 2 * b * round_quotient a b + b /\ (2 * a = 2 * b * round_quotient a b + b -> Z.even (round_quotient a b) = true).
Proof.
  intros HB. unfold round_quotient. pose proof (Z.div_mod a b ltac:(lia)) as E. pose proof (Z.mod_pos_bound a b HB) as M. set (q := a / b) in *. set (m := a mod b) in *.
  destruct (Z.ltb_spec (2 * m) b); [split; [nia|intros; nia]|]. destruct (Z.ltb_spec b (2 * m)); [split; [nia|intros; nia]|].
  destruct (Z.even q) eqn:EV; [split; [nia|auto]|]. split; [nia|]. intros. nia.
Qed.
Lemma interval_bounds len : 1 <= len -> let k := plot_interval len in 
  (len <= 100 -> k = 1) /\ (100 < len -> 100 * k - 50 <= len <= 100 * k + 50 /\ (k = 1 -> len <= 149)).
Proof.
  intros HL k. unfold k, plot_interval. split; intros H.
  - rewrite Z.min_r by lia. unfold round_quotient. rewrite Z.div_same, Z.mod_same by lia. destruct (Z.ltb_spec (2 * 0) len); lia.
  - rewrite Z.min_l by lia. destruct (round_close len 100 ltac:(lia)) as [B EV]. set (q := round_quotient len 100) in *. assert (1 <= q) by lia. rewrite Z.max_r by lia. split; [lia|]. intros Q.
    rewrite Q in *. destruct (Z.eq_dec len 150) as [->|]; [|lia]. discriminate EV. lia.
Qed.
Lemma points_bounds len : 1 <= len -> let k := plot_interval len in Z.min len 75 <= (len + k - 1) / k <= 149.
Proof.
  intros HL k. destruct (interval_bounds len HL) as [B1 B2]. fold k in B1, B2. pose proof (interval_pos len) as KP. fold k in KP. 
  destruct (Z.le_gt_cases len 100) as [G|G].
  - rewrite B1 by auto. rewrite Z.div_1_r. lia.
  - destruct (B2 ltac:(lia)) as [[L1 L2] K1]. split.
    + apply Z.div_le_lower_bound; [lia|]. destruct (Z.eq_dec k 1) as [E|N]; [rewrite E in *; lia|nia].
    + assert (X : (len + k - 1) / k < 150); [|lia]. apply Z.div_lt_upper_bound; [lia|]. destruct (Z.eq_dec k 1) as [E|N]; [specialize (K1 E); rewrite E in *; lia|nia].
Qed.
Lemma range_step_In n k i : 1 <= k -> In i (range_step n k) <-> exists j, 0 <= j /\ i = j * k /\ i < n.
Proof.
  intros HK. unfold range_step. rewrite in_map_iff. split.
  - intros (j & <- & Hj). apply zrange_In in Hj as [J1 J2]. exists j. split; auto. split; auto.
    pose proof (Z.mul_div_le (n + k - 1) k ltac:(lia)). nia.
  - intros (j & J1 & -> & J2). exists j. split; auto. apply zrange_In. split; auto. assert (j + 1 <= (n + k - 1) / k); [apply Z.div_le_lower_bound; nia|lia].
Qed.
Lemma range_step_nth n k j : 1 <= k -> 0 <= j -> nth_error (range_step n k) (Z.to_nat j) = if j * k <? n then Some (j * k) else None.
Proof.
  intros HK HJ. unfold range_step. rewrite nth_error_map. destruct (Z.ltb_spec (j * k) n) as [L|L].
  - assert (j + 1 <= (n + k - 1) / k) by (apply Z.div_le_lower_bound; nia). unfold zrange. rewrite nth_error_map. rewrite (nth_error_nth' _ 0%nat) by (rewrite seq_length; lia). rewrite seq_nth by lia. cbn [option_map]. f_equal. f_equal. lia.
  - assert ((n + k - 1) / k < j + 1) by (apply Z.div_lt_upper_bound; nia). rewrite (proj2 (nth_error_None _ _)); [reflexivity|]. rewrite zrange_length. lia.
Qed.

Lemma plot_steps init h T : (forall n, (n <= length (added h))%nat -> replay init (added h) n = Ok (T n)) ->
  let r := fold_left apply_rop h (new_result init) in
  let r' := fold_left apply_rop (h ++ [RLoad (plot_interval (rlen r))]) (new_result init) in
  get_steps_to_plot r = (r', Ok (range_step (rlen r) (plot_interval (rlen r)), map (fun i => T (Z.to_nat i)) (range_step (rlen r) (plot_interval (rlen r))))).
Proof.
  intros HT r r'. set (k := plot_interval (rlen r)). pose proof (interval_pos (rlen r)) as KP. fold k in KP.
  assert (E' : r' = fst (load_steps r k)) by (unfold r'; rewrite fold_left_app; reflexivity).
  destruct (hist_inv h init) as (I & E1 & E2). fold r in I, E1, E2. destruct (load_keeps r k) as [K1 K2].
  unfold get_steps_to_plot. fold k. destruct (load_steps r k) as [r2 out] eqn:EL. cbn [fst] in *. subst r2. f_equal.
  assert (EO : out = Ok tt).
  { unfold load_steps in EL. destruct (load_loop k (r_init r) (dset 0 (r_init r) (r_stored r)) 0 (r_diffs r)) as [sd o] eqn:E. injection EL as _ <-. 
    change o with (snd (sd, o)). rewrite <- E. change 0 with (Z.of_nat 0) at 2. rewrite E2. apply (load_ok init (added h) k T); auto; [lia|lia|]. rewrite E1. specialize (HT 0%nat ltac:(lia)). rewrite replay_0 in HT. congruence. }
  rewrite EO. cbn [bind]. assert (RL : rlen r' = rlen r) by (unfold rlen; now rewrite K2). rewrite RL.
  assert (M : mapM (get_step r') (range_step (rlen r) k) = Ok (map (fun i => T (Z.to_nat i)) (range_step (rlen r) k))).
  { assert (H : forall i, In i (range_step (rlen r) k) -> 0 <= i < rlen r) by (intros i Hi; apply range_step_In in Hi as (j & J1 & -> & J2); nia).
    revert H. generalize (range_step (rlen r) k). induction l as [|i l IH]; intros H; [reflexivity|]. cbn [mapM map]. 
    destruct (H i (or_introl eq_refl)) as [I1 I2]. destruct (C07_lemma init (h ++ [RLoad k]) i) as (_ & G & _). change (fold_left apply_rop (h ++ [RLoad k]) (new_result init)) with r' in G. rewrite G by (rewrite RL; lia).
    unfold added. rewrite flat_map_app. cbn [flat_map app]. rewrite app_nil_r. fold (added h). rewrite HT; [|rewrite <- E2; unfold rlen in I2; lia]. cbn [bind]. rewrite IH; auto. intros; apply H; simpl; auto. }
  rewrite M. reflexivity.
Qed.
Lemma C61_lemma : forall init h T, (forall n, (n <= length (added h))%nat -> replay init (added h) n = Ok (T n)) ->
  let r := fold_left apply_rop h (new_result init) in
  exists r' k idxs, get_steps_to_plot r = (r', Ok (idxs, map (fun i => T (Z.to_nat i)) idxs)) /\ 1 <= k /\
    (forall j, 0 <= j -> nth_error idxs (Z.to_nat j) = if j * k <? rlen r then Some (j * k) else None) /\
    Z.min (rlen r) 75 <= Z.of_nat (length idxs) <= 149 /\
    rlen r' = rlen r /\ (forall i, 0 <= i < rlen r -> get_step r' i = get_step r i).
Proof.
  intros init h T HT r. eexists. exists (plot_interval (rlen r)). exists (range_step (rlen r) (plot_interval (rlen r))). split; [apply (plot_steps init h T HT)|]. fold r. set (k := plot_interval (rlen r)). split; [apply interval_pos|].
  split; [intros j HJ; apply range_step_nth; [apply interval_pos|auto]|].
  assert (RP : 1 <= rlen r) by (unfold rlen; lia). split.
  - unfold range_step. rewrite map_length, zrange_length. pose proof (points_bounds (rlen r) RP) as B. fold k in B. cbv zeta in B. lia.
  - set (r' := fold_left apply_rop (h ++ [RLoad k]) (new_result init)).
    assert (EA : added (h ++ [RLoad k]) = added h) by (unfold added; rewrite flat_map_app; cbn [flat_map app]; apply app_nil_r).
    assert (RL : rlen r' = rlen r) by (unfold r', r; rewrite (proj1 (C07_lemma init (h ++ [RLoad k]) 0)), (proj1 (C07_lemma init h 0)), EA; reflexivity). split; auto.
    intros i Hi. unfold r', r. rewrite (proj1 (proj2 (C07_lemma init (h ++ [RLoad k]) i))) by (fold r'; rewrite RL; auto). rewrite (proj1 (proj2 (C07_lemma init h i))) by auto. now rewrite EA.
Qed.

(** ** The plot of phase fractions *)
Lemma max_above m x t : exists M, list_max RA (x :: t) = Ok M /\ ((m < M)%R <-> exists y, In y (x :: t) /\ (m < y)%R).
Proof.
  eexists. split; [reflexivity|]. revert x. induction t as [|y t IH]; intros x; cbn [fold_left].
  - split; [intros H; exists x; simpl; auto|]. intros (y & [<-|[]] & H). exact H.
  - rewrite IH. cbn [a_ltb RA]. destruct (Rlt_dec x y) as [E|E].
    + split; [intros (z & [<-|Hz] & H); [exists y|exists z]; simpl; auto|]. intros (z & [<-|[<-|Hz]] & H); [exists y; split; [simpl; auto|lra]|exists y; simpl; auto|exists z; simpl; auto].
    + split; [intros (z & [<-|Hz] & H); [exists x|exists z]; simpl; auto|]. intros (z & [<-|[<-|Hz]] & H); [exists x; simpl; auto|exists x; split; [simpl; auto|lra]|exists z; simpl; auto].
Qed.

Lemma plot_gen : forall {F} (A : arith F) init h T ord m, course init (added h) T -> any_order ord -> (forall n, 0 < size (T n)) ->
  (forall ys, ys <> [] -> (forall y, In y ys -> exists n p, (n <= length (added h))%nat /\ y = a_div A (a_ofZ A (occurrences (T n) p)) (a_ofZ A (size (T n)))) ->
     exists M, list_max A ys = Ok M /\ a_ltb A m M = existsb (a_ltb A m) ys) ->
  let r := fold_left apply_rop h (new_result init) in
  exists r' idxs kept, get_steps_to_plot r = (r', Ok (idxs, map (fun i => T (Z.to_nat i)) idxs)) /\
    plot_phase_fractions A ord None r m =
      (r', Ok ((0, last idxs 0), map (fun p => (p, idxs, map (fun i => a_div A (a_ofZ A (occurrences (T (Z.to_nat i)) p)) (a_ofZ A (size (T (Z.to_nat i))))) idxs)) kept)) /\
    NoDup kept /\
    (forall p, In p kept <-> (exists n, (n < length (added h))%nat /\ present (T n) p) /\
                            exists i, In i idxs /\ a_ltb A m (a_div A (a_ofZ A (occurrences (T (Z.to_nat i)) p)) (a_ofZ A (size (T (Z.to_nat i))))) = true).
Proof.
  intros F A init h T ord m CO O HS MX r.
  assert (HT : forall n, (n <= length (added h))%nat -> replay init (added h) n = Ok (T n)) by (intros n Hn; now apply (course_replay init (added h) T)).
  pose proof (plot_steps init h T HT) as PS. cbv zeta in PS. fold r in PS. set (k := plot_interval (rlen r)) in *. set (h' := h ++ [RLoad k]) in *. set (r' := fold_left apply_rop h' (new_result init)) in *.
  assert (EA : added h' = added h) by (unfold added, h'; rewrite flat_map_app; cbn [flat_map app]; apply app_nil_r).
  set (idxs := range_step (rlen r) k) in *.
  assert (CO' : course init (added h') T) by (rewrite EA; exact CO). destruct (all_lemma init h' T CO' ord O) as (ps & EP & ND & IP). fold r' in EP. rewrite EA in IP.
  assert (KP : 1 <= k) by apply interval_pos. assert (RP : 1 <= rlen r) by (unfold rlen; lia).
  assert (I0 : forall i, In i idxs -> 0 <= i < rlen r) by (intros i Hi; apply range_step_In in Hi as (j & J1 & -> & J2); nia).
  assert (NE : exists i0 rest, idxs = i0 :: rest).
  { destruct idxs as [|i0 rest] eqn:E; [|eauto]. pose proof (range_step_nth (rlen r) k 0 KP ltac:(lia)) as N. fold idxs in N. rewrite E in N. cbn [Z.mul Z.to_nat nth_error] in N. destruct (Z.ltb_spec 0 (rlen r)); [discriminate|lia]. }
  destruct NE as (i0 & rest & EI).
  set (fr := fun p i => (a_div A (a_ofZ A (occurrences (T (Z.to_nat i)) p)) (a_ofZ A (size (T (Z.to_nat i)))))).
  set (above := fun p => existsb (fun i => a_ltb A m (fr p i)) idxs).
  exists r', idxs, (filter above ps). split; [exact PS|]. split; [|split].
  - unfold plot_phase_fractions. rewrite PS. f_equal. cbn [bind].
    assert (EL : list_getE idxs (Z.of_nat (length idxs) - 1) = Ok (last idxs 0)).
    { unfold list_getE. assert (LP : (1 <= length idxs)%nat) by (rewrite EI; cbn; lia). destruct (Z.ltb_spec (Z.of_nat (length idxs) - 1) 0); [lia|].
      destruct (Z.ltb_spec (Z.of_nat (length idxs) - 1) 0); [lia|]. cbn [orb]. rewrite Z.geb_leb. destruct (Z.leb_spec (Z.of_nat (length idxs)) (Z.of_nat (length idxs) - 1)); [lia|].
      replace (Z.to_nat (Z.of_nat (length idxs) - 1)) with (length idxs - 1)%nat by lia. clear -LP. clearbody idxs. induction idxs as [|a [|b l] IH]; [cbn in LP; lia|reflexivity|]. cbn [length] in *. replace (S (S (length l)) - 1)%nat with (S (S (length l) - 1)) by lia. cbn [nth_error]. rewrite IH by lia. reflexivity. }
    rewrite EL. cbn [bind]. rewrite EP. cbn [bind].
    assert (TR : mapM (fun phase => do ys <- mapM (fun step => cell_fraction (F := F) None A step phase) (map (fun i => T (Z.to_nat i)) idxs); Ok (phase, idxs, ys)) ps
       = Ok (map (fun p => (p, idxs, map (fr p) idxs)) ps)).
    { assert (Y : forall p, mapM (fun step => cell_fraction (F := F) None A step p) (map (fun i => T (Z.to_nat i)) idxs) = Ok (map (fr p) idxs)).
      { intros p. revert I0. generalize idxs as l. induction l as [|i l IH]; intros I0; [reflexivity|]. cbn [map mapM]. rewrite fraction_gen; [|apply (course_replay init (added h) T); auto|exact Logic.I].
        - pose proof (HS (Z.to_nat i)). rewrite (proj2 (Z.eqb_neq _ _)) by lia. cbn [bind]. rewrite IH; [reflexivity|]. intros; apply I0; simpl; auto.
        - pose proof (I0 i (or_introl eq_refl)) as X. unfold r in X. rewrite (course_len init h) in X. lia. }
      clear EP ND IP. induction ps as [|p ps IH]; [reflexivity|]. cbn [map mapM]. rewrite Y. cbn [bind]. rewrite IH. reflexivity. }
    rewrite TR. cbn [bind].
    assert (KE : forall qs acc, foldM (fun kept (t : val * list Z * list F) => do m0 <- list_max A (snd t); Ok (if a_ltb A m m0 then kept ++ [t] else kept)) (map (fun p => (p, idxs, map (fr p) idxs)) qs) acc
      = Ok (acc ++ map (fun p => (p, idxs, map (fr p) idxs)) (filter above qs))).
    { induction qs as [|q qs IH]; intros acc; [cbn; now rewrite app_nil_r|]. cbn [map foldM snd filter].
      destruct (MX (map (fr q) idxs)) as (M & EM & HM).
      { rewrite EI. discriminate. }
      { intros y Hy. apply in_map_iff in Hy as (i & <- & Hi). exists (Z.to_nat i), q. split; [|reflexivity]. apply I0 in Hi. unfold r in Hi. rewrite (course_len init h) in Hi. lia. }
      rewrite EM. cbn [bind]. rewrite IH, HM. assert (AB : above q = existsb (a_ltb A m) (map (fr q) idxs)) by (unfold above; generalize idxs as l; induction l as [|i l IHl]; [reflexivity|cbn [existsb map]; now rewrite IHl]).
      rewrite <- AB. destruct (above q); [cbn [map]; now rewrite <- app_assoc|reflexivity]. }
    rewrite KE. reflexivity.
  - now apply NoDup_filter.
  - intros p. rewrite filter_In, IP. unfold above. rewrite existsb_exists. split; intros [H (i & Hi & E)]; split; auto; exists i; split; auto.
Qed.
Lemma C70_lemma : forall init h T ord min_prevalence, course init (added h) T -> any_order ord -> (forall n, 0 < size (T n)) ->
  let r := fold_left apply_rop h (new_result init) in
  exists r' idxs kept, get_steps_to_plot r = (r', Ok (idxs, map (fun i => T (Z.to_nat i)) idxs)) /\
    plot_phase_fractions RA ord None r min_prevalence =
      (r', Ok ((0, last idxs 0), map (fun p => (p, idxs, map (fun i => IZR (occurrences (T (Z.to_nat i)) p) / IZR (size (T (Z.to_nat i))))%R idxs)) kept)) /\
    NoDup kept /\
    (forall p, In p kept <-> (exists n, (n < length (added h))%nat /\ present (T n) p) /\
                            exists i, In i idxs /\ (min_prevalence < IZR (occurrences (T (Z.to_nat i)) p) / IZR (size (T (Z.to_nat i))))%R).
Proof.
  intros init h T ord m CO O HS r. destruct (plot_gen RA init h T ord m CO O HS) as (r' & idxs & kept & E1 & E2 & ND & IK).
  - intros [|x t] NE _; [congruence|]. destruct (max_above m x t) as (M & EM & HM). exists M. split; [exact EM|]. apply eq_true_iff_eq. rewrite existsb_exists. cbn [a_ltb RA].
    destruct (Rlt_dec m M) as [L|L]; [rewrite HM in L; destruct L as (y & Hy & L)|]; split; auto; [intros _; exists y; split; auto; now destruct (Rlt_dec m y)|discriminate|].
    intros (y & Hy & Ly). destruct (Rlt_dec m y) as [Lm|]; [|discriminate]. exfalso. apply L, HM. eauto.
  - exists r', idxs, kept. split; [exact E1|]. split; [exact E2|]. split; auto. intros p. rewrite IK. cbn [a_ltb a_div a_ofZ RA].
    split; intros [H (i & Hi & L)]; (split; [auto|]); exists i; (split; [auto|]); destruct (Rlt_dec m _) as [Lm|Lm]; solve [exact Lm|discriminate|reflexivity|contradiction].
Qed.

(** ** Simulations *)
Lemma C65_lemma : forall n vs per L calls s outs st, lattice_on n vs per L -> adds RA (struct_init L) calls = (s, outs) ->
  let acc := accepted calls outs in let sim := mkSim st s in
  (forall i c p q, nth_error acc i = Some (c, p) -> image n vs per p q -> state_at RA sim q = Ok (get_site_state st (KInt (Z.of_nat i)))) /\
  (forall q, length q = n ->
     (exists i c p, nth_error acc i = Some (c, p) /\ same_place n vs per p q /\ state_at RA sim q = Ok (get_site_state st (KInt (Z.of_nat i)))) \/
     ((forall c p, In (c, p) acc -> ~ same_place n vs per p q) /\ state_at RA sim q = Ok None)) /\
  (forall q, state_at RA sim q = match id_at RA s q with Ok (Some i) => Ok (get_site_state st (KInt i)) | Ok None => Ok None | Err e => Err e end).
Proof.
  intros n vs per L calls s outs st HL HA acc sim. destruct (C29_lemma n vs per L calls s outs HL HA) as [H1 H2]. split; [|split].
  - intros i c p q E Q. destruct (H1 i c p q E Q) as (x & _ & _ & EI & ES & _). unfold state_at, sim; cbn [sim_struct sim_state]. rewrite ES. cbn [bind]. now rewrite EI.
  - intros q Lq. destruct (H2 q Lq) as [(i & c & p & x & E & SP & _ & _ & EI & ES & _)|(N & ES & _)].
    + left. exists i, c, p. split; auto. split; auto. unfold state_at, sim; cbn [sim_struct sim_state]. rewrite ES. cbn [bind]. now rewrite EI.
    + right. split; auto. unfold state_at, sim; cbn [sim_struct]. now rewrite ES.
  - intros q. unfold state_at, id_at, sim; cbn [sim_struct sim_state]. destruct (site_at RA s q) as [[x|]|e]; reflexivity.
Qed.
Lemma C65_roundtrip_lemma : forall n vs per L calls s outs st, lattice_on n vs per L ->
  adds RA (struct_init L) calls = (s, outs) -> Forall (fun x => settled n vs per (snd x)) (accepted calls outs) -> json_state st ->
  sim_from_dict RA (sim_json (mkSim st s)) = Ok (mkSim st s).
Proof.
  intros n vs per L calls s outs st HL HA HF HJ. unfold sim_from_dict, sim_json. cbn [fst snd sim_state sim_struct]. rewrite (C06_lemma st HJ). cbn [bind].
  rewrite (C35_lemma n vs per L calls s outs HL HA HF). reflexivity.
Qed.
Lemma C65_refuted_lemma : exists n vs per L calls s outs, lattice_on n vs per L /\ adds RA (struct_init L) calls = (s, outs) /\
  forall st, json_state st -> (forall x, In x (sites s None) -> get_site_state st (KInt (s_id x)) <> None) -> exists sim' p d, sim_from_dict RA (sim_json (mkSim st s)) = Ok sim' /\
    state_at RA (mkSim st s) p = Ok (Some d) /\ state_at RA sim' p = Ok None.
Proof.
  destruct C35_refuted_lemma as (n & vs & per & L & calls & s & outs & s' & HL & HA & HS & _ & (p & x & E1 & E2)). exists n, vs, per, L, calls, s, outs. split; auto. split; auto.
  intros st HJ HS0. assert (Hx : In x (sites s None)) by (eapply site_at_found; [exists calls; rewrite HA; reflexivity|exact E1]). specialize (HS0 x Hx). destruct (get_site_state st (KInt (s_id x))) as [d|] eqn:Ed; [|congruence].
  exists (mkSim st s'), p, d. split.
  - unfold sim_from_dict, sim_json. cbn [fst snd sim_state sim_struct]. rewrite (C06_lemma st HJ). cbn [bind]. now rewrite HS.
  - unfold state_at. cbn [sim_struct sim_state]. rewrite E1, E2. cbn [bind]. now rewrite Ed.
Qed.
