(** Nucleation for amounts of any sign (C68). *)
From Coq Require Import Reals Lra Permutation.
From Verif Require Import Prelude Dict Val ValFacts Arith RVec RealArith LatticeModel JsonModel StructModel StateModel NbModel GridModel
  SimModel SetupModel SpecState SpecGeom SpecNb SpecGrid SpecSetup StateFacts JsonFacts LatticeFacts LatticeMore StructFacts StructMore StructBuild
  NbFacts NbMore GridFacts GridMore GridNb SetupFacts NucFacts NucMore.
Local Open Scope Z_scope.

Section Signed.
  Variables (n : Z) (amts : dict string R) (np_sum : list R -> R).
  Hypothesis UQ : uniq amts.
  Hypothesis NZ : exists p a, In (p, a) amts /\ a <> 0%R.
  Hypothesis N0 : 0 <= n.
  Hypothesis SM : summation RA np_sum.
  Let species := map fst amts.
  Let total := sum (map snd amts).
  Let ideal := ideal_num_sites RA np_sum amts n.

  Definition turns (a : R) : R :=
    if Req_EM_T total 0 then (if Rlt_dec 0 a then IZR n + 1 else 0)%R else Rmax 0 (a / total * IZR n).
  Definition quota (p : string) : R := match dget p amts with Some a => turns a | None => 0%R end.

  Lemma turns_nonneg a : (0 <= turns a)%R.
  Proof. unfold turns. apply IZR_le in N0. destruct (Req_EM_T total 0); [destruct (Rlt_dec 0 a); lra|apply Rmax_l]. Qed.
  Lemma signed_get p : In p species -> exists i, dget p ideal = Some i /\ forall k, 0 <= k <= n -> (np_below RA k i = true <-> (IZR k < quota p)%R).
  Proof.
    intros Hp. unfold quota. apply dget_key_Some in Hp as [a Ea]. rewrite Ea. exists (np_mul RA (np_div RA a total) (IZR n)). split.
    - unfold ideal, ideal_num_sites. rewrite (adds_up_RA _ _ (SM (map snd amts))). fold total. cbv zeta. rewrite map_map. revert Ea. generalize total as tt. clear. intros tt.
      induction amts as [|[k v] l IH]; simpl; [discriminate|]. destruct (eqb p k); auto. intros X; injection X as ->. reflexivity.
    - intros k Hk. unfold turns, np_div. cbn [a_eqb a_ltb a_ofZ a_div RA]. assert (K0 : (0 <= IZR k <= IZR n)%R) by (split; apply IZR_le; lia).
      destruct (Req_EM_T total 0) as [Z0|Z0].
      + destruct (Rlt_dec 0 a) as [P|P]; [cbn [np_mul np_below]; split; [lra|auto]|]. destruct (Rlt_dec a 0); cbn [np_mul np_below]; split; intros X; try discriminate; lra.
      + cbn [np_mul np_below a_ltb a_mul a_ofZ RA]. destruct (Rlt_dec (IZR k) (a / total * IZR n)) as [Y|Y].
        * split; auto. intros _. eapply Rlt_le_trans; [exact Y|apply Rmax_r].
        * split; [discriminate|]. intros X. exfalso. apply Y. unfold Rmax in X. destruct (Rle_dec 0 (a / total * IZR n)); lra.
  Qed.
  Lemma quotas : map quota species = map (fun kv => turns (snd kv)) amts.
  Proof. unfold species. rewrite map_map. apply map_ext_in. intros [p a] H. unfold quota. cbn [fst snd]. rewrite (In_dget p a amts); auto. Qed.

  Lemma sum_nonneg l : (forall x, In x l -> (0 <= x)%R) -> (0 <= sum l)%R.
  Proof. unfold sum. induction l as [|a l IH]; simpl; intros H; [lra|]. pose proof (H a (or_introl eq_refl)). assert (0 <= fold_right Rplus 0 l)%R by auto. lra. Qed.
  Lemma sum_In l x : (forall x, In x l -> (0 <= x)%R) -> In x l -> (x <= sum l)%R.
  Proof.
    induction l as [|a l IH]; intros H Hx; [destruct Hx|]. assert (H' : forall y, In y l -> (0 <= y)%R) by (intros; apply H; simpl; auto).
    pose proof (H a (or_introl eq_refl)). pose proof (sum_nonneg l H'). unfold sum in *. cbn [fold_right]. destruct Hx as [->|Hx]; [lra|]. specialize (IH H' Hx). lra.
  Qed.
  Lemma sum_zero_pos : total = 0%R -> exists p a, In (p, a) amts /\ (0 < a)%R.
  Proof.
    unfold total. intros Z0. assert (D : (exists p a, In (p, a) amts /\ (0 < a)%R) \/ forall p a, In (p, a) amts -> (a <= 0)%R).
    { clear. induction amts as [|[q b] l IH]; [right; intros p a []|]. destruct IH as [(p & a & H & P)|H]; [left; exists p, a; simpl; auto|].
      destruct (Rlt_dec 0 b); [left; exists q, b; simpl; auto|]. right. intros p a [E|Hp]; [injection E as _ <-; lra|eauto]. }
    destruct D as [|D]; auto. exfalso. destruct NZ as (p & a & Ha & A0).
    assert (S : (- a <= sum (map (fun kv : string * R => - snd kv) amts))%R).
    { apply sum_In; [|apply in_map_iff; exists (p, a); auto]. intros x Hx. apply in_map_iff in Hx as ([q b] & <- & Hb). apply D in Hb. simpl. lra. }
    assert (E : forall l : list (string * R), sum (map (fun kv => (- snd kv)%R) l) = (- sum (map snd l))%R).
    { unfold sum. induction l as [|[q b] l IH]; simpl; [lra|]. rewrite IH. lra. }
    rewrite E, Z0 in S. apply D in Ha. lra.
  Qed.
  Lemma quota_sum : (IZR n - 1 < sum (map quota species))%R.
  Proof.
    rewrite quotas. destruct (Req_EM_T total 0) as [Z0|Z0].
    - destruct (sum_zero_pos Z0) as (p & a & Ha & Pa). assert (IZR n + 1 <= sum (map (fun kv => turns (snd kv)) amts))%R; [|lra].
      apply sum_In; [intros x Hx; apply in_map_iff in Hx as (kv & <- & _); apply turns_nonneg|].
      apply in_map_iff. exists (p, a). split; auto. unfold turns. cbn [snd]. destruct (Req_EM_T total 0); [|congruence]. destruct (Rlt_dec 0 a); [auto|lra].
    - assert (S : forall l : list (string * R), (sum (map snd l) / total * IZR n <= sum (map (fun kv => turns (snd kv)) l))%R).
      { unfold sum. induction l as [|[p a] l IH]; simpl; [unfold Rdiv; lra|]. unfold turns at 1. destruct (Req_EM_T total 0); [congruence|].
        pose proof (Rmax_r 0 (a / total * IZR n)). replace ((a + fold_right Rplus 0 (map snd l)) / total * IZR n)%R with (a / total * IZR n + fold_right Rplus 0 (map snd l) / total * IZR n)%R by (field; auto). lra. }
      specialize (S amts). fold total in S. replace (total / total * IZR n)%R with (IZR n) in S by (field; auto). lra.
  Qed.

  Lemma signed_start : forall fuel, (n + 1) * Z.of_nat (length amts) <= Z.of_nat fuel ->
    exists ids, nucleus_identities RA fuel n species species ideal (dict_of (map (fun p => (p, 0)) species)) [] = Some (Ok ids) /\
      Z.of_nat (length ids) = n /\ incl ids species /\ forall p, In p species -> (IZR (cnt p ids) < quota p + 1)%R.
  Proof.
    intros fuel HF. apply (quota_start RA n species ideal quota); auto.
    - exact signed_get.
    - intros p Hp. unfold quota. destruct (dget p amts); [apply turns_nonneg|lra].
    - exact quota_sum.
    - unfold species. now rewrite map_length.
  Qed.
End Signed.

Lemma C68_signed_lemma : forall dim sz n bg amts buffer rnd ords np_sum, good_size dim sz -> 0 <= n -> uniq amts -> ~ In bg (dkeys amts) ->
  (exists p a, In (p, a) amts /\ a <> 0%R) -> (forall t, legal (ords t)) -> summation RA np_sum ->
  exists r, (forall f1 f2, (n + 1) * Z.of_nat (length amts) <= Z.of_nat f1 -> 1000 * n + 2 <= Z.of_nat f2 ->
      setup_random_sites RA f1 f2 np_sum rnd ords (Z.of_nat dim) sz n bg amts buffer = Some r) /\
    (r = Err RuntimeError \/ exists s st, r = Ok (mkSim st s) /\ square_grid (grid_size dim sz) s /\
       configuration s st (fun _ q => q = bg \/ In q (dkeys amts)) /\
       Z.of_nat (length (without_phase s st bg)) = n /\
       (forall b, buffer = Some b -> separated s dim b (without_phase s st bg)) /\
       forall p a i, In (p, a) amts -> In i (with_phase s st p) ->
         let total := sum (map snd amts) in
         (total = 0 /\ 0 < a \/ 0 < a / total /\ IZR (Z.of_nat (length (with_phase s st p))) < IZR n * a / total + 1)%R).
Proof.
  intros dim sz n bg amts buffer rnd ords np_sum GS N0 UQ NB NZ LO SM. destruct (random_prepared dim sz bg buffer GS) as (s & L & nbg & G & SG & _ & EP & HN).
  assert (Ld : length (grid_size dim sz) = dim) by apply GS.
  assert (NE : sites s None <> []).
  { pose proof (gf_count _ _ _ G) as C. pose proof (prod_pos _ (gf_pos _ _ _ G)). intros E. rewrite E in C. simpl in C. lia. }
  set (F1 := Z.to_nat ((n + 1) * Z.of_nat (length amts))).
  destruct (signed_start n amts np_sum UQ NZ N0 SM F1 ltac:(lia)) as (ids & EI & LI & II & CI).
  set (rel := fun i j => match buffer with None => False | Some r => moore_rel s dim r i j end).
  assert (RI : forall i j, In i (map s_id (sites s None)) -> rel i j -> In j (map s_id (sites s None))).
  { intros i j _ H. unfold rel in H. destruct buffer as [b|]; [|destruct H]. rewrite <- Ld in H. eapply moore_rel_in; eauto. }
  assert (RS : forall i j, rel i j -> rel j i).
  { intros i j H. unfold rel in *. destruct buffer; auto. now apply moore_rel_sym. }
  destruct (random_gen RA (Z.of_nat dim) sz n bg amts buffer rnd ords np_sum s L nbg rel ids F1 (gf_built _ _ _ G) NE N0 LO EP HN RI RS NB ltac:(lia) EI LI II)
    as (r & U & [->|(st & -> & CF & CN & FA & CW)]).
  - exists (Err RuntimeError). auto.
  - eexists. split; [exact U|]. right. exists s, st. split; [reflexivity|]. split; auto. split; auto. split; auto. split.
    + intros b Eb. apply far_separated. intros i j Hi Hj D. specialize (FA i j Hi Hj D). unfold rel in FA. now rewrite Eb in FA.
    + intros p a i Hp Hi. cbv zeta. assert (Hs : In p (map fst amts)) by (apply (in_map fst) in Hp; auto).
      assert (Pb : p <> bg) by (intros ->; contradiction). specialize (CI p Hs). rewrite <- (CW p Pb) in CI. unfold quota in CI. rewrite (In_dget p a amts) in CI by auto.
      assert (1 <= IZR (Z.of_nat (length (with_phase s st p))))%R as C1.
      { apply IZR_le. destruct (with_phase s st p); [destruct Hi|simpl; lia]. }
      unfold turns in CI. destruct (Req_EM_T _ _) as [Z0|Z0]; [left|right].
      * split; auto. destruct (Rlt_dec 0 a); [auto|lra].
      * assert (Pn : (0 < a / sum (map snd amts) * IZR n)%R).
        { destruct (Rlt_dec 0 (a / sum (map snd amts) * IZR n)) as [|N]; auto. rewrite Rmax_left in CI; lra. }
        rewrite Rmax_right in CI by lra. apply IZR_le in N0. split.
        -- destruct (Rlt_dec 0 (a / sum (map snd amts))) as [|N]; auto. exfalso. nra.
        -- replace (IZR n * a / sum (map snd amts))%R with (a / sum (map snd amts) * IZR n)%R by (field; auto). auto.
Qed.

(** ** Ending, whatever the arguments *)
Lemma plant_ends {F} rnd ords n bg nbg (xs : list (site F)) ids : forall f planted t st, 1000 * n + 2 - t <= Z.of_nat f -> 0 <= t ->
  (0 < f)%nat -> exists r, plant f rnd ords n bg nbg xs ids planted t st = Some r.
Proof.
  induction f as [|f IH]; intros planted t st B T F0; [lia|]. cbn [plant]. destruct (planted <? n); [|eauto]. destruct (Z.gtb_spec t (1000 * n)); [eauto|].
  assert (F1 : (0 < f)%nat) by lia.
  destruct (choice xs (rnd (Z.to_nat t))) as [x|]; [|eauto]. destruct (occupancy st (s_id x)) as [v|]; [|eauto].
  destruct (negb (val_eqb v (VStr bg))); [apply IH; auto; lia|]. destruct (nucleus_nearby _ _ _ _ _) as [[|]|]; [apply IH; auto; lia| |eauto].
  destruct (list_getE ids planted); [apply IH; auto; lia|eauto].
Qed.
Lemma C68_terminates_lemma : forall dim sz n bg amts buffer rnd ords np_sum, uniq amts -> summation RA np_sum ->
  n <= 0 \/ amts = [] \/ (exists p a, In (p, a) amts /\ a <> 0%R) ->
  exists r, forall f1 f2, (Z.max n 0 + 1) * Z.of_nat (length amts) + 1 <= Z.of_nat f1 -> 1000 * Z.max n 0 + 2 <= Z.of_nat f2 ->
    setup_random_sites RA f1 f2 np_sum rnd ords dim sz n bg amts buffer = Some r.
Proof.
  intros dim sz n bg amts buffer rnd ords np_sum UQ SM H. unfold setup_random_sites. destruct (bind _ _) as [[[s st] nbg]|e]; [|eauto].
  assert (I : exists r, forall f1, (Z.max n 0 + 1) * Z.of_nat (length amts) + 1 <= Z.of_nat f1 ->
    nucleus_identities RA f1 n (map fst amts) (map fst amts) (ideal_num_sites RA np_sum amts n) (dict_of (map (fun p => (p, 0)) (map fst amts))) [] = Some r).
  { destruct (Z_le_gt_dec n 0) as [N|N].
    - exists (Ok []). intros f1 _. destruct f1; cbn [nucleus_identities length]; replace (Z.of_nat 0 <? n) with false by lia; auto.
    - destruct H as [H|[->|NZ]]; [lia| |].
      + exists (Err StopIteration). intros f1 B. destruct f1; [simpl in B; lia|]. cbn [nucleus_identities length map]. replace (Z.of_nat 0 <? n) with true by lia. auto.
      + set (F1 := Z.to_nat ((n + 1) * Z.of_nat (length amts))).
        destruct (signed_start n amts np_sum UQ NZ ltac:(lia) SM F1 ltac:(lia)) as (ids & EI & _). exists (Ok ids). intros f1 B.
        apply (identities_mono RA n _ _ F1 f1 ltac:(lia)). exact EI. }
  destruct I as (r & EI). destruct r as [ids|e].
  2: { exists (Err e). intros f1 f2 B1 _. now rewrite EI. }
  destruct (plant_ends rnd ords n bg nbg (sites s None) ids (Z.to_nat (1000 * Z.max n 0 + 2)) 0 0 st) as [r ER]; [lia|lia|lia|].
  exists (do st <- r; Ok (mkSim st s)). intros f1 f2 B1 B2. rewrite EI by auto.
  rewrite (plant_mono rnd ords n bg nbg (sites s None) ids (Z.to_nat (1000 * Z.max n 0 + 2)) f2 0 0 st r ltac:(lia) ER). destruct r; reflexivity.
Qed.
Lemma C68_empty_lemma : forall dim sz n bg buffer rnd ords np_sum, good_size dim sz -> 0 < n ->
  forall f1 f2, (0 < f1)%nat -> setup_random_sites RA f1 f2 np_sum rnd ords (Z.of_nat dim) sz n bg [] buffer = Some (Err StopIteration).
Proof.
  intros dim sz n bg buffer rnd ords np_sum GS N f1 f2 F0. destruct (random_prepared dim sz bg buffer GS) as (s & L & nbg & _ & _ & _ & EP & _).
  prep EP. destruct f1; [lia|]. cbn [nucleus_identities length map]. replace (Z.of_nat 0 <? n) with true by lia. auto.
Qed.
