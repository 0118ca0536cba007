(** Where the nuclei are put and in which order the phases take turns (C113, C114). *)
From Coq Require Import Reals Lra Permutation Classical.
From Verif Require Import Prelude Dict Val ValFacts Arith RVec RealArith LatticeModel JsonModel StructModel StateModel NbModel GridModel
  SimModel SetupModel SpecState SpecGeom SpecNb SpecGrid SpecSetup SpecPlant StateFacts JsonFacts LatticeFacts LatticeMore StructFacts StructMore StructBuild
  NbFacts NbMore GridFacts GridMore GridNb SetupFacts NucFacts NucMore.
Local Open Scope Z_scope.

(** ** Taking turns *)
Section Turns.
  Context {F : Type} (A : arith F).
  Variables (n : Z) (shares : list (string * R)) (ideal : dict string (npnum F)).
  Let species := map fst shares.
  Hypothesis UQ : NoDup species.
  Hypothesis N0 : 0 <= n.
  Hypothesis GET : forall p q, In (p, q) shares -> exists i, dget p ideal = Some i /\ forall k, 0 <= k <= n -> (np_below A k i = true <-> (IZR k < q)%R).
  Hypothesis QS : (IZR n - 1 < sum (map snd shares))%R.

  Definition rounds (k : nat) : list string := flat_map (round shares) (seq 0 k).
  Lemma rounds_S k : rounds (S k) = rounds k ++ round shares k.
  Proof. unfold rounds. rewrite seq_S, flat_map_app. cbn [flat_map Nat.add]. now rewrite app_nil_r. Qed.

  (** How often a phase with share [q] had a turn in the first rounds. *)
  Fixpoint had (q : R) (k : nat) : nat := match k with O => O | S k => if Rlt_dec (IZR (Z.of_nat k)) q then S (had q k) else had q k end.
  Lemma had_turn q k : (IZR (Z.of_nat (had q k)) < q <-> IZR (Z.of_nat k) < q)%R /\ ((IZR (Z.of_nat k) < q)%R -> had q k = k) /\ (had q k <= k)%nat.
  Proof.
    induction k as [|k (I1 & I2 & I3)]; cbn [had]; [split; [tauto|auto]|]. destruct (Rlt_dec (IZR (Z.of_nat k)) q) as [Y|N].
    - rewrite (I2 Y). split; [tauto|]. split; [auto|lia].
    - assert (NS : ~ (IZR (Z.of_nat (S k)) < q)%R). { intros H. apply N. apply Rle_lt_trans with (IZR (Z.of_nat (S k))); auto. apply IZR_le. lia. }
      split; [split; intros H; [apply I1 in H|]; contradiction|]. split; [intros H; contradiction|lia].
  Qed.
  Lemma cnt_app p l l' : cnt p (l ++ l') = cnt p l + cnt p l'.
  Proof. unfold cnt. rewrite count_occ_app. lia. Qed.
  Lemma cnt_part (l : list (string * R)) k p q : NoDup (map fst l) -> In (p, q) l -> cnt p (map fst (filter (turn k) l)) = if turn k (p, q) then 1 else 0.
  Proof.
    assert (Z : forall l : list (string * R), ~ In p (map fst l) -> cnt p (map fst (filter (turn k) l)) = 0).
    { intros m H. unfold cnt. rewrite (proj1 (count_occ_not_In string_dec _ p)); auto. intros I. apply H. apply in_map_iff in I as (x & <- & I). apply filter_In in I as [I _]. now apply in_map. }
    induction l as [|[a b] l IH]; intros U I; [destruct I|]. cbn [map fst] in U. inversion U as [|? ? U1 U2]; subst. destruct I as [E|I].
    - injection E as -> ->. cbn [filter]. destruct (turn k (p, q)) eqn:T; cbn [map fst]; [|now apply Z]. change (p :: ?x) with ([p] ++ x). rewrite cnt_app, (Z l U1). unfold cnt. simpl. destruct (string_dec p p); [auto|congruence].
    - assert (D : p <> a) by (intros ->; apply U1; apply (in_map fst) in I; auto). cbn [filter]. destruct (turn k (a, b)); cbn [map fst]; [|auto].
      change (a :: ?x) with ([a] ++ x). rewrite cnt_app, (IH U2 I). unfold cnt at 1. simpl. destruct (string_dec a p); [congruence|]. lia.
  Qed.
  Lemma cnt_rounds p q k : In (p, q) shares -> cnt p (rounds k) = Z.of_nat (had q k).
  Proof.
    intros I. induction k as [|k IH]; [reflexivity|]. rewrite rounds_S, cnt_app, IH. unfold round. rewrite (cnt_part _ k p q UQ I). unfold turn. cbn [had snd]. destruct (Rlt_dec _ _); lia.
  Qed.

  Lemma rounds_in k : incl (rounds k) species.
  Proof.
    intros p H. unfold rounds in H. apply in_flat_map in H as (j & _ & H). unfold round in H. apply in_map_iff in H as (x & <- & H). apply filter_In in H as [H _]. now apply in_map.
  Qed.
  Lemma rounds_long k : Z.of_nat k <= n -> (k <= length (rounds k))%nat.
  Proof.
    induction k as [|k IH]; intros K; [lia|]. specialize (IH ltac:(lia)). rewrite rounds_S, app_length.
    destruct (Z_lt_ge_dec (Z.of_nat (length (rounds k))) n) as [L|L]; [|lia].
    assert (exists p q, In (p, q) shares /\ (IZR (Z.of_nat k) < q)%R) as (p & q & I & H).
    { destruct (classic (exists p q, In (p, q) shares /\ (IZR (Z.of_nat k) < q)%R)) as [|NO]; auto. exfalso.
      assert (S : (sum (map snd shares) <= IZR (zsum (map (fun p => cnt p (rounds k)) species)))%R).
      { assert (B : forall l, incl l shares -> (sum (map snd l) <= IZR (zsum (map (fun p => cnt p (rounds k)) (map fst l))))%R).
        { induction l as [|[p q] l IHl]; intros HI; [unfold sum; simpl; lra|]. cbn [map fst snd]. unfold zsum. cbn [fold_right]. fold (zsum (map (fun p => cnt p (rounds k)) (map fst l))).
          unfold sum. cbn [fold_right]. fold (sum (map snd l)). rewrite plus_IZR. apply Rplus_le_compat; [|apply IHl; intros x Hx; apply HI; simpl; auto].
          rewrite (cnt_rounds p q k) by (apply HI; simpl; auto). apply Rnot_lt_le. intros H. apply (proj1 (had_turn q k)) in H. apply NO. exists p, q. split; auto. apply HI; simpl; auto. }
        apply B. intros x Hx; exact Hx. }
      rewrite cnt_sum in S by (auto using rounds_in). assert (IZR (Z.of_nat (length (rounds k))) <= IZR (n - 1))%R by (apply IZR_le; lia). rewrite minus_IZR in *. lra. }
    assert (0 < length (round shares k))%nat; [|lia]. unfold round. rewrite map_length.
    assert (X : In (p, q) (filter (turn k) shares)) by (apply filter_In; split; auto; unfold turn; cbn [snd]; destruct (Rlt_dec _ _); auto).
    destruct (filter (turn k) shares); [destruct X|simpl; lia].
  Qed.

  Lemma rounds_more k j : exists w, rounds (k + j) = rounds k ++ w.
  Proof. induction j as [|j [w IH]]; [exists []; rewrite Nat.add_0_r, app_nil_r; auto|]. exists (w ++ round shares (k + j)). rewrite Nat.add_succ_r, rounds_S, IH. now rewrite app_assoc. Qed.

  Lemma turns_run : forall fuel done rest real ids ids' k, shares = done ++ rest -> ids = rounds k ++ map fst (filter (turn k) done) ->
    (forall p, In p species -> dget p real = Some (cnt p ids)) -> Z.of_nat (length ids) <= n ->
    nucleus_identities A fuel n species (map fst rest) ideal real ids = Some (Ok ids') -> Z.of_nat (length ids') <= n /\ exists k' w, rounds k' = ids' ++ w.
  Proof.
    assert (STEP : forall fuel, (forall done rest real ids ids' k, shares = done ++ rest -> ids = rounds k ++ map fst (filter (turn k) done) ->
        (forall p, In p species -> dget p real = Some (cnt p ids)) -> Z.of_nat (length ids) <= n ->
        nucleus_identities A fuel n species (map fst rest) ideal real ids = Some (Ok ids') -> Z.of_nat (length ids') <= n /\ exists k' w, rounds k' = ids' ++ w) ->
      forall done p q rest real ids ids' k, shares = done ++ (p, q) :: rest -> ids = rounds k ++ map fst (filter (turn k) done) ->
        (forall p, In p species -> dget p real = Some (cnt p ids)) -> Z.of_nat (length ids) < n ->
        (match dget p real, dget p ideal with
            | Some r, Some i =>
                if np_below A r i
                then nucleus_identities A fuel n species (map fst rest) ideal (dset p (r + 1)%Z real) (ids ++ [p])
                else nucleus_identities A fuel n species (map fst rest) ideal real ids
            | _, _ => Some (Err TypeError)
            end) = Some (Ok ids') -> Z.of_nat (length ids') <= n /\ exists k' w, rounds k' = ids' ++ w).
    { intros fuel IH done p q rest real ids ids' k ES EI RE LN. assert (I : In (p, q) shares) by (rewrite ES; apply in_or_app; simpl; auto).
      assert (Ip : In p species) by (apply (in_map fst) in I; auto). rewrite (RE p Ip). destruct (GET p q I) as (i & -> & B).
      assert (C : cnt p ids = Z.of_nat (had q k)).
      { rewrite EI, cnt_app, (cnt_rounds p q k I). assert (Z0 : cnt p (map fst (filter (turn k) done)) = 0); [|lia].
        unfold cnt. rewrite (proj1 (count_occ_not_In string_dec _ p)); auto. intros H. apply in_map_iff in H as (x & Ex & H). apply filter_In in H as [H _].
        unfold species in UQ. rewrite ES, map_app in UQ. cbn [map fst] in UQ. apply NoDup_remove_2 in UQ. apply UQ. apply in_or_app. left. rewrite <- Ex. now apply in_map. }
      assert (T : np_below A (cnt p ids) i = turn k (p, q)).
      { assert (X : np_below A (cnt p ids) i = true <-> (IZR (cnt p ids) < q)%R) by (apply B; pose proof (count_occ_bound string_dec p ids) as CB; unfold cnt; lia).
        rewrite C in *. rewrite (proj1 (had_turn q k)) in X. unfold turn. cbn [snd]. destruct (Rlt_dec _ _) as [Y|N]; [now apply X|]. destruct (np_below _ _ _); auto. exfalso. apply N, X; auto. }
      rewrite T. assert (ES' : shares = (done ++ [(p, q)]) ++ rest) by (rewrite <- app_assoc; exact ES). destruct (turn k (p, q)) eqn:ET.
      - apply IH with (k := k) (done := done ++ [(p, q)]); auto.
        + rewrite EI, filter_app, map_app, app_assoc. cbn [filter]. rewrite ET. reflexivity.
        + intros p' Hp'. rewrite dget_dset, cnt_snoc. destruct (eqb_spec p' p) as [E|D].
          * rewrite E. destruct (string_dec p p); [auto|congruence].
          * rewrite (RE p' Hp'). destruct (string_dec p p'); [congruence|]. f_equal. lia.
        + rewrite app_length. simpl. lia.
      - apply IH with (k := k) (done := done ++ [(p, q)]); auto; [|lia]. rewrite EI, filter_app, map_app. cbn [filter]. rewrite ET. cbn [map]. now rewrite app_nil_r. }
    induction fuel as [|fuel IH]; intros done rest real ids ids' k ES EI RE LN; cbn [nucleus_identities].
    - destruct (Z.of_nat (length ids) <? n); [discriminate|]. intros E. injection E as <-. split; auto. exists (S k), (map fst (filter (turn k) rest)).
      rewrite rounds_S. unfold round. rewrite ES at 1. rewrite filter_app, map_app, EI. now rewrite app_assoc.
    - destruct (Z.ltb_spec (Z.of_nat (length ids)) n) as [LT|GE].
      2: { intros E. injection E as <-. split; auto. exists (S k), (map fst (filter (turn k) rest)). rewrite rounds_S. unfold round. rewrite ES at 1. rewrite filter_app, map_app, EI. now rewrite app_assoc. }
      destruct rest as [|[p q] rest]; cbn [map fst].
      + rewrite app_nil_r in ES. subst done. destruct species as [|p sp] eqn:Esp; [discriminate|]. unfold species in Esp. destruct shares as [|[p' q] rest] eqn:Esh; [discriminate|]. cbn [map fst] in Esp. injection Esp as <- <-.
        rewrite <- Esh in *. fold species. apply (STEP fuel IH [] p' q rest real ids ids' (S k)); auto. cbn [filter map]. rewrite app_nil_r, rounds_S. exact EI.
      + apply (STEP fuel IH done p q rest real ids ids' k); auto.
  Qed.

  Lemma firstn_app_len {B} (l l' : list B) m : (m <= length l)%nat -> firstn m (l ++ l') = firstn m l.
  Proof. intros H. rewrite firstn_app. replace (m - length l)%nat with O by lia. cbn [firstn]. now rewrite app_nil_r. Qed.
  Lemma turns_start fuel ids : nucleus_identities A fuel n species species ideal (dict_of (map (fun p => (p, 0)) species)) [] = Some (Ok ids) ->
    Z.of_nat (length ids) = n -> ids = in_turn n shares.
  Proof.
    intros E L. destruct (turns_run fuel [] shares (dict_of (map (fun p => (p, 0)) species)) [] ids 0 eq_refl eq_refl) as (_ & k & w & W).
    - intros p Hp. rewrite dget_dict_of.
      + apply In_dget; [unfold uniq, dkeys; rewrite map_map; cbn [fst]; rewrite map_id; exact UQ|]. change (cnt p []) with 0. apply in_map_iff. exists p. auto.
      + rewrite map_map. cbn [fst]. rewrite map_id. exact UQ.
    - simpl. lia.
    - exact E.
    - set (m := Z.to_nat n). assert (Lm : length ids = m) by lia. pose proof (rounds_long m ltac:(lia)) as RL.
      assert (X : ids = firstn m (rounds k)) by (rewrite W, <- Lm, firstn_app, Nat.sub_diag, firstn_all; cbn [firstn]; now rewrite app_nil_r).
      unfold in_turn. fold m. fold (rounds m). assert (Lk : (m <= length (rounds k))%nat) by (rewrite W, app_length; lia).
      destruct (Nat.le_ge_cases k m) as [H|H].
      + destruct (rounds_more k (m - k)) as [w' W']. replace (k + (m - k))%nat with m in W' by lia. rewrite W', firstn_app_len; auto.
      + destruct (rounds_more m (k - m)) as [w' W']. replace (m + (k - m))%nat with k in W' by lia. rewrite X, W', firstn_app_len; auto.
  Qed.
End Turns.

(** ** Planting *)
Lemma greedy_more near : forall ds' ds l, greedy near ds l -> exists l', greedy near (ds ++ ds') (l ++ l').
Proof.
  induction ds' as [|d ds' IH]; intros ds l G; [exists []; rewrite !app_nil_r; auto|].
  destruct (classic (exists j, In j l /\ (j = d \/ near d j))) as [H|H].
  - destruct (IH (ds ++ [d]) l (greedy_skip near ds l d G H)) as [l' G']. exists l'. rewrite <- app_assoc in G'. exact G'.
  - destruct (IH (ds ++ [d]) (l ++ [d])) as [l' G'].
    + apply greedy_take; auto. intros j Hj. split; intros X; apply H; exists j; auto.
    + exists (d :: l'). rewrite <- !app_assoc in G'. exact G'.
Qed.

Section Greedy.
  Context {F : Type} (A : arith F).
  Variables (s : structure F) (L : lattice F) (n : Z) (bg : string) (nbg : option (nbhood F)) (rel : Z -> Z -> Prop) (nuc : list string).
  Variables (rnd : nat -> nat) (ords : nat -> @nb_oracle F).
  Hypothesis HB : built A L s.
  Let xs := sites s None.
  Let all := map s_id xs.
  Hypothesis NE : xs <> [].
  Hypothesis LO : forall t, legal (ords t).
  Hypothesis HN : forall o i, legal o -> In i all -> exists l, (match nbg with None => Ok [] | Some N => neighbors_of o N i end) = Ok l /\
    forall j, In j l <-> rel i j.
  Hypothesis RI : forall i j, In i all -> rel i j -> In j all.
  Hypothesis RS : forall i j, rel i j -> rel j i.
  Hypothesis NL : Z.of_nat (length nuc) = n.
  Hypothesis NB : ~ In bg nuc.
  Let lay (g : Z -> string) := layout xs (fun i => VStr (g i)).
  Let k := Z.of_nat (length xs).
  Let draws := candidates rnd k.

  Lemma drawn t : exists x, choice xs (rnd t) = Ok x /\ In (s_id x) all /\ s_id x = Z.of_nat (rnd t) mod k.
  Proof.
    assert (K : (length xs <> 0)%nat) by (destruct xs; [congruence|simpl; lia]). pose proof (Nat.mod_upper_bound (rnd t) _ K) as U.
    unfold choice. destruct (nth_error xs (rnd t mod length xs)) as [x|] eqn:E; [|apply nth_error_None in E; lia].
    exists x. split; auto. split; [apply in_map; eapply nth_error_In; eauto|]. apply (map_nth_error s_id) in E. rewrite (built_dense A L s HB : map s_id xs = _) in E.
    fold xs in E. rewrite GridFacts.zrange_nth in E by lia. injection E as <-. unfold k. rewrite <- Nat2Z.inj_mod. lia.
  Qed.
  Lemma draws_S t : 0 <= t -> draws (t + 1) = draws t ++ [Z.of_nat (rnd (Z.to_nat t)) mod k].
  Proof. intros T. unfold draws, candidates. rewrite Z2Nat.inj_add by lia. rewrite Nat.add_1_r, seq_S, map_app. reflexivity. Qed.

  Lemma plant_greedy : forall fuel planted t g P, 0 <= t -> pl_inv s n bg rel nuc planted g P -> greedy rel (draws t) P ->
    1000 * n + 2 - t <= Z.of_nat fuel -> t <= 1000 * n + 1 ->
    exists l, greedy rel (draws (1000 * n + 1)) l /\
      (Z.of_nat (length l) < n -> plant fuel rnd ords n bg nbg xs nuc planted t (lay g) = Some (Err RuntimeError)) /\
      (n <= Z.of_nat (length l) -> exists g', plant fuel rnd ords n bg nbg xs nuc planted t (lay g) = Some (Ok (lay g')) /\ pl_inv s n bg rel nuc n g' (firstn (Z.to_nat n) l)).
  Proof.
    induction fuel as [|fuel IH]; intros planted t g P Ht PI GR HF Hle; [lia|]. cbn [plant]. pose proof (pi_len _ _ _ _ _ _ _ _ PI) as PL.
    destruct (planted <? n) eqn:E.
    2:{ pose proof (pi_le _ _ _ _ _ _ _ _ PI). assert (planted = n) by lia.
        destruct (greedy_more rel (map (fun t => Z.of_nat (rnd t) mod k) (seq (Z.to_nat t) (Z.to_nat (1000 * n + 1 - t)))) _ _ GR) as [l' G'].
        exists (P ++ l'). split; [|split].
        - replace (draws (1000 * n + 1)) with (draws t ++ map (fun t => Z.of_nat (rnd t) mod k) (seq (Z.to_nat t) (Z.to_nat (1000 * n + 1 - t)))); auto.
          unfold draws, candidates. rewrite <- map_app, <- seq_app. do 2 f_equal. lia.
        - rewrite app_length. lia.
        - intros _. exists g. split; auto. rewrite firstn_app_len by lia. rewrite firstn_all2 by lia. congruence. }
    apply Z.ltb_lt in E. destruct (t >? 1000 * n) eqn:ET.
    { exists P. replace (1000 * n + 1) with t by lia. split; auto. split; [auto|lia]. }
    assert (t <= 1000 * n) by lia. pose proof (draws_S t Ht) as DS.
    destruct (drawn (Z.to_nat t)) as (x & Ex & Hi & Ed). rewrite Ex. rewrite <- Ed in DS.
    rewrite (lay_occ A s L HB g (s_id x) Hi : occupancy (lay g) (s_id x) = _). cbn [val_eqb]. destruct (String.eqb_spec (g (s_id x)) bg) as [Eb|Nb]; cbn [negb].
    2:{ apply (IH planted (t + 1) g P); auto; try lia. rewrite DS. apply greedy_skip; auto. exists (s_id x). split; auto. now apply (pi_bg _ _ _ _ _ _ _ _ PI). }
    destruct (nearby_ok A s L bg nbg rel ords HB LO HN RI (Z.to_nat t) g (s_id x) Hi) as (b & Enb & Hb). change (nucleus_nearby (ords (Z.to_nat t)) nbg (lay g) bg (s_id x) = Ok b) in Enb. rewrite Enb. destruct b.
    - apply (IH planted (t + 1) g P); auto; try lia. rewrite DS. apply greedy_skip; auto.
      destruct (classic (exists j, In j P /\ (j = s_id x \/ rel (s_id x) j))) as [Y|N]; auto. exfalso. assert (true = false); [|discriminate]. apply Hb.
      intros j Hj. destruct (string_dec (g j) bg) as [|D]; auto. exfalso. apply N. exists j. split; auto. apply (pi_bg _ _ _ _ _ _ _ _ PI); auto. eapply RI; eauto.
    - pose proof (proj1 Hb eq_refl) as Clear. clear Hb.
      set (i := s_id x) in *.
      assert (Lt : (length P < length nuc)%nat) by lia.
      destruct (nth_error nuc (length P)) as [q|] eqn:Eq; [|apply nth_error_None in Eq; lia].
      rewrite <- PL, list_getE_nat, Eq. cbv iota beta.
      unfold lay at 1 2. rewrite set_layout by (auto; exact (ND A s L HB)).
      set (g' := fun j => if j =? i then q else g j).
      rewrite (layout_ext xs _ (fun j => VStr (g' j))).
      2:{ intros j _. unfold upd, g'. destruct (j =? i); auto. }
      fold (lay g'). assert (NP : ~ In i P) by (rewrite (pi_bg _ _ _ _ _ _ _ _ PI i Hi); congruence).
      assert (Nq : q <> bg) by (intros ->; apply NB; eapply nth_error_In; eauto).
      assert (GP : forall j, In j P -> g' j = g j). { intros j Hj. unfold g'. replace (j =? i) with false; auto. symmetry. apply Z.eqb_neq. intros ->. contradiction. }
      assert (CL : forall j, In j P -> ~ rel i j).
      { intros j Hj R. apply Clear in R. apply (pi_bg _ _ _ _ _ _ _ _ PI j) in Hj; auto. now apply (pi_sub _ _ _ _ _ _ _ _ PI). }
      apply (IH (Z.of_nat (length P) + 1) (t + 1) g' (P ++ [i])); auto; try lia.
      2:{ rewrite DS. apply greedy_take; auto. intros j Hj. split; [intros ->; contradiction|auto]. }
      constructor.
      + apply NoDup_app_single; [apply (pi_nodup _ _ _ _ _ _ _ _ PI)|auto].
      + rewrite app_length. simpl. lia.
      + intros j Hj. apply in_app_or in Hj as [Hj|[<-|[]]]; auto. now apply (pi_sub _ _ _ _ _ _ _ _ PI).
      + intros j Hj. rewrite in_app_iff, (pi_bg _ _ _ _ _ _ _ _ PI j Hj). unfold g'. destruct (Z.eqb_spec j i) as [->|D].
        * split; auto. intros _. right. simpl. auto.
        * split; auto. intros [H0|[H0|[]]]; auto.
      + rewrite map_app, app_length. cbn [map length]. unfold g' at 2. rewrite Z.eqb_refl. rewrite (map_ext_in g' g P GP), (pi_spec _ _ _ _ _ _ _ _ PI).
        rewrite Nat.add_1_r. clear -Eq. revert nuc Eq. induction (length P) as [|m IHk]; intros [|a l] Eq; cbn [nth_error] in Eq; try discriminate.
        * injection Eq as ->. reflexivity.
        * change (firstn (S (S m)) (a :: l)) with (a :: firstn (S m) l). rewrite <- (IHk l Eq). reflexivity.
      + intros a b Ha Hb D. apply in_app_or in Ha as [Ha|[<-|[]]]; apply in_app_or in Hb as [Hb|[<-|[]]]; try congruence; auto.
        * now apply (pi_far _ _ _ _ _ _ _ _ PI).
        * intros R. apply RS in R. now apply (CL a).
      + lia.
  Qed.
End Greedy.

Lemma greedy_iff (near near' : Z -> Z -> Prop) ds l : (forall i j, In i ds -> In j ds -> near i j <-> near' i j) -> greedy near ds l -> greedy near' ds l /\ incl l ds.
Proof.
  intros H G. induction G as [|ds l d G IH E|ds l d G IH E].
  - split; [constructor|intros x []].
  - destruct IH as [G' I]; [intros; apply H; apply in_or_app; auto|]. split.
    + apply greedy_skip; auto. destruct E as (j & Hj & E). exists j. split; auto. rewrite <- (H d j); auto; apply in_or_app; simpl; auto.
    + intros x Hx. apply in_or_app. auto.
  - destruct IH as [G' I]; [intros; apply H; apply in_or_app; auto|]. split.
    + apply greedy_take; auto. intros j Hj. rewrite <- (H d j); auto; apply in_or_app; simpl; auto.
    + intros x Hx. apply in_or_app. apply in_app_or in Hx as [Hx|Hx]; auto.
Qed.

Lemma nth_error_map_eq {B C} (f : B -> C) l l' m x y : map f l = l' -> nth_error l m = Some x -> nth_error l' m = Some y -> f x = y.
Proof. intros <- H1 H2. rewrite (map_nth_error f m l H1) in H2. congruence. Qed.

Lemma random_exact {F} (A : arith F) dimz sz n bg amts buffer rnd ords np_sum s L nbg (rel : Z -> Z -> Prop) ids F1 :
  built A L s -> sites s None <> [] -> 0 <= n -> (forall t, legal (ords t)) ->
  (do s <- build_structure A dimz sz;
           let state := setup_solid_phase s bg in
           do nb_graph <- match buffer with
                          | None => Ok None
                          | Some r => do b <- MooreNbHoodBuilder A r (p_dim s);
                                      do N <- nb_get A b s None; Ok (Some N)
                          end;
           Ok (s, state, nb_graph)) = Ok (s, layout (sites s None) (fun _ => VStr bg), nbg) ->
  (forall o i, legal o -> In i (map s_id (sites s None)) -> exists l, (match nbg with None => Ok [] | Some N => neighbors_of o N i end) = Ok l /\
    forall j, In j l <-> rel i j) ->
  (forall i j, In i (map s_id (sites s None)) -> rel i j -> In j (map s_id (sites s None))) -> (forall i j, rel i j -> rel j i) ->
  ~ In bg (dkeys amts) -> Z.of_nat F1 <= (n + 1) * Z.of_nat (length amts) ->
  nucleus_identities A F1 n (map fst amts) (map fst amts) (ideal_num_sites A np_sum amts n) (dict_of (map (fun p => (p, 0)) (map fst amts))) [] = Some (Ok ids) ->
  Z.of_nat (length ids) = n -> incl ids (map fst amts) ->
  exists l r, greedy rel (candidates rnd (Z.of_nat (length (sites s None))) (1000 * n + 1)) l /\
    (forall f1 f2, (n + 1) * Z.of_nat (length amts) <= Z.of_nat f1 -> 1000 * n + 2 <= Z.of_nat f2 ->
      setup_random_sites A f1 f2 np_sum rnd ords dimz sz n bg amts buffer = Some r) /\
    (Z.of_nat (length l) < n -> r = Err RuntimeError) /\
    (n <= Z.of_nat (length l) -> exists st, r = Ok (mkSim st s) /\ nucleated s st bg (firstn (Z.to_nat n) l) ids).
Proof.
  intros BU NE N0 LO EP HN RI RS NB LF EI LI II.
  set (F2 := Z.to_nat (1000 * n + 2)).
  assert (NBI : ~ In bg ids) by (intros H; apply NB, II, H).
  destruct (plant_greedy A s L n bg nbg rel ids rnd ords BU NE LO HN RI RS LI NBI F2 0 0 (fun _ => bg) [] ltac:(lia)
     (inv_start s n bg rel ids N0) (greedy_none rel) ltac:(lia) ltac:(lia)) as (l & GR & P1 & P2).
  assert (U : forall r, plant F2 rnd ords n bg nbg (sites s None) ids 0 0 (layout (sites s None) (fun _ => VStr bg)) = Some r ->
    forall f1 f2, (n + 1) * Z.of_nat (length amts) <= Z.of_nat f1 -> 1000 * n + 2 <= Z.of_nat f2 ->
      setup_random_sites A f1 f2 np_sum rnd ords dimz sz n bg amts buffer = Some (do st <- r; Ok (mkSim st s))).
  { intros r ER f1 f2 B1 B2. prep EP.
    rewrite (identities_mono A n _ _ F1 f1 ltac:(lia) _ _ _ _ EI).
    rewrite (plant_mono rnd ords n bg nbg (sites s None) ids F2 f2 0 0 _ r ltac:(lia) ER). destruct r; reflexivity. }
  exists l. destruct (Z_lt_ge_dec (Z.of_nat (length l)) n) as [LT|GE].
  - exists (Err RuntimeError). split; auto. split; [exact (U _ (P1 LT))|]. split; [auto|lia].
  - destruct (P2 ltac:(lia)) as (g & PR & PI). exists (Ok (mkSim (layout (sites s None) (fun i => VStr (g i))) s)). split; auto. split; [exact (U _ PR)|]. split; [lia|].
    intros _. eexists. split; [reflexivity|]. apply (config_layout A L s _ _ BU). intros i x Gx. exists (g i). split; auto.
    assert (Hi : In i (map s_id (sites s None))) by (apply (get_site_ids A L s i BU); eauto).
    set (P := firstn (Z.to_nat n) l) in *. assert (SP : map g P = ids).
    { rewrite (pi_spec _ _ _ _ _ _ _ _ PI). apply firstn_all2. pose proof (pi_len _ _ _ _ _ _ _ _ PI). lia. }
    destruct (in_dec Z.eq_dec i P) as [I|I].
    + left. apply In_nth_error in I as [m Em]. exists m. split; auto. rewrite <- SP. now apply map_nth_error.
    + right. split; auto. destruct (string_dec (g i) bg) as [|D]; auto. exfalso. apply I. now apply (pi_bg _ _ _ _ _ _ _ _ PI).
Qed.

Lemma shares_snd {B} (f : B -> R) (amts : list (string * B)) : map fst (map (fun pa => (fst pa, f (snd pa))) amts) = map fst amts /\ map snd (map (fun pa => (fst pa, f (snd pa))) amts) = map (fun pa => f (snd pa)) amts.
Proof. rewrite !map_map. split; reflexivity. Qed.

Lemma real_turns n amts np_sum fuel ids bg : 0 <= n -> amounts_ok bg amts -> summation RA np_sum ->
  nucleus_identities RA fuel n (map fst amts) (map fst amts) (ideal_num_sites RA np_sum amts n) (dict_of (map (fun p => (p, 0)) (map fst amts))) [] = Some (Ok ids) ->
  Z.of_nat (length ids) = n -> ids = in_turn n (map (fun pa => (fst pa, (IZR n * snd pa / sum (map snd amts))%R)) amts).
Proof.
  intros N0 (UQ & NB & NN & TP) SM E L. set (f := fun a => (IZR n * a / sum (map snd amts))%R).
  destruct (shares_snd f amts) as [S1 S2]. apply (turns_start RA n (map (fun pa => (fst pa, f (snd pa))) amts) (ideal_num_sites RA np_sum amts n)) with (fuel := fuel); auto; rewrite ?S1; auto.
  - intros p q H. apply in_map_iff in H as ([p' a] & E' & H). cbn [fst snd] in E'. injection E' as <- <-. exists (Fin (share n amts p')). split.
    + apply ideal_get; auto. apply (in_map fst) in H. exact H.
    + intros k _. cbn [np_below a_ltb a_ofZ RA]. assert (X : share n amts p' = f a). { unfold share, f. rewrite (In_dget p' a amts) by auto. field. lra. } rewrite X. destruct (Rlt_dec _ _); split; auto; discriminate.
  - rewrite S2. assert (X : map (fun pa => f (snd pa)) amts = map (share n amts) (map fst amts)).
    { rewrite map_map. apply map_ext_in. intros [p a] H. unfold share, f. cbn [fst snd]. rewrite (In_dget p a amts) by auto. field. lra. }
    rewrite X, share_sum by auto. lra.
Qed.

Lemma moore_too_near s dim r i j : moore_rel s dim r i j <-> too_near s dim (Some r) i j.
Proof.
  split.
  - intros (D & x & d & Lx & Ld & W & C1 & C2). split; [congruence|]. exists r, x, (shift x d). repeat (split; auto); [rewrite shift_length; congruence|].
    assert (LL : length x = length d) by congruence. clear -W LL. revert x LL. induction W as [|a d B W IH]; intros [|b x] LL; try discriminate; cbn; constructor; [lia|]. apply IH. simpl in LL. lia.
  - intros (D & r' & x & y & E & Lx & Ly & C1 & C2 & F). injection E as <-. destruct (classic (moore_rel s dim r i j)) as [|N]; auto. exfalso.
    assert (SP : separated s dim r [i; j]).
    { apply far_separated. intros a b [<-|[<-|[]]] [<-|[<-|[]]] X; try congruence; auto. intros R. apply N. now apply moore_rel_sym. }
    refine (SP i j x y _ _ D Lx Ly C1 C2 F); simpl; auto.
Qed.

Lemma C113_lemma : forall dim sz n bg amts buffer rnd ords np_sum, good_size dim sz -> 0 <= n -> amounts_ok bg amts -> (forall t, legal (ords t)) -> summation RA np_sum ->
  exists s l r, square_grid (grid_size dim sz) s /\
    greedy (too_near s dim buffer) (candidates rnd (Z.of_nat (length (sites s None))) (1000 * n + 1)) l /\
    (forall f1 f2, (n + 1) * Z.of_nat (length amts) <= Z.of_nat f1 -> 1000 * n + 2 <= Z.of_nat f2 ->
      setup_random_sites RA f1 f2 np_sum rnd ords (Z.of_nat dim) sz n bg amts buffer = Some r) /\
    (Z.of_nat (length l) < n -> r = Err RuntimeError) /\
    (n <= Z.of_nat (length l) -> exists st, r = Ok (mkSim st s) /\
       nucleated s st bg (firstn (Z.to_nat n) l) (in_turn n (map (fun pa => (fst pa, (IZR n * snd pa / sum (map snd amts))%R)) amts))).
Proof.
  intros dim sz n bg amts buffer rnd ords np_sum GS N0 AO LO SM. destruct (random_prepared dim sz bg buffer GS) as (s & L & nbg & G & SG & _ & EP & HN).
  pose proof AO as (UQ & NB & NN & TP). assert (Ld : length (grid_size dim sz) = dim) by apply GS.
  assert (NE : sites s None <> []).
  { pose proof (gf_count _ _ _ G) as C. pose proof (prod_pos _ (gf_pos _ _ _ G)). intros E. rewrite E in C. simpl in C. lia. }
  set (F1 := Z.to_nat ((n + 1) * Z.of_nat (length amts))).
  destruct (identities_start n amts np_sum UQ NN TP N0 SM F1 ltac:(lia)) as (ids & EI & LI & II & CI).
  set (rel := fun i j => match buffer with None => False | Some r => moore_rel s dim r i j end).
  assert (RI : forall i j, In i (map s_id (sites s None)) -> rel i j -> In j (map s_id (sites s None))).
  { intros i j _ H. unfold rel in H. destruct buffer as [b|]; [|destruct H]. rewrite <- Ld in H. eapply moore_rel_in; eauto. }
  assert (RS : forall i j, rel i j -> rel j i).
  { intros i j H. unfold rel in *. destruct buffer; auto. now apply moore_rel_sym. }
  destruct (random_exact RA (Z.of_nat dim) sz n bg amts buffer rnd ords np_sum s L nbg rel ids F1 (gf_built _ _ _ G) NE N0 LO EP HN RI RS NB ltac:(lia) EI LI II)
    as (l & r & GR & U & P1 & P2).
  exists s, l, r. split; auto. split; [|split; [auto|split; [auto|]]].
  - refine (proj1 (greedy_iff _ _ _ _ _ GR)). intros i j _ _. unfold rel. destruct buffer as [b|]; [apply moore_too_near|]. split; [tauto|]. intros (_ & b & x & y & E & _). discriminate.
  - rewrite <- (real_turns n amts np_sum F1 ids bg N0 AO SM EI LI). exact P2.
Qed.

(** ** When the nuclei do not fit *)
Lemma greedy_NoDup near ds l : greedy near ds l -> NoDup l.
Proof. intros G. induction G as [|ds l d G IH E|ds l d G IH E]; auto; [constructor|]. apply NoDup_app_single; auto. intros H. now destruct (E d H). Qed.
Lemma greedy_same near ds l d : greedy near ds l -> (forall x, In x ds -> x = d) -> (length l <= 1)%nat.
Proof.
  intros G H. pose proof (greedy_NoDup _ _ _ G) as ND. destruct (greedy_iff near near ds l ltac:(tauto) G) as [_ I].
  destruct l as [|a [|b l]]; simpl; auto. exfalso. inversion ND as [|? ? N _]; subst. apply N. left. rewrite (H a), (H b); auto; apply I; simpl; auto.
Qed.

Lemma C114_lemma : forall dim sz n bg amts buffer rnd ords np_sum, good_size dim sz -> 0 <= n -> amounts_ok bg amts -> (forall t, legal (ords t)) -> summation RA np_sum ->
  exists s, square_grid (grid_size dim sz) s /\
   ((forall l, NoDup l -> incl l (map s_id (sites s None)) -> (forall b, buffer = Some b -> separated s dim b l) -> Z.of_nat (length l) < n) ->
    forall f1 f2, (n + 1) * Z.of_nat (length amts) <= Z.of_nat f1 -> 1000 * n + 2 <= Z.of_nat f2 ->
      setup_random_sites RA f1 f2 np_sum rnd ords (Z.of_nat dim) sz n bg amts buffer = Some (Err RuntimeError)).
Proof.
  intros dim sz n bg amts buffer rnd ords np_sum GS N0 AO LO SM. destruct (C113_lemma dim sz n bg amts buffer rnd ords np_sum GS N0 AO LO SM) as (s & l & r & SG & GR & U & P1 & P2).
  exists s. split; auto. intros NF f1 f2 B1 B2. rewrite (U f1 f2 B1 B2). f_equal. apply P1. destruct (Z_lt_ge_dec (Z.of_nat (length l)) n) as [|GE]; auto. exfalso.
  destruct (P2 ltac:(lia)) as (st & E & _). destruct (random_run dim sz n bg amts buffer rnd ords np_sum GS N0 AO LO SM) as (r' & U' & [X|(s' & st' & X & SG' & CF & CN & SP & _)]).
  - specialize (U f1 f2 B1 B2). specialize (U' f1 f2 B1 B2). rewrite U' in U. injection U as U. congruence.
  - specialize (U f1 f2 B1 B2). specialize (U' f1 f2 B1 B2). rewrite U' in U. injection U as U. rewrite X, E in U. injection U as <- <-.
    destruct (square_facts _ _ SG) as [L G].
    assert (NoDup (map s_id (sites s' None))) as ND by (apply dense_NoDup, (built_dense RA L s' (gf_built _ _ _ G))).
    specialize (NF (without_phase s' st' bg) ltac:(now apply NoDup_filter) ltac:(intros x Hx; apply filter_In in Hx; tauto) SP). lia.
Qed.
Lemma C114_refuted_lemma : forall dim sz n bg amts buffer d ords np_sum, good_size dim sz -> 2 <= n -> amounts_ok bg amts -> (forall t, legal (ords t)) -> summation RA np_sum ->
  forall f1 f2, (n + 1) * Z.of_nat (length amts) <= Z.of_nat f1 -> 1000 * n + 2 <= Z.of_nat f2 ->
    setup_random_sites RA f1 f2 np_sum (fun _ => d) ords (Z.of_nat dim) sz n bg amts buffer = Some (Err RuntimeError).
Proof.
  intros dim sz n bg amts buffer d ords np_sum GS N0 AO LO SM f1 f2 B1 B2.
  destruct (C113_lemma dim sz n bg amts buffer (fun _ => d) ords np_sum GS ltac:(lia) AO LO SM) as (s & l & r & SG & GR & U & P1 & P2).
  rewrite (U f1 f2 B1 B2). f_equal. apply P1. assert (length l <= 1)%nat; [|lia].
  apply (greedy_same _ _ _ (Z.of_nat d mod Z.of_nat (length (sites s None))) GR). intros x Hx. unfold candidates in Hx. apply in_map_iff in Hx as (t & <- & _). reflexivity.
Qed.
