(** The rules on states in which sites or phases are missing (C111). *)
From Coq Require Import Reals Permutation.
From Verif Require Import Prelude Dict Val ValFacts Arith RealArith LatticeModel StructModel StateModel ResultModel RunnerModel NbModel GridModel SimModel SetupModel RulesModel
  SpecState SpecResult SpecRunner SpecGeom SpecNb SpecGrid SpecSetup SpecRules SpecMissing StateFacts ResultFacts RunnerFacts SyncFacts ParFacts ParRun GenRun
  LatticeFacts StructFacts StructMore NbFacts NbMore GridFacts GridMore GridNb SetupFacts RulesFacts LifeFacts.
Local Open Scope Z_scope.

Lemma reads_occ st i v : reads st i v -> occupancy_of st (KInt i) = Ok v.
Proof. unfold reads, site_entry, occupancy_of, dgetE, DISCRETE_OCCUPANCY. destruct (get_site_state st (KInt i)); [|discriminate]. intros ->. reflexivity. Qed.
Lemma lacks_occ st i e : lacks st i e -> occupancy_of st (KInt i) = Err e.
Proof.
  unfold occupancy_of, dgetE, DISCRETE_OCCUPANCY. intros [[-> H]|[-> (d & -> & ->)]]; [|reflexivity].
  unfold get_site_state. destruct (dget (KInt i) (s_sites st)) eqn:E; [|reflexivity]. exfalso. apply H. unfold site_ids. eapply dget_Some_key; eauto.
Qed.

Lemma growth_counts_lacks bg st l1 j l2 e : (forall k, In k l1 -> exists p, holds st k p) -> lacks st j e -> growth_counts bg st (l1 ++ j :: l2) = Err e.
Proof.
  intros H1 HJ. unfold growth_counts. generalize (@nil (key * Z)) as acc. induction l1 as [|k l1 IH]; intros acc; cbn [app foldM].
  - rewrite (lacks_occ _ _ _ HJ). reflexivity.
  - destruct (H1 k) as [p Hp]; [simpl; auto|]. rewrite (holds_of _ _ _ Hp). cbn [bind val_key].
    destruct (negb _); cbn [bind]; [destruct (dget _ acc)|]; cbn [bind]; apply IH; intros; apply H1; simpl; auto.
Qed.

Lemma C111_growth_lemma : forall F (N : nbhood F) bg ords rnd c i st,
  (forall e, lacks st i e -> c_update (growth_controller N bg ords rnd) c (KInt i) st = Err e) /\
  (forall v, reads st i v -> v <> VStr bg -> c_update (growth_controller N bg ords rnd) c (KInt i) st = Ok (VDict [], S c)) /\
  (forall l1 j l2 e, reads st i (VStr bg) -> neighbors_of (ords c) N i = Ok (l1 ++ j :: l2) -> (forall k, In k l1 -> exists p, holds st k p) -> lacks st j e ->
     c_update (growth_controller N bg ords rnd) c (KInt i) st = Err e).
Proof.
  intros F N bg ords rnd c i st. cbn [c_update growth_controller]. unfold growth_update. split; [|split].
  - intros e H. rewrite (lacks_occ _ _ _ H). reflexivity.
  - intros v H D. rewrite (reads_occ _ _ _ H). cbn [bind]. destruct (val_eqb v (VStr bg)) eqn:E; [|reflexivity]. exfalso. apply D. destruct v; try discriminate E. rewrite str_val_eqb in E. destruct (eqb_spec s bg); congruence.
  - intros l1 j l2 e H EN H1 HJ. rewrite (reads_occ _ _ _ H). cbn [bind]. rewrite str_val_eqb, eqb_refl. cbn [neighbors_of_key]. rewrite EN. cbn [bind]. rewrite (growth_counts_lacks bg st l1 j l2 e H1 HJ). reflexivity.
Qed.

Lemma life_fold st l : (forall j, In j l -> exists v, reads st j v) -> forall n,
  foldM (fun n nb_id => do x <- occupancy_of st (KInt nb_id); Ok (if val_eqb x (VStr "alive") then n + 1 else n)) l n = Ok (n + count_in st l "alive").
Proof.
  induction l as [|j l IH]; intros H n; cbn [foldM].
  - unfold count_in. cbn. f_equal. lia.
  - destruct (H j) as [v Hv]; [simpl; auto|]. rewrite (reads_occ _ _ _ Hv). cbn [bind]. rewrite IH by (intros; apply H; simpl; auto).
    f_equal. unfold count_in. cbn [filter].
    assert (E : phase_at st j "alive" = val_eqb v (VStr "alive")) by (unfold phase_at; unfold reads in Hv; rewrite Hv; destruct v; reflexivity).
    rewrite E. destruct (val_eqb v (VStr "alive")); cbn [length]; lia.
Qed.
Lemma life_fold_lacks st l1 j l2 e : (forall k, In k l1 -> exists v, reads st k v) -> lacks st j e -> forall n,
  foldM (fun n nb_id => do x <- occupancy_of st (KInt nb_id); Ok (if val_eqb x (VStr "alive") then n + 1 else n)) (l1 ++ j :: l2) n = Err e.
Proof.
  intros H1 HJ. induction l1 as [|k l1 IH]; intros n; cbn [app foldM].
  - rewrite (lacks_occ _ _ _ HJ). reflexivity.
  - destruct (H1 k) as [v Hv]; [simpl; auto|]. rewrite (reads_occ _ _ _ Hv). cbn [bind]. apply IH. intros; apply H1; simpl; auto.
Qed.
Lemma C111_life_lemma : forall F (A : arith F) s born survive ords rnd c i st,
  (fst c = None -> c_update (life_controller A s born survive ords rnd) c (KInt i) st = Err AttributeError) /\
  (forall N l1 j l2 e, fst c = Some N -> neighbors_of (ords (snd c)) N i = Ok (l1 ++ j :: l2) -> (forall k, In k l1 -> exists v, reads st k v) -> lacks st j e ->
     c_update (life_controller A s born survive ords rnd) c (KInt i) st = Err e) /\
  (forall N l e, fst c = Some N -> neighbors_of (ords (snd c)) N i = Ok l -> (forall k, In k l -> exists v, reads st k v) -> lacks st i e ->
     c_update (life_controller A s born survive ords rnd) c (KInt i) st = Err e) /\
  (forall N l v, fst c = Some N -> neighbors_of (ords (snd c)) N i = Ok l -> (forall k, In k l -> exists v, reads st k v) -> reads st i v ->
     exists q c', c_update (life_controller A s born survive ords rnd) c (KInt i) st = Ok (VDict [(KStr "DISCRETE_OCCUPANCY", VStr q)], c') /\ fst c' = Some N /\
       (q = "alive"%string <-> v = VStr "alive" /\ In (count_in st l "alive") survive \/ v = VStr "dead" /\ In (count_in st l "alive") born) /\ (q = "alive" \/ q = "dead")%string).
Proof.
  intros F A s born survive ords rnd c i st. cbn [c_update life_controller]. unfold life_update. split; [|split; [|split]].
  - intros ->. reflexivity.
  - intros N l1 j l2 e -> EN H1 HJ. cbn [neighbors_of_key]. rewrite EN. cbn [bind]. rewrite (life_fold_lacks st l1 j l2 e H1 HJ). reflexivity.
  - intros N l e -> EN H1 HJ. cbn [neighbors_of_key]. rewrite EN. cbn [bind]. rewrite (life_fold st l H1). cbn [bind]. rewrite (lacks_occ _ _ _ HJ). reflexivity.
  - intros N l v -> EN H1 HJ. cbn [neighbors_of_key]. rewrite EN. cbn [bind]. rewrite (life_fold st l H1). cbn [bind]. rewrite (reads_occ _ _ _ HJ). cbn [bind]. rewrite Z.add_0_l.
    set (k := count_in st l "alive").
    assert (EX : forall ls, existsb (Z.eqb k) ls = true <-> In k ls).
    { intros ls. rewrite existsb_exists. split; [intros (z & Hz & E); apply Z.eqb_eq in E; now subst|intros Hz; exists k; split; [exact Hz|apply Z.eqb_refl]]. }
    assert (VE : forall q, val_eqb v (VStr q) = true <-> v = VStr q).
    { intros q. split; [intros E; destruct v; try discriminate E; rewrite str_val_eqb in E; destruct (eqb_spec s0 q); congruence|intros ->; rewrite str_val_eqb; apply eqb_refl]. }
    eexists _, _. split; [reflexivity|]. split; [reflexivity|].
    pose proof (EX survive). pose proof (EX born). pose proof (VE "alive"%string) as V1. pose proof (VE "dead"%string) as V2.
    destruct (val_eqb v (VStr "alive")), (val_eqb v (VStr "dead")), (existsb (Z.eqb k) survive), (existsb (Z.eqb k) born); cbn [andb]; (split; [|auto]); split; intros X; try discriminate X;
      intuition congruence.
Qed.

(** A serial run raises the exception raised for one of the sites. *)
Lemma step_raises {C} (ctl : controller C) (Cok : C -> Prop) st e l :
  (forall id c, In id l -> Cok c -> c_update ctl c id st = Err e \/ exists u c', c_update ctl c id st = Ok (VDict u, c') /\ grow_upd id u /\ Cok c') ->
  (exists id, In id l /\ forall c, Cok c -> c_update ctl c id st = Err e) ->
  forall o c, Cok c -> foldM (fun '(batch_updates, c) site_id =>
             do (site_updates, c') <- c_update ctl c site_id st;
             do b <- merge_updates site_updates batch_updates (Some site_id);
             Ok (b, c')) l (canon o, c) = Err e.
Proof.
  intros HA. induction l as [|id l IH]; intros (bad & Hb & EB) o c Hc; [destruct Hb|]. cbn [foldM].
  destruct (HA id c (or_introl eq_refl) Hc) as [->|(u & c' & E & GU & Hc')]; [reflexivity|]. rewrite E. cbn [bind].
  rewrite (merge_means_dict u _ _ o id (grow_own _ _ GU)). cbn [bind].
  refine (IH _ _ (Some (_, _)) c' Hc').
  - intros id' c1 Hi. apply HA. simpl; auto.
  - exists bad. split; [|exact EB]. destruct Hb as [->|Hb]; [|exact Hb]. rewrite (EB c Hc) in E. discriminate.
Qed.
Lemma run_raises {C} (ctl : controller C) (Cok : C -> Prop) c0 c1 st e n : c_pre_run ctl c0 st = Ok c1 -> Cok c1 ->
  (forall id c, In id (site_ids st) -> Cok c -> c_update ctl c id st = Err e \/ exists u c', c_update ctl c id st = Ok (VDict u, c') /\ grow_upd id u /\ Cok c') ->
  (exists id, In id (site_ids st) /\ forall c, Cok c -> c_update ctl c id st = Err e) -> 1 <= n -> run_sync ctl c0 st n = Err e.
Proof.
  intros EP Hc HA HB Hn. unfold run_sync. rewrite EP. cbn [bind]. destruct (Z.to_nat n) as [|k] eqn:En; [lia|]. cbn [sync_loop]. unfold take_step, step_batch.
  pose proof (step_raises ctl Cok st e (site_ids st) HA HB None c1 Hc) as E. cbn [canon] in E. rewrite E. reflexivity.
Qed.

(** The same for parallel runs, whichever worker gets which batch. *)
Lemma starmap_raises {C} (ctl : controller C) (Cok : C -> Prop) st e (sched : nat -> nat) bs : batch_update st (VDict []) = Ok st ->
  (forall id c, In id (concat bs) -> Cok c -> c_update ctl c id st = Err e \/ exists u c', c_update ctl c id st = Ok (VDict u, c') /\ grow_upd id u /\ Cok c') ->
  (exists id, In id (concat bs) /\ forall c, Cok c -> c_update ctl c id st = Err e) ->
  forall b (ws : workers), (forall w, fst (ws w) = st /\ Cok (snd (ws w))) -> starmap ctl sched (VDict []) b bs ws = Err e.
Proof.
  intros EB HA. induction bs as [|l bs IH]; intros (bad & Hb & Eb) b ws HW; [destruct Hb|]. cbn [starmap]. destruct (HW (sched b)) as [E1 E2]. unfold worker_task. rewrite E1, EB. cbn [bind].
  assert (X : (exists id, In id l /\ forall c, Cok c -> c_update ctl c id st = Err e) \/ In bad (concat bs)).
  { cbn [concat] in Hb. apply in_app_or in Hb as [Hb|Hb]; [left; eauto|right; exact Hb]. }
  assert (HL : forall id c, In id l -> Cok c -> c_update ctl c id st = Err e \/ exists u c', c_update ctl c id st = Ok (VDict u, c') /\ grow_upd id u /\ Cok c').
  { intros id c Hi. apply HA. cbn [concat]. apply in_or_app. auto. }
  unfold step_batch.
  assert (Y : forall o c, Cok c -> (exists o' c', foldM (fun '(batch_updates, c) site_id =>
             do (site_updates, c') <- c_update ctl c site_id st;
             do b <- merge_updates site_updates batch_updates (Some site_id);
             Ok (b, c')) l (canon o, c) = Ok (canon o', c') /\ Cok c') \/ foldM (fun '(batch_updates, c) site_id =>
             do (site_updates, c') <- c_update ctl c site_id st;
             do b <- merge_updates site_updates batch_updates (Some site_id);
             Ok (b, c')) l (canon o, c) = Err e).
  { clear X IH. induction l as [|id l IHl]; intros o c Hc; cbn [foldM]; [left; eauto|]. destruct (HL id c (or_introl eq_refl) Hc) as [->|(u & c' & E & GU & Hc')]; [right; reflexivity|]. rewrite E. cbn [bind].
    rewrite (merge_means_dict u _ _ o id (grow_own _ _ GU)). cbn [bind].
    refine (IHl _ _ _ (Some (_, _)) c' Hc').
    - intros id' c1 Hi. apply HA. cbn [concat app In]. right. exact Hi.
    - cbn [concat] in *. apply in_app_or in Hb as [[->|Hb]|Hb]; [rewrite (Eb c Hc) in E; discriminate| |]; apply in_or_app; auto.
    - intros id' c1 Hi. apply HL. simpl; auto. }
  specialize (Y None (snd (ws (sched b))) E2). cbn [canon] in Y. destruct X as [X|X].
  - rewrite (step_raises ctl Cok st e l HL X None (snd (ws (sched b))) E2 : foldM _ l (VNone, _) = _). reflexivity.
  - destruct Y as [(o' & c' & -> & Hc')| ->]; [|reflexivity]. cbn [bind]. rewrite IH; [reflexivity| |eauto|].
    + intros id c Hi. apply HA. cbn [concat]. apply in_or_app. auto.
    + intros w. unfold set_worker. destruct (Nat.eqb w (sched b)); cbn [fst snd]; auto.
Qed.
Lemma par_raises {C} (ctl : controller C) (Cok : C -> Prop) c0 c1 st e n p sched : c_pre_run ctl c0 st = Ok c1 -> Cok c1 ->
  (forall id c, In id (site_ids st) -> Cok c -> c_update ctl c id st = Err e \/ exists u c', c_update ctl c id st = Ok (VDict u, c') /\ grow_upd id u /\ Cok c') ->
  (exists id, In id (site_ids st) /\ forall c, Cok c -> c_update ctl c id st = Err e) -> 1 <= n -> 1 <= p -> run_parallel ctl p sched c0 st n = Err e.
Proof.
  intros EP Hc HA HB Hn Hp. unfold run_parallel. rewrite EP. cbn [bind].
  assert (NE : site_ids st <> []) by (destruct HB as (id & H & _); intros E; rewrite E in H; destruct H).
  destruct (chunk_size_pos (size st) p Hp ltac:(unfold size; lia)) as (ch & Ech & _ & CP & _). rewrite Ech. cbn [bind]. replace (p <? 1) with false by lia.
  assert (SZ : 0 < size st) by (unfold size; destruct (site_ids st); [congruence|cbn [length]; lia]). specialize (CP SZ).
  destruct (Z.to_nat n) as [|k] eqn:En; [lia|]. cbn [par_loop]. unfold take_step_parallel.
  destruct (site_batches ch (site_ids st)) as [bs|] eqn:EB; [|unfold site_batches in EB; replace (ch =? 0) with false in EB by lia; discriminate]. cbn [bind].
  pose proof (C18_batch_cover ch _ bs EB CP) as CC.
  rewrite (starmap_raises ctl Cok st e (sched 0%nat) bs); [reflexivity| | | |]; rewrite ?CC; auto.
Qed.

(** A set of cells that contains the neighbours of its members is empty or everything. *)
Lemma closed_all size s L ids : grid_facts size s L -> length size = 2%nat ->
  (forall x y i j dx dy, In i ids -> cell s [x; y] i -> Z.abs dx <= 1 -> Z.abs dy <= 1 -> cell s [x + dx; y + dy] j -> In j ids) ->
  forall x y i, In i ids -> cell s [x; y] i -> forall a b j, cell s [a; b] j -> In j ids.
Proof.
  intros G L2 CL x y i Hi C.
  assert (CELL : forall x y, cell s [x; y] (cid size [x; y])) by (intros; apply (gf_cell _ _ _ G); now rewrite L2).
  assert (K : forall k : nat, forall a b, Z.abs (a - x) <= Z.of_nat k -> Z.abs (b - y) <= Z.of_nat k -> In (cid size [a; b]) ids).
  { induction k as [|k IH]; intros a b Ha Hb.
    - replace a with x by lia. replace b with y by lia. pose proof (CELL x y) as C'. unfold cell in *. rewrite C in C'. injection C' as <-. exact Hi.
    - pose (da := if a - x <? 0 then -1 else if a - x =? 0 then 0 else 1). pose (db := if b - y <? 0 then -1 else if b - y =? 0 then 0 else 1).
      apply (CL (a - da) (b - db) (cid size [a - da; b - db]) (cid size [a; b]) da db).
      + apply IH; unfold da, db; [destruct (Z.ltb_spec (a - x) 0); [lia|]; destruct (Z.eqb_spec (a - x) 0); lia|destruct (Z.ltb_spec (b - y) 0); [lia|]; destruct (Z.eqb_spec (b - y) 0); lia].
      + apply CELL.
      + unfold da. destruct (a - x <? 0), (a - x =? 0); lia.
      + unfold db. destruct (b - y <? 0), (b - y =? 0); lia.
      + replace (a - da + da) with a by lia. replace (b - db + db) with b by lia. apply CELL. }
  intros a b j Cj. pose proof (CELL a b) as C'. unfold cell in *. rewrite Cj in C'. injection C' as ->. apply (K (Z.to_nat (Z.max (Z.abs (a - x)) (Z.abs (b - y))))); lia.
Qed.

Lemma incomplete size s variant ords rnd ctl init :
  square_grid size s -> length size = 2%nat -> (forall t, legal (ords t)) -> life_init RA s ords rnd variant = Ok ctl ->
  site_ids init <> [] -> (forall k, In k (site_ids init) -> exists i x p, k = KInt i /\ get_site s i = Some x /\ holds init i p) ->
  (exists i x, get_site s i = Some x /\ ~ In (KInt i) (site_ids init)) ->
  exists N, c_pre_run ctl (None, 0%nat) init = Ok (Some N, 0%nat) /\
    (forall id c, In id (site_ids init) -> fst c = Some N -> c_update ctl c id init = Err TypeError \/ exists u c', c_update ctl c id init = Ok (VDict u, c') /\ grow_upd id u /\ fst c' = Some N) /\
    (exists id, In id (site_ids init) /\ forall c, fst c = Some N -> c_update ctl c id init = Err TypeError).
Proof.
  intros SG L2 LO EI NE HS (im & xm & Gm & Hm). unfold life_init in EI. destruct (process_variant_string variant) as [[born survive]|] eqn:EV; [|discriminate].
  cbn [bind] in EI. injection EI as <-. destruct (square_facts _ _ SG) as [L G]. destruct (life_nb size s SG L2) as (N & T & EP).
  assert (CELL : forall x y, cell s [x; y] (cid size [x; y])) by (intros x y; apply (gf_cell _ _ _ G); now rewrite L2).
  assert (SITE : forall i x, get_site s i = Some x -> exists a b, cell s [a; b] i).
  { intros i x Gx. destruct (site_cell _ _ _ _ _ G Gx) as (p & Lp & _ & _ & Cp & _). rewrite L2 in Lp. destruct p as [|a [|b [|]]]; try discriminate. eauto. }
  assert (DEC : forall i, In (KInt i) (site_ids init) \/ ~ In (KInt i) (site_ids init)) by (intros i; destruct (in_dec (fun a b => match eqb_spec a b with ReflectT _ e => left e | ReflectF _ e => right e end) (KInt i) (site_ids init)); auto).
  (* splitting a list of neighbours at the first one missing *)
  assert (SPLIT : forall l, (forall k, In k l -> exists x y, cell s [x; y] k) -> (forall k, In k l -> In (KInt k) (site_ids init)) \/
    exists l1 j l2, l = l1 ++ j :: l2 /\ (forall k, In k l1 -> In (KInt k) (site_ids init)) /\ ~ In (KInt j) (site_ids init)).
  { induction l as [|k l IH]; intros HC; [left; intros k []|]. destruct (DEC k) as [D|D].
    - destruct IH as [IH|(l1 & j & l2 & -> & H1 & H2)]; [intros; apply HC; simpl; auto|left; intros k' [<-|Hk]; auto|]. right. exists (k :: l1), j, l2. split; [reflexivity|]. split; [|exact H2]. intros k' [<-|Hk]; auto.
    - right. exists [], k, l. split; [reflexivity|]. split; [intros k' []|exact D]. }
  assert (RD : forall k, In (KInt k) (site_ids init) -> exists p, holds init k p).
  { intros k Hk. destruct (HS _ Hk) as (i & x & p & E & _ & H). injection E as ->. eauto. }
  assert (RV : forall k, In (KInt k) (site_ids init) -> exists v, reads init k v) by (intros k Hk; destruct (RD k Hk) as [p Hp]; exists (VStr p); exact Hp).
  set (ctl := life_controller RA s born survive ords rnd).
  assert (ONE : forall i c, In (KInt i) (site_ids init) -> fst c = Some N -> exists l, neighbors_of (ords (snd c)) N i = Ok l /\ (forall k, In k l -> exists x y, cell s [x; y] k) /\
      ((exists k, In k l /\ ~ In (KInt k) (site_ids init)) -> c_update ctl c (KInt i) init = Err TypeError) /\
      ((forall k, In k l -> In (KInt k) (site_ids init)) -> exists u c', c_update ctl c (KInt i) init = Ok (VDict u, c') /\ grow_upd (KInt i) u /\ fst c' = Some N)).
  { intros i c Hi Hc. destruct (HS _ Hi) as (i' & z & p & E & Gz & Hp). injection E as <-. destruct (SITE i z Gz) as (x & y & C).
    destruct (T [x; y] i ltac:(now rewrite L2) C (ords (snd c)) (LO _)) as (l & El & _ & IN). exists l. split; [exact El|].
    assert (HC : forall k, In k l -> exists x y, cell s [x; y] k).
    { intros k Hk. apply IN in Hk as (_ & d & Ld & _ & Ck). rewrite L2 in Ld. destruct d as [|d1 [|d2 [|]]]; try discriminate. exists (x + d1), (y + d2). exact Ck. }
    split; [exact HC|]. destruct (C111_life_lemma R RA s born survive ords rnd c i init) as (_ & H1 & _ & H2). split.
    - intros (k & Hk & Dk). destruct (SPLIT l HC) as [S|(l1 & j & l2 & -> & S1 & S2)]; [exfalso; apply Dk, S, Hk|]. apply (H1 N l1 j l2 TypeError Hc El); [auto|]. left. auto.
    - intros HA. destruct (H2 N l (VStr p) Hc El) as (q & c' & E & Hc' & _); auto. exists [(KStr "DISCRETE_OCCUPANCY", VStr q)], c'. split; [exact E|]. split; [right; eauto|exact Hc']. }
  exists N. split; [apply EP|]. split.
  - intros id c Hid Hc. destruct (HS _ Hid) as (i & _ & _ & -> & _). destruct (ONE i c Hid Hc) as (l & _ & HC & H1 & H2). destruct (SPLIT l HC) as [S|(l1 & j & l2 & -> & _ & D)].
    + right. exact (H2 S).
    + left. apply H1. exists j. split; [apply in_or_app; simpl; auto|exact D].
  - (* some site present has a neighbour that is missing *)
    assert (X : (exists id, In id (site_ids init) /\ forall c, fst c = Some N -> c_update ctl c id init = Err TypeError) \/
      forall id, In id (site_ids init) -> exists i l, id = KInt i /\ neighbors_of (ords 0%nat) N i = Ok l /\ forall k, In k l -> In (KInt k) (site_ids init)).
    { assert (Y : forall ks, incl ks (site_ids init) -> (exists id, In id ks /\ forall c, fst c = Some N -> c_update ctl c id init = Err TypeError) \/
        forall id, In id ks -> exists i l, id = KInt i /\ neighbors_of (ords 0%nat) N i = Ok l /\ forall k, In k l -> In (KInt k) (site_ids init)).
      2:{ destruct (Y _ (incl_refl _)); auto. }
      induction ks as [|k ks IH]; intros SUB; [right; intros ? []|]. destruct IH as [(id & H & E)|IH]; [intros ? ?; apply SUB; simpl; auto|left; exists id; simpl; auto|].
      assert (Hk : In k (site_ids init)) by (apply SUB; simpl; auto). destruct (HS _ Hk) as (i & z & p & -> & Gz & _).
      destruct (ONE i (Some N, 0%nat) Hk eq_refl) as (l & El & HC & _). cbn [snd] in El. destruct (SPLIT l HC) as [S|(l1 & j & l2 & -> & _ & D)].
      - right. intros id [<-|H]; [exists i, l; auto|auto].
      - left. exists (KInt i). split; [simpl; auto|]. intros c Hc. destruct (ONE i c Hk Hc) as (l' & El' & _ & H1 & _). apply H1. exists j. split; [|exact D].
        destruct (SITE i z Gz) as (x & y & C). destruct (T [x; y] i ltac:(now rewrite L2) C (ords 0%nat) (LO _)) as (m & Em & _ & INm). destruct (T [x; y] i ltac:(now rewrite L2) C (ords (snd c)) (LO _)) as (m' & Em' & _ & INm').
        assert (m = l1 ++ j :: l2) by congruence. assert (m' = l') by congruence. subst. apply INm', INm, in_or_app. simpl; auto. }
    destruct X as [X|X]; [exact X|]. exfalso. apply Hm.
    destruct (site_ids init) as [|k0 ks] eqn:ES; [congruence|]. rewrite <- ES in *. assert (H0 : In k0 (site_ids init)) by (rewrite ES; simpl; auto). destruct (HS _ H0) as (i0 & z0 & _ & -> & G0 & _).
    pose (ids := flat_map (fun k => match k with KInt i => [i] | KStr _ => [] end) (site_ids init)).
    assert (IDS : forall i, In i ids <-> In (KInt i) (site_ids init)).
    { intros i. unfold ids. rewrite in_flat_map. split; [intros ([j|] & Hj & HI); [destruct HI as [->|[]]; exact Hj|destruct HI]|intros H; exists (KInt i); simpl; auto]. }
    apply IDS. destruct (SITE _ _ G0) as (x0 & y0 & C0). destruct (SITE _ _ Gm) as (a & b & Cm).
    apply (closed_all size s L ids G L2) with (x := x0) (y := y0) (i := i0) (a := a) (b := b); auto.
    + intros x y i j dx dy Hi C A1 A2 Cj. apply IDS. apply IDS in Hi. destruct (X _ Hi) as (i' & l & E & El & HL). injection E as <-.
      destruct (Z.eq_dec j i) as [->|D]; [exact Hi|]. apply HL. destruct (T [x; y] i ltac:(now rewrite L2) C (ords 0%nat) (LO _)) as (m & Em & _ & INm). assert (m = l) by congruence. subst. apply INm.
      split; auto. exists [dx; dy]. split; [now rewrite L2|]. split; [repeat constructor; auto|exact Cj].
    + apply IDS. exact H0.
Qed.

Lemma C111_run_lemma : forall size s variant ords rnd ctl init n,
  square_grid size s -> length size = 2%nat -> (forall t, legal (ords t)) -> life_init RA s ords rnd variant = Ok ctl ->
  site_ids init <> [] -> (forall k, In k (site_ids init) -> exists i x p, k = KInt i /\ get_site s i = Some x /\ holds init i p) ->
  (exists i x, get_site s i = Some x /\ ~ In (KInt i) (site_ids init)) -> 1 <= n ->
  run_sync ctl (None, 0%nat) init n = Err TypeError /\ forall p sched, 1 <= p -> run_parallel ctl p sched (None, 0%nat) init n = Err TypeError.
Proof.
  intros size s variant ords rnd ctl init n SG L2 LO EI NE HS HM Hn. destruct (incomplete size s variant ords rnd ctl init SG L2 LO EI NE HS HM) as (N & EP & HA & HB). split.
  - exact (run_raises ctl (fun c => fst c = Some N) _ _ init TypeError n EP eq_refl HA HB Hn).
  - intros p sched Hp. exact (par_raises ctl (fun c => fst c = Some N) _ _ init TypeError n p sched EP eq_refl HA HB Hn Hp).
Qed.
