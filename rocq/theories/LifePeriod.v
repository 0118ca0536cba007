(** Runs of life-like automata repeat (C135). *)
From Coq Require Import Reals Permutation.
From Verif Require Import Prelude Dict Val ValFacts Arith RealArith LatticeModel StructModel StateModel ResultModel RunnerModel NbModel GridModel SimModel SetupModel RulesModel
  SpecState SpecResult SpecRunner SpecGeom SpecNb SpecGrid SpecSetup SpecRules StateFacts ResultFacts RunnerFacts SyncFacts ParFacts ParRun GenRun
  LatticeFacts StructFacts StructMore NbFacts NbMore GridFacts GridMore GridNb SetupFacts RulesFacts LifeFacts LifeGen.
Local Open Scope Z_scope.

(** The lists of bits of a given length, and the pigeonhole principle. *)
Fixpoint bits (k : nat) : list (list bool) :=
  match k with O => [[]] | S k => map (cons true) (bits k) ++ map (cons false) (bits k) end.
Lemma bits_length k : length (bits k) = (2 ^ k)%nat.
Proof. induction k; cbn [bits Nat.pow]; [reflexivity|]. rewrite app_length, !map_length. lia. Qed.
Lemma bits_in l : In l (bits (length l)).
Proof. induction l as [|b l IH]; cbn [length bits]; [now left|]. apply in_or_app. destruct b; [left|right]; now apply in_map. Qed.

Lemma repeats {X} (dec : forall x y : X, {x = y} + {x <> y}) (l : list X) : ~ NoDup l -> exists i j x, (i < j)%nat /\ nth_error l i = Some x /\ nth_error l j = Some x.
Proof.
  induction l as [|x l IH]; intros H; [exfalso; apply H; constructor|]. destruct (in_dec dec x l) as [I|I].
  - apply In_nth_error in I as [j Ej]. exists 0%nat, (S j), x. split; [lia|]. split; [reflexivity|exact Ej].
  - destruct IH as (i & j & y & L & Ei & Ej); [intros N; apply H; now constructor|]. exists (S i), (S j), y. split; [lia|]. split; assumption.
Qed.

Lemma pigeon (k : nat) (f : nat -> list bool) : (forall t, length (f t) = k) -> exists i j, (i < j)%nat /\ (j <= 2 ^ k)%nat /\ f i = f j.
Proof.
  intros L. assert (ND : ~ NoDup (map f (seq 0 (S (2 ^ k))))).
  { intros ND. pose proof (@NoDup_incl_length _ _ (bits k) ND) as H. rewrite map_length, seq_length, bits_length in H. enough (S (2 ^ k) <= 2 ^ k)%nat by lia. apply H.
    intros v Hv. apply in_map_iff in Hv as (t & <- & _). rewrite <- (L t). apply bits_in. }
  destruct (repeats (list_eq_dec Bool.bool_dec) _ ND) as (i & j & v & Lij & Ei & Ej).
  assert (Hj : (j < S (2 ^ k))%nat) by (rewrite <- (seq_length (S (2 ^ k)) 0), <- (map_length f); apply nth_error_Some; congruence).
  assert (AT : forall t w, (t < S (2 ^ k))%nat -> nth_error (map f (seq 0 (S (2 ^ k)))) t = Some w -> f t = w).
  { intros t w Ht E. rewrite nth_error_map in E. rewrite (nth_error_nth' (seq 0 (S (2 ^ k))) 0%nat) in E by (now rewrite seq_length). rewrite seq_nth in E by exact Ht. cbn in E. congruence. }
  exists i, j. split; [exact Lij|]. split; [lia|]. rewrite (AT i v), (AT j v); auto; lia.
Qed.

Section Period.
  Variables (born survive ids : list Z) (nbs : Z -> list Z).
  Hypothesis HI : forall i, In i ids -> incl (nbs i) ids.
  Lemma next_ext a b : (forall i, In i ids -> a i = b i) -> forall i, In i ids -> graph_next born survive nbs a i = graph_next born survive nbs b i.
  Proof.
    intros H i Hi. unfold graph_next. rewrite (H i Hi). f_equal. f_equal. f_equal. f_equal. apply filter_ext_in. intros j Hj. apply H, (HI i Hi), Hj.
  Qed.
  Lemma after_ext a x y : (forall i, In i ids -> graph_after born survive nbs x a i = graph_after born survive nbs y a i) ->
    forall d i, In i ids -> graph_after born survive nbs (x + d) a i = graph_after born survive nbs (y + d) a i.
  Proof.
    intros H d. induction d as [|d IH]; intros i Hi; [rewrite !Nat.add_0_r; auto|]. rewrite <- !plus_n_Sm. cbn [graph_after]. apply next_ext; auto.
  Qed.
  Lemma after_repeats a : exists x y, (x < y)%nat /\ (y <= 2 ^ length ids)%nat /\
    forall d i, In i ids -> graph_after born survive nbs (x + d) a i = graph_after born survive nbs (y + d) a i.
  Proof.
    destruct (pigeon (length ids) (fun t => map (graph_after born survive nbs t a) ids)) as (x & y & L & B & E); [intros; apply map_length|].
    exists x, y. split; [exact L|]. split; [exact B|]. apply after_ext. intros i Hi. clear - E Hi. induction ids as [|k l IH]; [destruct Hi|]. cbn [map] in E. injection E as E1 E2. destruct Hi as [->|Hi]; auto.
  Qed.
End Period.

Lemma C135_lemma : forall size s variant ords rnd ctl born survive init,
  square_grid size s -> length size = 2%nat -> (forall t, legal (ords t)) ->
  process_variant_string variant = Ok (born, survive) -> life_init RA s ords rnd variant = Ok ctl ->
  Permutation (site_ids init) (map (fun x => KInt (s_id x)) (sites s None)) ->
  (forall i x, get_site s i = Some x -> holds init i "alive" \/ holds init i "dead") ->
  exists start period, 0 <= start /\ 1 <= period /\ start + period <= 2 ^ Z.of_nat (length (sites s None)) /\
  forall n, 
  (exists o, run_sync ctl (None, 0%nat) init n = Ok o /\
     forall t, start <= t -> t + period <= n -> exists st st', get_step (o_result o) t = Ok st /\ get_step (o_result o) (t + period) = Ok st' /\
       forall i q, get_site s i <> None -> (holds st i q <-> holds st' i q)) /\
  (forall p sched, 1 <= p -> exists o, run_parallel ctl p sched (None, 0%nat) init n = Ok o /\
     forall t, start <= t -> t + period <= n -> exists st st', get_step (o_result o) t = Ok st /\ get_step (o_result o) (t + period) = Ok st' /\
       forall i q, get_site s i <> None -> (holds st i q <-> holds st' i q)).
Proof.
  intros size s variant ords rnd ctl born survive init SG L2 LO EV EI PI HV. unfold life_init in EI. rewrite EV in EI. cbn [bind] in EI. injection EI as <-.
  destruct (square_facts _ _ SG) as [L G]. rewrite <- map_map in PI. apply map_KInt_inv in PI as (ids & EI & PI).
  assert (NI : NoDup ids) by (apply (Permutation_NoDup (Permutation_sym PI)), dense_NoDup, (built_dense RA L s (gf_built _ _ _ G))).
  assert (NE : ids <> []).
  { pose proof (gf_count _ _ _ G) as C. pose proof (prod_pos _ (gf_pos _ _ _ G)). intros E. rewrite E in PI. apply Permutation_nil, map_eq_nil in PI. rewrite PI in C. simpl in C. lia. }
  destruct (life_nb size s SG L2) as (N & T & EP).
  assert (IDS : forall i, In i ids <-> exists x, get_site s i = Some x).
  { intros i. rewrite <- (get_site_ids RA L s i (gf_built _ _ _ G)). split; apply Permutation_in; [exact PI|apply Permutation_sym, PI]. }
  pose (nbs := fun i => match neighbors_of (ords 0%nat) N i with Ok l => l | Err _ => [] end).
  assert (NB : forall o i, legal o -> In i ids -> exists l, neighbors_of o N i = Ok l /\ Permutation l (nbs i)).
  { intros o i Lo Hi. destruct (ids_cell size s L ids G L2 PI i Hi) as (x & y & C). destruct (T [x; y] i ltac:(now rewrite L2) C o Lo) as (l & El & ND & IN).
    destruct (T [x; y] i ltac:(now rewrite L2) C (ords 0%nat) (LO _)) as (l0 & El0 & ND0 & IN0). exists l. split; auto. unfold nbs. rewrite El0.
    apply NoDup_Permutation; auto. intros j. rewrite IN, IN0. tauto. }
  assert (HI : forall i, In i ids -> incl (nbs i) ids).
  { intros i Hi j Hj. destruct (ids_cell size s L ids G L2 PI i Hi) as (x & y & C). destruct (T [x; y] i ltac:(now rewrite L2) C (ords 0%nat) (LO _)) as (l0 & El0 & ND0 & IN0). unfold nbs in Hj. rewrite El0 in Hj.
    apply IN0 in Hj. destruct Hj as (_ & d & Ld & _ & Cj). rewrite L2 in Ld. destruct d as [|d1 [|d2 [|]]]; try discriminate.
    exact (cell_ids size s L ids G L2 PI [x + d1; y + d2] j eq_refl Cj). }
  pose (a := fun i => phase_at init i "alive").
  assert (LV : lives ids init a).
  { intros i Hi. apply IDS in Hi as [x Gx]. unfold a. destruct (HV i x Gx) as [H|H]; rewrite (holds_phase _ _ _ _ H); exact H. }
  destruct (after_repeats born survive ids nbs HI a) as (x & y & Lxy & By & RP).
  assert (LEN : length (sites s None) = length ids) by (apply Permutation_length in PI; rewrite map_length in PI; congruence).
  exists (Z.of_nat x), (Z.of_nat y - Z.of_nat x). split; [lia|]. split; [lia|]. split.
  { rewrite LEN. replace (Z.of_nat x + (Z.of_nat y - Z.of_nat x)) with (Z.of_nat y) by lia. apply inj_le in By. rewrite Nat2Z.inj_pow in By. exact By. }
  assert (SAME : forall r n, (forall t, 0 <= t <= Z.max 0 n -> exists st, get_step r t = Ok st /\ site_ids st = site_ids init /\ lives ids st (graph_after born survive nbs (Z.to_nat t) a)) ->
    forall t, Z.of_nat x <= t -> t + (Z.of_nat y - Z.of_nat x) <= n -> exists st st', get_step r t = Ok st /\ get_step r (t + (Z.of_nat y - Z.of_nat x)) = Ok st' /\
       forall i q, get_site s i <> None -> (holds st i q <-> holds st' i q)).
  { intros r n HS t H1 H2. destruct (HS t ltac:(lia)) as (st & E1 & _ & V1). destruct (HS (t + (Z.of_nat y - Z.of_nat x)) ltac:(lia)) as (st' & E2 & _ & V2). exists st, st'. split; [exact E1|]. split; [exact E2|].
    intros i q Hi. assert (In i ids) as Hi' by (apply IDS; destruct (get_site s i); [eauto|congruence]). specialize (V1 i Hi'). specialize (V2 i Hi').
    replace (Z.to_nat t) with (x + (Z.to_nat t - x))%nat in V1 by lia. replace (Z.to_nat (t + (Z.of_nat y - Z.of_nat x))) with (y + (Z.to_nat t - x))%nat in V2 by lia.
    rewrite (RP _ i Hi') in V1. split; intros H; [rewrite (holds_fun _ _ _ _ H V1); exact V2|rewrite (holds_fun _ _ _ _ H V2); exact V1]. }
  intros n. destruct (life_graph RA s born survive ords rnd ids N nbs LO NI NE EP NB HI init a n EI LV) as [(o & E & _ & HS) PAR]. split.
  - exists o. split; [exact E|]. exact (SAME _ _ HS).
  - intros p sched Hp. destruct (PAR p sched Hp) as (op & Ep & _ & HP). exists op. split; [exact Ep|]. exact (SAME _ _ HP).
Qed.

(** A controller without memory that meets a state again repeats itself. *)
Lemma C135_memoryless_lemma : forall f init n o i j st, run_sync (pure_controller f) tt init n = Ok o ->
  0 <= i -> 0 <= j -> get_step (o_result o) i = Ok st -> get_step (o_result o) j = Ok st ->
  forall t, 0 <= t -> i + t <= n -> j + t <= n -> exists st', get_step (o_result o) (i + t) = Ok st' /\ get_step (o_result o) (j + t) = Ok st'.
Proof.
  intros f init n o i j st R Hi Hj Ei Ej. destruct (run_sync_states f init n o R) as (ds & S & Er & LD & _ & _ & ST & RP). rewrite Er in *.
  assert (GS : forall k, 0 <= k <= n -> get_step (mkR init ds []) k = Ok (S (Z.to_nat k))) by (intros k Hk; rewrite <- (Z2Nat.id k) at 1 by lia; rewrite get_step_fresh by lia; apply RP; lia).
  intros t Ht Hti Htj. rewrite !GS by lia. exists (S (Z.to_nat (i + t))). split; [reflexivity|]. f_equal. rewrite GS in Ei by lia. rewrite GS in Ej by lia.
  rewrite !Z2Nat.inj_add by lia. assert (Bi : (Z.to_nat i + Z.to_nat t <= length ds)%nat) by lia. assert (Bj : (Z.to_nat j + Z.to_nat t <= length ds)%nat) by lia. clear Hti Htj.
  induction (Z.to_nat t) as [|k IH]; [rewrite !Nat.add_0_r; congruence|]. rewrite <- !plus_n_Sm in *. specialize (IH ltac:(lia) ltac:(lia)).
  destruct (ST (Z.to_nat i + k)%nat ltac:(lia)) as (u & _ & (c & T1) & B1). destruct (ST (Z.to_nat j + k)%nat ltac:(lia)) as (u' & _ & (c' & T2) & B2).
  rewrite IH in T2, B2. assert (u = u') as <- by congruence. congruence.
Qed.
