(** What the analyzers raise on malformed states. *)
From Verif Require Import Prelude Dict Val ValFacts Arith LatticeModel StructModel StateModel ResultModel SetupModel AnalyzerModel
  SpecAnalyze AnalyzerFacts SpecMalformed.
Local Open Scope Z_scope.

Lemma foldM_stop {A B} (f : A -> B -> res A) l1 x l2 a a' e : foldM f l1 a = Ok a' -> f a' x = Err e -> foldM f (l1 ++ x :: l2) a = Err e.
Proof. intros H1 H2. rewrite foldM_app, H1. cbn [bind foldM]. now rewrite H2. Qed.

Lemma key_known st k : In k (site_ids st) -> exists d, get_site_state st k = Some d.
Proof. intros H. unfold site_ids in H. now apply dget_key_Some in H. Qed.
Lemma key_unknown st k : ~ In k (site_ids st) -> get_site_state st k = None.
Proof. intros H. unfold get_site_state. destruct (dget k (s_sites st)) as [d|] eqn:E; [|reflexivity]. exfalso. apply H. apply dget_key_Some. eauto. Qed.

Definition step_of (st : sstate) (pairs : pdict) (acc : list val) (site : option pdict) : res (list val) :=
  match site with
  | None => Err TypeError
  | Some d =>
      do id <- dgetE SITE_ID d;
      do site_state <- site_state_of st id;
      do meets_criteria <- meets [equal_criterion pairs] site_state;
      Ok (if meets_criteria : bool then acc ++ [id] else acc)
  end.
Lemma loop_of {F} st cls pairs : get_sites_where_equal (F := F) None st pairs cls = foldM (step_of st pairs) (map Some (map snd (s_sites st))) [].
Proof. reflexivity. Qed.

Lemma step_named st pairs acc d k d' : stored_id d k -> get_site_state st k = Some d' ->
  step_of st pairs acc (Some d) = Ok (if pairs_hold pairs d' then acc ++ [key_val k] else acc).
Proof. intros E1 E2. unfold stored_id in E1. unfold step_of, dgetE, SITE_ID. rewrite E1. cbn [bind]. rewrite lookup_key, E2. cbn [bind]. rewrite meets_equal. reflexivity. Qed.

Lemma step_stray st pairs acc d e : runs_into st pairs d e -> step_of st pairs acc (Some d) = Err e.
Proof.
  unfold runs_into, step_of, dgetE, SITE_ID. destruct (dget (KStr "_site_id") d) as [v|]; [|intros ->; reflexivity]. cbn [bind].
  assert (G : forall p, p <> [] -> (do b <- meets [equal_criterion p] None; Ok (if b : bool then acc ++ [v] else acc)) = Err AttributeError).
  { intros [|q p] H; [congruence|]. reflexivity. }
  assert (U : (exists k, v = key_val k /\ ~ In k (site_ids st)) -> site_state_of st v = Ok None).
  { intros (k & -> & H). rewrite lookup_key. now rewrite key_unknown. }
  destruct v; try (intros ->; reflexivity); intros (-> & HP & [HN|HN]); try discriminate;
    try (rewrite (U HN); cbn [bind]; now apply G); now apply G.
Qed.

Definition holds_at (st : sstate) (pairs : pdict) (k : key) : bool := match get_site_state st k with Some d => pairs_hold pairs d | None => false end.
Lemma run_named st pairs : forall l ks, Forall2 stored_id l ks -> (forall k, In k ks -> In k (site_ids st)) -> forall acc,
  foldM (step_of st pairs) (map Some l) acc = Ok (acc ++ map key_val (filter (holds_at st pairs) ks)).
Proof.
  induction 1 as [|d k l ks E _ IH]; intros K acc; cbn [map foldM filter]; [now rewrite app_nil_r|].
  destruct (key_known st k) as [d' Ed]; [apply K; now left|]. rewrite (step_named st pairs acc d k d' E Ed). cbn [bind].
  rewrite IH by (intros; apply K; now right). unfold holds_at at 2. rewrite Ed. destruct (pairs_hold pairs d'); [|reflexivity]. cbn [map]. now rewrite <- app_assoc.
Qed.
Lemma holds_has st pairs k : holds_at st pairs k = true <-> site_has st pairs k.
Proof.
  unfold holds_at, site_has, get_site_state. split.
  - destruct (dget k (s_sites st)) as [d|]; [|discriminate]. intros H. exists d. split; [reflexivity|]. unfold pairs_hold in H. rewrite forallb_forall in H. intros n v I. exact (H (n, v) I).
  - intros (d & -> & H). unfold pairs_hold. rewrite forallb_forall. intros [n v] I. exact (H n v I).
Qed.
Lemma stored_list st (l : dict key pdict) : (forall k d, In (k, d) l -> exists k', stored_id d k' /\ In k' (site_ids st)) ->
  exists ks, Forall2 stored_id (map snd l) ks /\ forall k, In k ks -> In k (site_ids st).
Proof.
  induction l as [|[k d] l IH]; intros H; [exists []; split; [constructor|intros ? []]|].
  destruct (H k d) as (k' & E & I); [now left|]. destruct IH as (ks & A & B); [intros; eapply H; right; eassumption|].
  exists (k' :: ks). split; [constructor; auto|]. intros x [<-|Hx]; auto.
Qed.

Lemma C127_named_lemma : forall F st cls pairs ids, Forall2 stored_id (map snd (s_sites st)) ids -> (forall k, In k ids -> In k (site_ids st)) ->
  exists has, (forall k, has k = true <-> site_has st pairs k) /\
    get_sites_where_equal (F := F) None st pairs cls = Ok (map key_val (filter has ids)) /\
    get_site_count_where_equal (F := F) None st pairs cls = Ok (Z.of_nat (length (filter has ids))).
Proof.
  intros F st cls pairs ids A B. exists (holds_at st pairs). split; [intros k; apply holds_has|].
  assert (E : get_sites_where_equal (F := F) None st pairs cls = Ok (map key_val (filter (holds_at st pairs) ids))) by (rewrite loop_of; exact (run_named st pairs _ ids A B [])).
  split; [exact E|]. unfold get_site_count_where_equal. rewrite E. cbn [bind]. now rewrite map_length.
Qed.
Lemma C127_equal_lemma : forall F st cls pairs pre k d post e, s_sites st = pre ++ (k, d) :: post ->
  (forall k' d', In (k', d') pre -> exists id, stored_id d' id /\ In id (site_ids st)) -> runs_into st pairs d e ->
  get_sites_where_equal (F := F) None st pairs cls = Err e /\ get_site_count_where_equal (F := F) None st pairs cls = Err e.
Proof.
  intros F st cls pairs pre k d post e E P R. destruct (stored_list st pre P) as (ks & A & B).
  assert (G : get_sites_where_equal (F := F) None st pairs cls = Err e).
  { rewrite loop_of, E, !map_app. cbn [map snd]. eapply foldM_stop; [exact (run_named st pairs _ ks A B [])|]. now apply step_stray. }
  split; [exact G|]. unfold get_site_count_where_equal. now rewrite G.
Qed.

(** [phases_present] on any state. *)
Lemma mapM_missing (k : key) : forall (l : list pdict), (exists d, In d l /\ dget k d = None) -> mapM (dgetE k) l = Err KeyError.
Proof.
  induction l as [|a l IH]; intros (d & I & E); [destruct I|]. cbn [mapM]. unfold dgetE at 1. destruct (dget k a) as [v|] eqn:Ea; [|reflexivity].
  cbn [bind]. rewrite IH; [reflexivity|]. destruct I as [->|I]; [congruence|eauto].
Qed.
Lemma mapM_present (k : key) : forall (l : list pdict) vs, Forall2 (fun d v => dget k d = Some v) l vs -> mapM (dgetE k) l = Ok vs.
Proof. induction 1 as [|d v l vs E _ IH]; [reflexivity|]. cbn [mapM]. unfold dgetE at 1. rewrite E. cbn [bind]. now rewrite IH. Qed.

Lemma C127_phases_lemma : forall ord st,
  (forall k d, In (k, d) (s_sites st) -> dget (KStr "DISCRETE_OCCUPANCY") d = None ->
     phases_present ord st = Err KeyError /\ phase_count ord st = Err KeyError) /\
  (forall vs, Forall2 (fun d v => dget (KStr "DISCRETE_OCCUPANCY") d = Some v) (map snd (s_sites st)) vs ->
     ((exists v, In v vs /\ hashable v = false) -> phases_present ord st = Err TypeError /\ phase_count ord st = Err TypeError) /\
     ((forall v, In v vs -> hashable v = true) -> exists ps, phases_present ord st = Ok ps)).
Proof.
  intros ord st. split.
  - intros k d I E. assert (G : phases_present ord st = Err KeyError).
    { unfold phases_present. change (all_site_states st) with (map snd (s_sites st)). rewrite mapM_missing; [reflexivity|]. exists d. split; [|exact E]. apply (in_map snd) in I. exact I. }
    split; [exact G|]. unfold phase_count. now rewrite G.
  - intros vs H. pose proof (mapM_present DISCRETE_OCCUPANCY _ vs H) as M. split.
    + intros (v & I & Hv). assert (G : phases_present ord st = Err TypeError).
      { unfold phases_present. change (all_site_states st) with (map snd (s_sites st)). rewrite M. cbn [bind]. destruct (forallb hashable vs) eqn:Q; [|reflexivity].
        rewrite forallb_forall in Q. rewrite (Q v I) in Hv. discriminate. }
      split; [exact G|]. unfold phase_count. now rewrite G.
    + intros HV. unfold phases_present. change (all_site_states st) with (map snd (s_sites st)). rewrite M. cbn [bind].
      rewrite (proj2 (forallb_forall hashable vs) HV). eauto.
Qed.
