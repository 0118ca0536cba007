(** Artists made from states and results, sets of phases (C76, C78). *)
From Coq Require Import Reals Permutation.
From Verif Require Import Prelude Dict Val Arith RealArith LatticeModel StructModel StateModel ResultModel AnalyzerModel HashFacts VizModel
  SpecState SpecResult SpecAnalyze SpecViz AnalyzerFacts AnalyzerMore VizFacts.
Local Open Scope Z_scope.

Lemma site_colour st ca cm k p : valued (ca_state_key ca) st -> ca_color_map ca = Some cm -> In k (site_ids st) -> site_entry st k (ca_state_key ca) = Some p -> get_color ca (get_site_state st k) = Ok (shade cm p).
Proof. intros DI CM Hk E. rewrite (colour_site st ca cm DI CM k Hk). unfold value_of. now rewrite E. Qed.

(** An artist for the phases [ps]. *)
Lemma artist_of ps lg : NoDup ps -> forallb hashable ps = true -> exists ca cm, from_phase_list ps None lg = Ok ca /\ ca_color_map ca = Some cm /\ ca_state_key ca = KStr "DISCRETE_OCCUPANCY" /\
  (forall p, In p ps -> shade cm p <> (0, 0, 0)) /\ (forall p, hashable p = true -> ~ In p ps -> shade cm p = (0, 0, 0)) /\
  ((length ps <= 22)%nat -> forall p q, In p ps -> In q ps -> shade cm p = shade cm q -> p = q).
Proof.
  intros ND HH. assert (HP : forall p, In p ps -> hashable p = true) by (now apply forallb_forall). destruct (C62_lemma ps None lg ND HH) as (cm & ca & E1 & E2 & K & NB & _ & SM). exists ca, cm. split; auto.
  assert (G : forall p, In p ps -> exists c, dget p cm = Some c) by (intros p Hp; apply hget_some; auto; now rewrite K).
  unfold from_phase_list in E2. rewrite E1 in E2. cbn [bind] in E2. injection E2 as <-. split; [reflexivity|]. split; [reflexivity|]. split; [|split].
  - intros p Hp. destruct (G p Hp) as [c E]. unfold shade. rewrite E. eapply NB; eauto.
  - intros p Hh Hp. unfold shade. rewrite hget_None; auto. now rewrite K.
  - intros L p q Hp Hq. destruct (G p Hp) as [c E], (G q Hq) as [c' E']. unfold shade. rewrite E, E'. intros ->. eapply SM; eauto.
Qed.

Lemma C76_state_lemma : forall st ord lg, discrete st -> any_order ord ->
  exists ca, from_discrete_state ord st None lg = Ok ca /\
    (forall k, In k (site_ids st) -> exists c, get_color ca (get_site_state st k) = Ok c /\ c <> (0, 0, 0)) /\
    (forall ps, (forall p, present st p -> In p ps) -> (length ps <= 22)%nat ->
       forall k k' p p' c, site_entry st k (KStr "DISCRETE_OCCUPANCY") = Some p -> site_entry st k' (KStr "DISCRETE_OCCUPANCY") = Some p' -> In k (site_ids st) -> In k' (site_ids st) ->
         get_color ca (get_site_state st k) = Ok c -> (get_color ca (get_site_state st k') = Ok c <-> p = p')).
Proof.
  intros st ord lg DI O. destruct (phases_lemma st DI ord O) as (qs & E & ND & IP).
  assert (HH : forallb hashable qs = true) by (apply forallb_forall; intros p Hp; apply (present_hash st DI), IP, Hp).
  destruct (artist_of qs lg ND HH) as (ca & cm & EA & CM & CK & NB & _ & SM). assert (DI' : valued (ca_state_key ca) st) by (rewrite CK; exact DI).
  assert (SC : forall k p, In k (site_ids st) -> site_entry st k (KStr "DISCRETE_OCCUPANCY") = Some p -> get_color ca (get_site_state st k) = Ok (shade cm p)).
  { intros k p Hk Ep. apply site_colour; auto. now rewrite CK. }
  exists ca. split; [unfold from_discrete_state; rewrite E; exact EA|]. split.
  - intros k Hk. destruct (proj2 DI k Hk) as (p & Ep & _). exists (shade cm p). split; [now apply SC|]. apply NB, IP. exists k. auto.
  - intros ps IN L k k' p p' c HP HP' Hk Hk' Ec. rewrite (SC k p Hk HP) in Ec. injection Ec as <-.
    rewrite (SC k' p' Hk' HP'). assert (L' : (length qs <= 22)%nat).
    { etransitivity; [|exact L]. apply NoDup_incl_length; auto. intros x Hx. apply IN, IP, Hx. }
    split; [|intros ->; reflexivity]. intros X. injection X as X. symmetry. apply (SM L'); auto; apply IP; [exists k'|exists k]; auto.
Qed.

Lemma C76_result_lemma : forall init h T ord lg, course init (added h) T -> any_order ord ->
  let r := fold_left apply_rop h (new_result init) in let n := length (added h) in
  exists ca, from_discrete_result ord r None lg = Ok ca /\
    forall m k p, (m <= n)%nat -> In k (site_ids (T m)) -> site_entry (T m) k (KStr "DISCRETE_OCCUPANCY") = Some p ->
      exists c, get_color ca (get_site_state (T m) k) = Ok c /\
        (c <> (0, 0, 0) <-> exists m', (m' < n)%nat /\ present (T m') p).
Proof.
  intros init h T ord lg CO O r n. destruct (all_lemma init h T CO ord O) as (ps & E & ND & IP). fold n r in E, IP.
  assert (HH : forallb hashable ps = true) by (apply forallb_forall; intros p Hp; apply IP in Hp as (m & Hm & P); apply (present_hash (T m)) with (2 := P); apply CO; unfold n in Hm; lia).
  destruct (artist_of ps lg ND HH) as (ca & cm & EA & CM & CK & NB & BL & _). exists ca. split; [unfold from_discrete_result; rewrite E; exact EA|].
  intros m k p Hm Hk HP. pose proof (proj2 (CO m Hm)) as DI. exists (shade cm p). split; [apply site_colour; auto; rewrite CK; auto|]. rewrite <- IP. split.
  - intros N. destruct (Classical_Prop.classic (In p ps)) as [|X]; auto. exfalso. apply N, BL, X. apply (present_hash (T m) DI). exists k. auto.
  - apply NB.
Qed.

Lemma C76_refuted_lemma : forall init h T ord lg p, course init (added h) T -> any_order ord ->
  let r := fold_left apply_rop h (new_result init) in let n := length (added h) in
  present (T n) p -> (forall m, (m < n)%nat -> ~ present (T m) p) ->
  exists ca k, from_discrete_result ord r None lg = Ok ca /\ In k (site_ids (T n)) /\ site_entry (T n) k (KStr "DISCRETE_OCCUPANCY") = Some p /\
    get_color ca (get_site_state (T n) k) = Ok (0, 0, 0).
Proof.
  intros init h T ord lg p CO O r n (k & Hk & HP) HN. destruct (C76_result_lemma init h T ord lg CO O) as (ca & E & H). fold n r in E, H.
  exists ca, k. split; auto. split; auto. split; auto. destruct (H n k p (le_n _) Hk HP) as (c & Ec & X). rewrite Ec. f_equal.
  destruct c as [[a b] d]. destruct (Z.eq_dec a 0) as [->|N]; [destruct (Z.eq_dec b 0) as [->|N]; [destruct (Z.eq_dec d 0) as [->|N]; [reflexivity|]|]|];
    exfalso; destruct (proj1 X) as (m & Hm & Pm); try congruence; exact (HN m Hm Pm).
Qed.

Lemma C78_lemma : forall ord phases, (forall l, Permutation l (ord l)) ->
  NoDup (phase_set ord phases) /\ forall p, In p (phase_set ord phases) <-> In p phases.
Proof.
  intros ord phases O. unfold phase_set. split.
  - eapply Permutation_NoDup; [apply O|]. apply Dict.dedup_NoDup.
  - intros p. rewrite <- (Dict.dedup_In p phases). split; apply Permutation_in; [symmetry|]; apply O.
Qed.
