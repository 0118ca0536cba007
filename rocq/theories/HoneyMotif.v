(** Neighbourhoods made for square grids on honeycombs (C121). *)
From Coq Require Import Reals Lra Psatz Permutation.
From Verif Require Import Prelude Dict Val Arith RVec RealArith LatticeModel JsonModel StructModel StateModel ResultModel RunnerModel NbModel GridModel SimModel RulesModel
  SpecGeom SpecState SpecResult SpecNb SpecGrid SpecHoney LatticeFacts LatticeMore StructFacts StructMore StructBuild StructExact NbFacts NbMore GridFacts GridMore GridNb PmgFacts AnalyzerMore HoneyFacts HoneyGrow HoneyAll.
Local Open Scope Z_scope.

Lemma r3_close : (1732 / 1000 < sqrt 3 < 1733 / 1000)%R.
Proof.
  pose proof (sqrt_sqrt 3 ltac:(lra)) as E. pose proof (sqrt_pos 3) as P. split; apply Rnot_le_lt; intros H; nra.
Qed.

(** A row of centres is never one above or below another. *)
Lemma rows_apart j j' (c e : R) : (c = 1 \/ c = -1 -> Rabs e <= 1 / 100 -> (IZR j + 1 / 2) * (sqrt 3 / 2) + e + c = (IZR j' + 1 / 2) * (sqrt 3 / 2) -> False)%R.
Proof.
  intros C E H. apply Rabs_bnd in E. pose proof r3_close as S. set (r := sqrt 3) in *.
  assert (D : (IZR (j' - j) * (r / 2) = e + c)%R) by (rewrite minus_IZR; lra).
  assert (K : j' - j <= -2 \/ j' - j = -1 \/ j' - j = 0 \/ j' - j = 1 \/ 2 <= j' - j) by lia.
  destruct K as [K|[K|[K|[K|K]]]]; try (rewrite K in D; lra).
  - apply IZR_le in K. nra.
  - apply IZR_le in K. nra.
Qed.

Lemma honey_miss n m s i x a c : 1 <= n -> 1 <= m -> honeycomb n m s -> get_site s i = Some x -> (c = 1 \/ c = -1)%R -> id_at RA s (vplus (s_loc x) [a; c]) = Ok None.
Proof.
  intros Hn Hm HC Gx C. destruct (honey_all n m Hn Hm) as (s1 & L & outs & HC1 & HL & HA & _ & CT & GS). rewrite (honey_unique _ _ _ _ HC1 HC) in *. clear s1 HC1.
  destruct (C117_lemma n m Hn Hm) as (s1 & HC1 & _ & _ & FA & _). rewrite (honey_unique _ _ _ _ HC1 HC) in *. clear s1 HC1.
  assert (HB : built RA L s) by (eexists; rewrite HA; reflexivity). destruct (built_inv RA L s HB) as [h I].
  assert (Hi : 0 <= i < n * m).
  { pose proof (proj1 (inv_get_site RA L h s i x I) Gx) as [Hx E]. pose proof (dense_id s x (built_dense RA L s HB) Hx). lia. }
  assert (Bi : 0 <= i / m < n) by (split; [apply Z.div_pos; lia|apply Z.div_lt_upper_bound; [lia|rewrite Z.mul_comm; lia]]). pose proof (Z.mod_pos_bound i m ltac:(lia)) as Bj.
  destruct (GS _ _ Bi Bj) as [_ G]. replace (i / m * m + i mod m) with i in G by (pose proof (Z.div_mod i m ltac:(lia)); lia). assert (x = mkSite "A" (map round3 (hex_centre (i / m) (i mod m))) i) as -> by congruence.
  unfold vplus, hex_centre. cbn [s_loc map zipwith].
  destruct (C29_lemma 2 _ _ L _ s outs HL HA) as [_ ALL]. set (X := (round3 _ + a)%R). set (Y := (round3 _ + c)%R).
  destruct (ALL [X; Y] eq_refl) as [(p & cl & q & z & _ & _ & _ & _ & _ & _ & EI & _)|(_ & _ & EI & _)]; [|exact EI]. exfalso.
  destruct (FA X Y _ EI) as (i' & j' & _ & _ & NY). unfold hex_centre in NY. cbn [nth] in NY. unfold Y in NY.
  pose proof (round3_bound ((IZR (i mod m) + 1 / 2) * (sqrt 3 / 2))) as B. apply Rabs_bnd in NY, B.
  set (y := ((IZR (i mod m) + 1 / 2) * (sqrt 3 / 2))%R) in *. set (y' := ((IZR j' + 1 / 2) * (sqrt 3 / 2))%R) in *.
  apply (rows_apart (i mod m) j' c (y' - y - c) C); [apply Rabs_le; lra|]. fold y y'. lra.
Qed.

Lemma C121_lemma : forall n m s motif a c, 1 <= n -> 1 <= m -> honeycomb n m s -> Forall (fun v => length v = 2%nat) motif -> In [a; c] motif -> (c = 1 \/ c = -1)%R ->
  exists b, motif_builder RA motif = Ok b /\ nb_get RA b s None = Err TypeError.
Proof.
  intros n m s motif a c Hn Hm HC LM HI C. destruct (honey_all n m Hn Hm) as (s1 & L & outs & HC1 & HL & HA & _ & CT & GS). rewrite (honey_unique _ _ _ _ HC1 HC) in *. clear s1 HC1.
  assert (HB : built RA L s) by (eexists; rewrite HA; reflexivity). destruct (GS 0 0 ltac:(lia) ltac:(lia)) as [_ G].
  apply (C40_lemma 2 _ _ L s motif None _ _ [a; c] HL HB LM G I HI). apply (honey_miss n m s _ _ a c Hn Hm HC G C).
Qed.

Lemma nums_len l d : (forall p, In p l -> length p = d) -> Forall (fun v => length v = d) (map (nums RA) l).
Proof. intros H. apply Forall_forall. intros v Hv. apply in_map_iff in Hv as (p & <- & Hp). unfold nums. rewrite map_length. auto. Qed.

Lemma C121_builders_lemma : forall n m s r, 1 <= n -> 1 <= m -> honeycomb n m s -> 1 <= r ->
  (exists b, MooreNbHoodBuilder RA r 2 = Ok b /\ nb_get RA b s None = Err TypeError) /\
  (exists b, VonNeumannNbHood2DBuilder RA r = Ok b /\ nb_get RA b s None = Err TypeError) /\
  growth_nbhood RA s None = Err TypeError /\
  forall variant ords rnd ctl, life_init RA s ords rnd variant = Ok ctl -> forall c0 init k,
    run_sync ctl c0 init k = Err TypeError /\ run_async ctl c0 init k = Err TypeError /\ forall q sched, run_parallel ctl q sched c0 init k = Err TypeError.
Proof.
  intros n m s r Hn Hm HC Hr.
  assert (MO : forall r, 1 <= r -> exists b, MooreNbHoodBuilder RA r 2 = Ok b /\ nb_get RA b s None = Err TypeError).
  { intros r' Hr'. apply (C121_lemma n m s _ 0%R 1%R Hn Hm HC); auto.
    - apply nums_len. intros p Hp. now apply moore_points in Hp.
    - apply in_map_iff. exists [0; 1]. split; [reflexivity|]. apply moore_points. split; auto. repeat constructor; lia. }
  split; [now apply MO|]. split; [|split].
  - apply (C121_lemma n m s _ 0%R 1%R Hn Hm HC); auto.
    + apply nums_len. intros p Hp. now apply vn_points in Hp.
    + apply in_map_iff. exists [0; 1]. split; [reflexivity|]. apply vn_points. split; [reflexivity|]. unfold within_vn; cbn; lia.
  - destruct (MO 1 ltac:(lia)) as (b & Eb & EN). unfold growth_nbhood.
    assert (ED : p_dim s = 2%nat).
    { destruct (honey_all n m Hn Hm) as (s1 & L & outs & HC1 & HL & HA & _). rewrite (honey_unique _ _ _ _ HC1 HC) in *.
      assert (HB : built RA L s) by (eexists; rewrite HA; reflexivity). destruct (built_inv RA L s HB) as [h (_ & E2 & _)]. rewrite E2. exact (on_dim _ _ _ _ HL). }
    rewrite ED, Eb. cbn [bind]. exact EN.
  - intros variant ords rnd ctl E c0 init k. destruct (MO 1 ltac:(lia)) as (b & Eb & EN).
    assert (EP : forall c st, c_pre_run ctl c st = Err TypeError).
    { unfold life_init in E. destruct (process_variant_string variant) as [[bo su]|]; [|discriminate]. cbn [bind] in E. injection E as <-. intros c st. cbn [life_controller c_pre_run]. unfold life_pre_run. rewrite Eb. cbn [bind]. rewrite EN. reflexivity. }
    unfold run_sync, run_async, run_parallel. rewrite EP. cbn [bind]. auto.
Qed.
