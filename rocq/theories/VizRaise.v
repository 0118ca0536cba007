(** What the artists raise (C132). *)
From Coq Require Import Reals.
From Verif Require Import Prelude Dict Val Arith RVec RealArith LatticeModel StructModel StateModel ResultModel NbModel GridModel SetupModel AnalyzerModel VizModel
  SpecState SpecGeom SpecNb SpecGrid SpecAnalyze SpecViz StateFacts LatticeFacts StructFacts NbFacts NbMore GridFacts GridMore SpecSetup SetupFacts AnalyzerFacts AnalyzerMore VizFacts DrawFacts VoxFacts.
Local Open Scope Z_scope.

Lemma C132_cell_lemma : forall ca, get_color ca None = Err TypeError /\
  (forall d, dget (ca_state_key ca) d = None -> get_color ca (Some d) = Err KeyError) /\
  (forall d v, dget (ca_state_key ca) d = Some v ->
     (ca_color_map ca = None \/ hashable v = false -> get_color ca (Some d) = Err TypeError) /\
     (forall cm, ca_color_map ca = Some cm -> hashable v = true -> get_color ca (Some d) = Ok (shade cm v))).
Proof.
  intros ca. unfold get_color, dgetE. split; [reflexivity|]. split; [intros d ->; reflexivity|]. intros d v ->. cbn [bind]. split.
  - intros [->|H]; [reflexivity|]. destruct (ca_color_map ca); [now rewrite H|reflexivity].
  - intros cm -> ->. reflexivity.
Qed.

Lemma build_any l : forall acc i, (forallb hashable l = true -> exists r, foldM (fun (a : dict val colour * Z) p => let '(d, c_idx) := a in do c <- list_getE COLORS (c_idx mod Z.of_nat (length COLORS)); if negb (hashable p) then Err TypeError else Ok (dset p c d, c_idx + 1)) l (acc, i) = Ok r) /\
  (forallb hashable l = false -> foldM (fun (a : dict val colour * Z) p => let '(d, c_idx) := a in do c <- list_getE COLORS (c_idx mod Z.of_nat (length COLORS)); if negb (hashable p) then Err TypeError else Ok (dset p c d, c_idx + 1)) l (acc, i) = Err TypeError).
Proof.
  induction l as [|p l IH]; intros acc i; [split; [eexists; reflexivity|discriminate]|]. cbn [foldM forallb]. change (Z.of_nat (length COLORS)) with 70. rewrite get_colour by (apply Z.mod_pos_bound; lia). cbn [bind].
  destruct (hashable p); cbn [negb andb bind]; [apply IH|]. split; [discriminate|reflexivity].
Qed.
Lemma map_any l : forall acc i, 0 <= i -> let f := (fun (a : dict val colour * Z) p => let '(d, c_idx) := a in do c <- list_getE COLORS c_idx; if negb (hashable p) then Err TypeError else Ok (dset p c d, c_idx + 1)) in
  (forall pre p post, l = pre ++ p :: post -> forallb hashable pre = true -> i + Z.of_nat (length pre) < 70 -> hashable p = false -> foldM f l (acc, i) = Err TypeError) /\
  (forall pre p post, l = pre ++ p :: post -> forallb hashable pre = true -> i + Z.of_nat (length pre) = Z.max i 70 -> foldM f l (acc, i) = Err IndexError) /\
  (forallb hashable l = true -> i + Z.of_nat (length l) <= 70 -> exists r, foldM f l (acc, i) = Ok r).
Proof.
  induction l as [|q l IH]; intros acc i Hi f; [split; [|split]|].
  - intros [|? ?] p post E; discriminate.
  - intros [|? ?] p post E; discriminate.
  - intros _ _. eexists; reflexivity.
  - split; [|split].
    + intros [|a pre] p post E HP L HF; injection E as -> ->; cbn [foldM f]; cbn [length] in L.
      * rewrite get_colour by lia. cbn [bind]. rewrite HF. reflexivity.
      * cbn [forallb] in HP. apply Bool.andb_true_iff in HP as [H1 H2]. rewrite get_colour by lia. cbn [bind]. rewrite H1. cbn [negb bind].
        eapply (proj1 (IH _ (i + 1) ltac:(lia))); eauto. lia.
    + intros [|a pre] p post E HP L; injection E as -> ->; cbn [foldM f]; cbn [length] in L.
      * rewrite no_colour by lia. reflexivity.
      * cbn [forallb] in HP. apply Bool.andb_true_iff in HP as [H1 H2]. rewrite get_colour by lia. cbn [bind]. rewrite H1. cbn [negb bind].
        eapply (proj1 (proj2 (IH _ (i + 1) ltac:(lia)))); eauto. lia.
    + intros HP L. cbn [forallb] in HP. apply Bool.andb_true_iff in HP as [H1 H2]. cbn [length] in L. cbn [foldM f]. rewrite get_colour by lia. cbn [bind]. rewrite H1. cbn [negb bind].
      apply (proj2 (proj2 (IH _ (i + 1) ltac:(lia)))); auto. lia.
Qed.
Lemma C132_maps_lemma : forall phases,
  (forallb hashable phases = true -> exists cm, build_color_map phases = Ok cm) /\
  (forallb hashable phases = false -> build_color_map phases = Err TypeError) /\
  (forall pre p post, phases = pre ++ p :: post -> forallb hashable pre = true ->
     ((length pre < 70)%nat -> hashable p = false -> color_map phases = Err TypeError) /\
     (length pre = 70%nat -> color_map phases = Err IndexError)) /\
  (forallb hashable phases = true -> (length phases <= 70)%nat -> exists cm, color_map phases = Ok cm).
Proof.
  intros phases. unfold build_color_map, color_map. destruct (build_any phases [] 0) as [B1 B2]. destruct (map_any phases [] 0 ltac:(lia)) as (M1 & M2 & M3). cbv zeta in M1, M2, M3. split; [|split; [|split]].
  - intros H. destruct (B1 H) as [[d i] ->]. eexists; reflexivity.
  - intros H. rewrite (B2 H). reflexivity.
  - intros pre p post E HP. split; intros L; [intros HF; rewrite (M1 pre p post E HP ltac:(lia) HF); reflexivity|]. rewrite (M2 pre p post E HP ltac:(lia)). reflexivity.
  - intros H L. destruct (M3 H ltac:(lia)) as [[d i] ->]. eexists; reflexivity.
Qed.

(** ** Two-dimensional drawings *)
Lemma text_none glyphs im pos t : im_h im = 0 -> draw_text glyphs im pos t = im.
Proof.
  intros H. unfold draw_text. generalize (glyphs pos t). intros l. induction l as [|[[x y] c] l IH]; [reflexivity|]. cbn [fold_left]. rewrite H.
  replace ((x <? 0) || (x >=? im_w im) || (y <? 0) || (y >=? 0)) with true by lia. exact IH.
Qed.
Lemma C132_drawing_lemma : forall n0 n1 s art st glyphs label cs, square_grid [n0; n1] s ->
  (forall e, art_legend art st = Err e -> draw_2d RA real_int glyphs s art st label cs = Err e) /\
  (forall lg, art_legend art st = Ok lg ->
     (cs < 0 -> draw_2d RA real_int glyphs s art st label cs = Err ValueError) /\
     (cs = 0 -> forall colr, colours art s st colr -> exists im, draw_2d RA real_int glyphs s art st label cs = Ok im /\ im_w im = 5 /\ im_h im = 0) /\
     (0 <= cs -> n1 <= n0 -> forall pre x post e, sites s None = pre ++ x :: post ->
        (forall y, In y pre -> exists c, art_color art (get_site_state st (KInt (s_id y))) = Ok c) -> art_color art (get_site_state st (KInt (s_id x))) = Err e ->
        draw_2d RA real_int glyphs s art st label cs = Err e)).
Proof.
  intros n0 n1 s art st glyphs label cs SG. pose proof (screen_real s n0 n1 cs SG) as G. destruct (sc_first _ _ _ _ _ _ _ G) as (v & EV & ET). destruct (sc_pos _ _ _ _ _ _ _ G) as [Z0 Z1].
  split; [intros e E; unfold draw_2d; rewrite E; reflexivity|]. intros lg EL. rewrite (draw_2d_stages _ _ _ _ _ _ _ _ _ _ _ EL EV ET). set (h := Z.max n0 (Z.of_nat (length lg) + 1) * cs).
  split; [|split].
  - intros CS. unfold new_image. assert (h < 0) by (unfold h; nia). destruct (Z.ltb_spec h 0); [|lia]. rewrite Bool.orb_true_r. reflexivity.
  - intros -> colr CO. unfold h. rewrite !Z.mul_0_r. cbn [new_image Z.ltb Z.compare orb bind Z.add].
    assert (D : forall l im, (forall x, In x l -> In x (sites s None)) -> foldM (draw_site RA real_int art st n0 0) l im = Ok im).
    { induction l as [|x l IH]; intros im HL; [reflexivity|]. cbn [foldM]. destruct (sits_all _ _ _ _ _ _ _ G x) as (a & b & S); [apply HL; now left|].
      rewrite (draw_site_fill RA real_int s art colr st n0 n1 0 _ G CO x a b im S). rewrite !Z.mul_0_r. cbn. apply IH. intros; apply HL; now right. }
    rewrite D by auto. cbn [bind]. unfold border. change (zrange 0 0) with (@nil Z). cbn [foldM bind].
    assert (SW : forall l im k, (forall p, In p l -> dget p lg <> None) -> im_h im = 0 -> exists k', foldM (swatch glyphs lg n0 0) l (im, k) = Ok (im, k')).
    { induction l as [|p l IH]; intros im k HL H0; [eexists; reflexivity|]. cbn [foldM]. unfold swatch at 1. unfold dgetE. destruct (dget p lg) as [c|] eqn:E; [|destruct (HL p (or_introl eq_refl) E)]. cbn [bind].
      rewrite !Z.mul_0_r. cbn -[draw_text]. rewrite text_none by exact H0. apply IH; auto. intros; apply HL; now right. }
    match goal with |- context [foldM _ _ (?im, 0)] => destruct (SW (sorted (dkeys lg)) im 0) as [k' ->] end.
    { intros p Hp. apply (Permutation.Permutation_in p (Permutation.Permutation_sym (sorted_perm _))) in Hp. apply dget_key_Some in Hp as [c ->]. discriminate. }
    { reflexivity. }
    cbn [bind]. destruct label as [l|]; eexists; (split; [reflexivity|]); [rewrite text_none by reflexivity|]; split; reflexivity.
  - intros CS N pre x post e ES HP HX. assert (H0 : n0 * cs <= h) by (unfold h; apply Z.mul_le_mono_nonneg_r; lia). unfold new_image. destruct (Z.ltb_spec ((n0 + 6) * cs + 5) 0); [nia|]. destruct (Z.ltb_spec h 0); [nia|]. cbn [orb bind].
    assert (D : forall l im, (forall y, In y l -> In y (sites s None)) -> (forall y, In y l -> exists c, art_color art (get_site_state st (KInt (s_id y))) = Ok c) -> im_w im = (n0 + 6) * cs + 5 -> im_h im = h ->
              exists im', foldM (draw_site RA real_int art st n0 cs) l im = Ok im' /\ im_w im' = im_w im /\ im_h im' = im_h im).
    { induction l as [|y l IH]; intros im HL HC W Hh; [exists im; auto|]. cbn [foldM]. destruct (sc_all _ _ _ _ _ _ _ G y) as (a & b & Ba & Bb & C); [apply HL; now left|].
      destruct (sc_loc _ _ _ _ _ _ _ G y a b (HL y (or_introl eq_refl)) Ba Bb C) as (l0 & l1 & El & E0 & E1). destruct (HC y (or_introl eq_refl)) as [c Ec]. unfold draw_site at 1. rewrite Ec. cbn [bind]. rewrite El.
      change (list_getE [l0; l1] 0) with (Ok l0). change (list_getE [l0; l1] 1) with (Ok l1). cbn [bind]. rewrite E0, E1.
      destruct (fill_ok im (a * cs) (a * cs + cs) ((n0 - 1 - b) * cs) ((n0 - 1 - b) * cs + cs) c) as (im1 & F1 & Wi & Hi & _); [nia|rewrite W; nia|nia|rewrite Hh; nia|]. rewrite F1. cbn [bind].
      destruct (IH im1) as (im' & E & W' & H'); [intros; apply HL; now right|intros; apply HC; now right|congruence|congruence|]. exists im'. split; [exact E|]. split; congruence. }
    rewrite ES, foldM_app. match goal with |- context [foldM _ pre ?im] => destruct (D pre im) as (im' & -> & _) end; auto.
    { intros y Hy. rewrite ES. apply in_or_app. now left. }
    cbn [bind foldM]. unfold draw_site at 1. rewrite HX. reflexivity.
Qed.

(** ** The 3D artist on two-dimensional grids *)
Lemma foldM_raises {X Y} (f : X -> Y -> res X) e l : (forall a y, In y l -> f a y = Err e \/ exists b, f a y = Ok b) -> (exists y, In y l /\ forall a, f a y = Err e) -> forall a, foldM f l a = Err e.
Proof.
  induction l as [|y l IH]; intros HS (z & Hz & EZ) a; [destruct Hz|]. cbn [foldM]. destruct (HS a y (or_introl eq_refl)) as [->|[b E]]; [reflexivity|]. rewrite E. cbn [bind].
  apply IH; [intros; apply HS; now right|]. exists z. split; auto. destruct Hz as [<-|Hz]; auto. rewrite EZ in E. discriminate.
Qed.
Lemma foldM_fine {X Y} (f : X -> Y -> res X) l : (forall a y, In y l -> exists b, f a y = Ok b) -> forall a, exists b, foldM f l a = Ok b.
Proof. induction l as [|y l IH]; intros HS a; [eexists; reflexivity|]. cbn [foldM]. destruct (HS a y (or_introl eq_refl)) as [b ->]. cbn [bind]. apply IH. intros; apply HS; now right. Qed.

Lemma C132_flat_lemma : forall n0 n1 s art st colr cube_root shell, square_grid [n0; n1] s -> colours art s st colr ->
  let sz := cube_root (size st) in
  ((n0 <= sz /\ shell = false \/ n0 = 1) /\ n1 <= sz /\ 1 <= sz -> image_3d real_int real_eq cube_root s art st shell = Err ValueError) /\
  (~ ((n0 <= sz /\ shell = false \/ n0 = 1) /\ n1 <= sz /\ 1 <= sz) -> image_3d real_int real_eq cube_root s art st shell = Err IndexError).
Proof.
  intros n0 n1 s art st colr cube_root shell SG CO sz. pose proof (screen_real s n0 n1 1 SG) as G. destruct (sc_pos _ _ _ _ _ _ _ G) as [Z0 Z1].
  destruct (square_first _ _ n0 [n1] SG eq_refl) as [_ DIM]. cbn [length] in DIM.
  assert (LOC : forall x, In x (sites s None) -> exists a b, 0 <= a < n1 /\ 0 <= b < n0 /\ s_loc x = [IZR a; IZR b] /\ cell s [a; b] (s_id x)).
  { intros x Hx. destruct (square_facts _ _ SG) as [L GF]. destruct (site_cell _ _ _ (s_id x) x GF) as (p & Lp & B & El & C & _).
    { apply (built_get L s (gf_built _ _ _ GF)). auto. }
    cbn [extents length] in *. inversion B as [|a ? p1 ? Ba B1]; subst. inversion B1 as [|b ? p2 ? Bb B2]; subst. inversion B2; subst. exists a, b. auto. }
  assert (EQ : forall a z, real_eq (IZR a) z = (a =? z)).
  { intros a z. unfold real_eq. destruct (Req_EM_T (IZR a) (IZR z)) as [E|E]; [apply eq_IZR in E; lia|]. destruct (Z.eqb_spec a z); [subst; congruence|reflexivity]. }
  assert (STEP : forall x a b ds, In x (sites s None) -> s_loc x = [IZR a; IZR b] -> 0 <= a -> 0 <= b ->
            put_voxel real_int real_eq s art st sz shell ds x =
              if shell && negb (b =? 0) && negb (a =? sz) then Err IndexError
              else if (a <? sz) && (b <? sz) then let col := colr (s_id x) in Ok (dset col (match dget col ds with Some l => l | None => [] end ++ [[a; b]]) ds) else Err IndexError).
  { intros x a b ds Hx El Ha Hb. unfold put_voxel. rewrite El. cbn [map]. change (list_getE [IZR a; IZR b] 0) with (Ok (IZR a)). change (list_getE [IZR a; IZR b] 1) with (Ok (IZR b)).
    change (list_getE [IZR a; IZR b] 2) with (@Err R IndexError). cbn [bind]. rewrite !EQ, !real_int_IZR, (CO (s_id x) x) by (apply (sc_get _ _ _ _ _ _ _ G); auto). rewrite DIM.
    cbn [length Nat.leb negb forallb].
    assert (Y : (- sz <=? a) && (a <? sz) && ((- sz <=? b) && (b <? sz) && true) = (a <? sz) && (b <? sz)) by lia. rewrite Y.
    destruct shell, (Z.eqb_spec b 0), (Z.eqb_spec a sz); cbn [negb andb bind]; try reflexivity;
      destruct ((a <? sz) && (b <? sz)); try reflexivity; cbn [map]; repeat (match goal with |- context [?z <? 0] => destruct (Z.ltb_spec z 0); [lia|] end); reflexivity. }
  unfold image_3d, draw_3d. fold sz. change (foldM _ (sites s None) []) with (foldM (put_voxel real_int real_eq s art st sz shell) (sites s None) []). split.
  - intros (A & B & C). destruct (foldM_fine (put_voxel real_int real_eq s art st sz shell) (sites s None)) with (a := @nil (colour * list (list Z))) as [ds ->].
    { intros ds x Hx. destruct (LOC x Hx) as (a & b & Ba & Bb & El & _). rewrite (STEP x a b ds Hx El ltac:(lia) ltac:(lia)).
      replace (shell && negb (b =? 0) && negb (a =? sz)) with false by (destruct A as [[A ->]| ->]; [reflexivity|replace b with 0 by lia; destruct shell; reflexivity]).
      replace ((a <? sz) && (b <? sz)) with true by lia. eexists; reflexivity. }
    cbn [bind]. rewrite DIM. reflexivity.
  - intros N. rewrite (foldM_raises _ IndexError); [reflexivity| |].
    + intros ds x Hx. destruct (LOC x Hx) as (a & b & Ba & Bb & El & _). rewrite (STEP x a b ds Hx El ltac:(lia) ltac:(lia)).
      destruct (shell && negb (b =? 0) && negb (a =? sz)); [now left|]. destruct ((a <? sz) && (b <? sz)); [right; eexists; reflexivity|now left].
    + assert (exists a b, 0 <= a < n1 /\ 0 <= b < n0 /\ (shell && negb (b =? 0) && negb (a =? sz) = true \/ (a <? sz) && (b <? sz) = false)) as (a & b & Ba & Bb & H).
      { destruct (Z_lt_le_dec sz n1) as [L|L]; [exists (n1 - 1), 0; split; [lia|]; split; [lia|]; right; lia|].
        destruct (Z_lt_le_dec sz 1) as [L1|L1]; [exists 0, 0; split; [lia|]; split; [lia|]; right; lia|].
        destruct (Z.eq_dec n0 1) as [->|N0]; [exfalso; apply N; auto|]. destruct shell.
        - exists 0, 1. split; [lia|]. split; [lia|]. left. lia.
        - exists 0, (n0 - 1). split; [lia|]. split; [lia|]. right. destruct (Z_lt_le_dec sz n0); [lia|]. exfalso. apply N. auto. }
      destruct (sc_site _ _ _ _ _ _ _ G a b Ba Bb) as (x & Hx & Cx). exists x. split; auto. intros ds. destruct (LOC x Hx) as (a' & b' & Ba' & Bb' & El & Cx').
      destruct (sc_inj _ _ _ _ _ _ _ G a' b' a b (s_id x)) as [-> ->]; auto. rewrite (STEP x a b ds Hx El ltac:(lia) ltac:(lia)). destruct H as [-> | H]; [reflexivity|].
      destruct (shell && negb (b =? 0) && negb (a =? sz)); [reflexivity|]. now rewrite H.
Qed.

(** ** Boxes of which only the shell is drawn *)
Lemma C132_shell_lemma : forall s art st colr n0 n1 n2 cube_root, square_grid [n0; n1; n2] s -> colours art s st colr ->
  let sz := cube_root (size st) in
  (n1 <= sz /\ n2 <= sz /\ 1 <= sz -> exists ds, draw_3d real_int real_eq cube_root s art st true = Ok (sz, ds) /\
     forall c v, voxel ds c v <-> exists x z i, v = [x; 0; z] /\ 0 <= x < n1 /\ 0 <= z < n2 /\ cell s v i /\ c = colr i) /\
  (sz < n1 \/ sz < n2 \/ sz < 1 -> draw_3d real_int real_eq cube_root s art st true = Err IndexError).
Proof.
  intros s art st colr n0 n1 n2 cube_root SG CO sz. pose proof (screen3_real s n0 n1 n2 SG) as G.
  destruct (square_facts _ _ SG) as [L GF]. pose proof (gf_pos _ _ _ GF) as GP. assert (Z : 0 < n0 /\ 0 < n1 /\ 0 < n2) by (inversion GP as [|? ? ? GP']; subst; inversion GP' as [|? ? ? GP'']; subst; inversion GP''; auto).
  unfold draw_3d. fold sz. change (foldM _ (sites s None) []) with (foldM (put_voxel real_int real_eq s art st sz true) (sites s None) []).
  destruct (voxels_stage real_int real_eq s art colr st n0 n1 n2 sz _ true G CO (sites s None) []) as [(ds & E & F & V)|(E & x & a & b & c & Hx & S' & Se & FF)]; [auto| |].
  - rewrite E. cbn [bind]. split.
    + intros (B1 & B2 & B3). exists ds. split; [reflexivity|]. intros col v. rewrite V. split.
      * intros [(l & El & _)|(x & a & b & c & Hx & S' & Se & -> & ->)]; [discriminate|]. pose proof S' as (_ & Ba & Bb & Bc & Ci). unfold seen in Se. assert (b = 0) by lia. subst b. exists a, c, (s_id x). auto.
      * intros (a & c & i & -> & Ba & Bc & Ci & ->). right. destruct (stands_cell real_int real_eq s n0 n1 n2 _ G a 0 c i) as (x & <- & S'); auto; [lia|]. exists x, a, 0, c.
        split; [apply S'|]. split; auto.
    + intros H. exfalso. assert (exists a c, 0 <= a < n1 /\ 0 <= c < n2 /\ fits sz a 0 c = false) as (a & c & Ba & Bc & NF).
      { unfold fits. destruct H as [H|[H|H]]; [exists (n1 - 1), 0|exists 0, (n2 - 1)|exists 0, 0]; (split; [lia|]); (split; [lia|lia]). }
      destruct (s3_site _ _ _ _ _ _ _ G a 0 c Ba ltac:(lia) Bc) as (x & Hx & Cx). rewrite (F x a 0 c Hx) in NF; [discriminate| |reflexivity]. unfold stands. repeat (split; auto); lia.
  - split; [|intros _; rewrite E; reflexivity]. intros (B1 & B2 & B3). exfalso. destruct S' as (_ & Ba & Bb & Bc & _). unfold seen in Se. unfold fits in FF. lia.
Qed.
