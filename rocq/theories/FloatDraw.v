(** Drawings of square grids in binary64 (C102). *)
From Coq Require Import Reals Lra Psatz Sorted Permutation.
From Flocq Require Import Core BinarySingleNaN.
From Verif Require Import Prelude Dict Val Arith RealArith FloatArith LatticeModel JsonModel StructModel StateModel ResultModel RunnerModel NbModel GridModel SimModel SetupModel AnalyzerModel VizModel
  SpecState SpecResult SpecGeom SpecNb SpecGrid SpecSetup SpecAnalyze SpecViz SpecFloat64 SpecNuc StateFacts JsonFacts StructFacts StructMore StructBuild
  LatticeFacts NbFacts NbMore GridFacts GridMore GridNb GridOpen SetupFacts FloatFacts FloatCoord FloatGrid FloatMore FloatNb FloatVec FloatAxis FloatBox FloatNorm FloatCut FloatOpen FloatTorus FloatNuc FloatSetup
  AnalyzerFacts VizFacts DrawFacts VoxFacts GifFacts MovieFacts SpecViz.
Local Open Scope Z_scope.

(** ** int() and == *)
Lemma f_int_denotes v x : denotes v x -> f_int v = Ztrunc x.
Proof.
  intros [_ E]. apply eq_IZR. unfold f_int. rewrite Btrunc_correct, E by reflexivity. unfold round, F2R, scaled_mantissa, cexp, FIX_exp. simpl. rewrite !Rmult_1_r. reflexivity.
Qed.
Lemma f_int_IZR v z : denotes v (IZR z) -> f_int v = z.
Proof. intros D. rewrite (f_int_denotes v _ D). apply Ztrunc_IZR. Qed.
Lemma f_is_IZR v a z : denotes v (IZR a) -> f_is v z = (a =? z).
Proof.
  intros D. unfold f_is. rewrite (f_int_IZR v a D), (proj1 D). pose proof (denotes_floor v _ D) as DF. rewrite Zfloor_IZR in DF. rewrite (denotes_eqb _ _ _ _ DF D).
  rewrite Req_bool_true by reflexivity. reflexivity.
Qed.

Lemma whole_thousandths p v : thousandths (map (fun a => 1000 * a) p) v -> Forall (fun a => Z.abs a <= 2 ^ 20) p -> Forall2 (fun w a => denotes w (IZR a)) v p.
Proof.
  unfold thousandths. revert v. induction p as [|a p IH]; intros v H B; cbn [map] in H.
  - destruct v; [constructor|inversion H].
  - destruct v as [|w v]; [inversion H|]. assert (H1 : denotes w (rnd (IZR (1000 * a) / 1000)) /\ Forall2 (fun a v => denotes v (rnd (IZR a / 1000))) (map (fun a => 1000 * a) p) v) by (inversion H; auto).
    destruct H1 as [D H2]. inversion B; subst. constructor; [|apply IH; auto]. rewrite mult_IZR in D. replace (1000 * IZR a / 1000)%R with (IZR a) in D by field. rewrite rnd_IZR in D by lia. exact D.
Qed.
Lemma zero_shift c : zipwith (fun a b => 1000 * a + b) c (repeat 0 (length c)) = map (fun a => 1000 * a) c.
Proof. induction c as [|a c IH]; cbn [length repeat zipwith map]; auto. rewrite IH. f_equal. lia. Qed.

Section Square.
  Variables (size : list Z) (s : structure b64).
  Hypothesis Hk : Forall (fun m => 1 <= m <= M20) size.
  Hypothesis FS : fl_square size s.

  Lemma square_get x : In x (sites s None) -> get_site s (s_id x) = Some x.
  Proof. intros Hx. destruct (torus_box size s Hk FS) as (L & AL & FB). now apply (fb_in _ _ _ _ _ _ _ _ _ FB). Qed.
  Lemma square_loc x c : In x (sites s None) -> Forall2 (fun a m => 0 <= a < m) c (extents size) -> fl_cell size s c (s_id x) -> Forall2 (fun w a => denotes w (IZR a)) (s_loc x) c.
  Proof.
    intros Hx Hc C. apply (torus_small size s Hk FS c (s_id x) Hc) in C. destruct C as (Lc & y & Gy & T). rewrite (square_get x Hx) in Gy. injection Gy as <-.
    rewrite repeat_length in Lc. rewrite <- Lc, zero_shift in T. apply whole_thousandths; auto.
    apply (nth_Forall2 _ 0 0) in Hc as [Le Hc]. apply Forall_forall. intros a Ha. apply (In_nth _ _ 0) in Ha as (k & Lk & <-). specialize (Hc k Lk).
    assert (B : nth k (extents size) 0 <= M20). { rewrite Forall_forall in Hk. apply Hk. apply extents_In. apply nth_In. now rewrite <- Le. }
    unfold M20 in B. lia.
  Qed.
  Lemma square_all x : In x (sites s None) -> exists c, Forall2 (fun a m => 0 <= a < m) c (extents size) /\ fl_cell size s c (s_id x).
  Proof.
    intros Hx. assert (I : In (s_id x) (map s_id (sites s None))) by now apply in_map. apply (torus_ids size s Hk FS) in I as (p & Lp & C). pose proof C as (c & SC & Sc). exists c.
    pose proof (torus_in size s Hk FS c _ Sc) as Hc. split; auto. apply (torus_small size s Hk FS); auto.
  Qed.
  Lemma square_inj c c' i : Forall2 (fun a m => 0 <= a < m) c (extents size) -> Forall2 (fun a m => 0 <= a < m) c' (extents size) -> fl_cell size s c i -> fl_cell size s c' i -> c = c'.
  Proof. intros Hc Hc' C C'. apply (torus_small size s Hk FS) in C; auto. apply (torus_small size s Hk FS) in C'; auto. now apply (torus_fun size s Hk FS c c' i i). Qed.
  Lemma square_fun c i j : Forall2 (fun a m => 0 <= a < m) c (extents size) -> fl_cell size s c i -> fl_cell size s c j -> i = j.
  Proof. intros Hc C C'. apply (torus_small size s Hk FS) in C; auto. apply (torus_small size s Hk FS) in C'; auto. now apply (torus_fun size s Hk FS c c i j). Qed.
  Lemma square_site c : Forall2 (fun a m => 0 <= a < m) c (extents size) -> exists x, In x (sites s None) /\ fl_cell size s c (s_id x).
  Proof.
    intros Hc. assert (Lc : length c = length size) by (apply (nth_Forall2 _ 0 0) in Hc as [-> _]; apply extents_length).
    destruct (torus_total size s Hk FS c Lc) as (i & Ci). assert (I : In i (map s_id (sites s None))) by (apply (torus_ids size s Hk FS); eauto). apply in_map_iff in I as (x & <- & Hx). eauto.
  Qed.
End Square.

Lemma mul_int v w a b : denotes v (IZR a) -> denotes w (IZR b) -> Z.abs (a * b) <= 2 ^ 52 -> denotes (f_mul v w) (IZR (a * b)).
Proof.
  intros Dv Dw B. rewrite <- (rnd_IZR (a * b)) by lia. rewrite mult_IZR. apply denotes_mul; auto. rewrite <- mult_IZR. apply small_big. apply IZR_abs_le. lia.
Qed.
Lemma sub_int v w a b : denotes v (IZR a) -> denotes w (IZR b) -> Z.abs (a - b) <= 2 ^ 52 -> denotes (f_sub v w) (IZR (a - b)).
Proof.
  intros Dv Dw B. rewrite <- (rnd_IZR (a - b)) by lia. rewrite minus_IZR. apply denotes_sub; auto. rewrite <- minus_IZR. apply small_big. apply IZR_abs_le. lia.
Qed.

Lemma screen_float s n0 n1 cs : fl_square [n0; n1] s -> 1 <= n0 <= 2 ^ 20 -> 1 <= n1 <= 2 ^ 20 -> 1 <= cs <= 2 ^ 30 ->
  screen FA f_int s n0 n1 cs (fun a b i => fl_cell [n0; n1] s [a; b] i).
Proof.
  intros FS B0 B1 BC. assert (Hk : Forall (fun m => 1 <= m <= M20) [n0; n1]) by (unfold M20; repeat constructor; lia).
  assert (BX : forall a b, 0 <= a < n1 -> 0 <= b < n0 -> Forall2 (fun a m => 0 <= a < m) [a; b] (extents [n0; n1])) by (intros; cbn [extents]; repeat constructor; lia).
  constructor.
  - destruct (first_fl 2 (SzTuple [n0; n1]) s n0 [n1]) as (v & E & D); [|reflexivity|].
    + split; [split; [auto|split; [reflexivity|repeat constructor; lia]]|]. split; [repeat constructor; lia|exact FS].
    + exists v. split; [exact E|now apply f_int_IZR].
  - lia.
  - intros x Hx. now apply (square_get [n0; n1] s Hk FS).
  - intros x Hx. destruct (square_all [n0; n1] s Hk FS x Hx) as (c & Hc & C). cbn [extents] in Hc. destruct c as [|a [|b [|]]]; try (apply (nth_Forall2 _ 0 0) in Hc as [Lc _]; discriminate Lc).
    exists a, b. inversion Hc as [|? ? ? ? Ha H1]; subst. inversion H1; subst. auto.
  - intros x a b Hx Ha Hb C. pose proof (square_loc [n0; n1] s Hk FS x [a; b] Hx (BX a b Ha Hb) C) as H. destruct (s_loc x) as [|l0 [|l1 [|]]]; try (apply (nth_Forall2 _ (f_ofZ 0) 0) in H as [Lc _]; discriminate Lc).
    inversion H as [|? ? ? ? D0 H1]; subst. assert (D1 : denotes l1 (IZR b)) by (inversion H1; auto). exists l0, l1. split; [reflexivity|].
    assert (DC : denotes (f_ofZ cs) (IZR cs)) by (apply denotes_ofZ; lia).
    split; apply f_int_IZR.
    + apply mul_int; auto. nia.
    + apply mul_int; [|exact DC|nia]. apply sub_int; auto; [apply denotes_ofZ; lia|lia].
  - intros a b i j Ha Hb. apply (square_fun [n0; n1] s Hk FS [a; b]); auto.
  - intros a b a' b' i Ha Hb Ha' Hb' C C'. pose proof (square_inj [n0; n1] s Hk FS [a; b] [a'; b'] i (BX a b Ha Hb) (BX a' b' Ha' Hb') C C') as E. injection E as <- <-. auto.
  - intros a b Ha Hb. apply (square_site [n0; n1] s Hk FS [a; b]); auto.
Qed.

Lemma screen3_float s n0 n1 n2 : fl_square [n0; n1; n2] s -> 1 <= n0 <= 2 ^ 20 -> 1 <= n1 <= 2 ^ 20 -> 1 <= n2 <= 2 ^ 20 ->
  screen3 f_int f_is s n0 n1 n2 (fun a b c i => fl_cell [n0; n1; n2] s [a; b; c] i).
Proof.
  intros FS B0 B1 B2. assert (Hk : Forall (fun m => 1 <= m <= M20) [n0; n1; n2]) by (unfold M20; repeat constructor; lia).
  assert (BX : forall a b c, 0 <= a < n1 -> 0 <= b < n0 -> 0 <= c < n2 -> Forall2 (fun a m => 0 <= a < m) [a; b; c] (extents [n0; n1; n2])) by (intros; cbn [extents]; repeat constructor; lia).
  constructor.
  - apply (torus_dim [n0; n1; n2] s Hk FS).
  - intros x Hx. now apply (square_get [n0; n1; n2] s Hk FS).
  - intros x Hx. destruct (square_all [n0; n1; n2] s Hk FS x Hx) as (v & Hc & C). cbn [extents] in Hc. destruct v as [|a [|b [|c [|]]]]; try (apply (nth_Forall2 _ 0 0) in Hc as [Lc _]; discriminate Lc).
    exists a, b, c. inversion Hc as [|? ? ? ? Ha H1]; subst. inversion H1 as [|? ? ? ? Hb H2]; subst. inversion H2; subst. auto.
  - intros x a b c Hx Ha Hb Hc C. pose proof (square_loc [n0; n1; n2] s Hk FS x [a; b; c] Hx (BX a b c Ha Hb Hc) C) as H.
    destruct (s_loc x) as [|l0 [|l1 [|l2 [|]]]]; try (apply (nth_Forall2 _ (f_ofZ 0) 0) in H as [Lc _]; discriminate Lc).
    inversion H as [|? ? ? ? D0 H1]; subst. inversion H1 as [|? ? ? ? D1 H2]; subst. assert (D2 : denotes l2 (IZR c)) by (inversion H2; auto). exists l0, l1, l2. split; [reflexivity|].
    rewrite (f_int_IZR _ _ D0), (f_int_IZR _ _ D1), (f_int_IZR _ _ D2). repeat (split; auto); now apply f_is_IZR.
  - intros a b c i j Ha Hb Hc. apply (square_fun [n0; n1; n2] s Hk FS [a; b; c]); auto.
  - intros a b c a' b' c' i Ha Hb Hc Ha' Hb' Hc' C C'. pose proof (square_inj [n0; n1; n2] s Hk FS [a; b; c] [a'; b'; c'] i (BX a b c Ha Hb Hc) (BX a' b' c' Ha' Hb' Hc') C C') as E. injection E as <- <- <-. auto.
  - intros a b c Ha Hb Hc. apply (square_site [n0; n1; n2] s Hk FS [a; b; c]); auto.
Qed.

(** * Interface *)
Lemma C102_drawing_lemma : forall s ca cm st str_ glyphs cs n0 n1, fl_square [n0; n1] s -> 1 <= n0 <= 2 ^ 20 -> 1 <= n1 <= 2 ^ 20 -> n1 <= n0 -> 1 <= cs <= 2 ^ 30 -> valued (ca_state_key ca) st -> colours_by ca cm ->
  (forall i x, get_site s i = Some x -> In (KInt i) (site_ids st)) -> rightwards glyphs ->
  exists im order, draw_2d FA f_int glyphs s (as_artist str_ ca) st None cs = Ok im /\
    NoDup order /\ Sorted (fun a b => String.leb a b = true) order /\ (forall l, In l order <-> exists v, held (ca_state_key ca) st v /\ str_ v = l) /\
    im_w im = (n0 + 6) * cs + 5 /\ im_h im = Z.max n0 (Z.of_nat (length order) + 1) * cs /\
    (forall a b i v x y, 0 <= a < n1 -> 0 <= b < n0 -> fl_cell [n0; n1] s [a; b] i -> site_entry st (KInt i) (ca_state_key ca) = Some v ->
       inside (a * cs) ((a + 1) * cs) ((n0 - 1 - b) * cs) ((n0 - b) * cs) x y = true -> im_px im x y = shade cm v) /\
    (forall x y, 0 <= x < n0 * cs -> 0 <= y < im_h im -> n1 * cs <= x \/ n0 * cs <= y -> im_px im x y = (0, 0, 0)) /\
    (forall x y, n0 * cs <= x < n0 * cs + 5 -> 0 <= y < im_h im -> im_px im x y = (255, 255, 255)) /\
    (forall k l, nth_error order k = Some l -> exists v, held (ca_state_key ca) st v /\ str_ v = l /\
       forall x y, inside (n0 * cs + 5 + cs / 4) (n0 * cs + 5 + cs / 4 + cs) (Z.of_nat k * cs + cs / 4) (Z.of_nat k * cs + cs / 4 + cs) x y = true -> im_px im x y = shade cm v).
Proof.
  intros s ca cm st str_ glyphs cs n0 n1 FS B0 B1 LE BC. exact (drawing_gen FA f_int (fun a b i => fl_cell [n0; n1] s [a; b] i) s ca cm st str_ glyphs cs n0 n1 (screen_float s n0 n1 cs FS B0 B1 BC) LE (proj1 BC)).
Qed.
Lemma C102_art_lemma : forall s art st colr lg glyphs cs n0 n1, fl_square [n0; n1] s -> 1 <= n0 <= 2 ^ 20 -> 1 <= n1 <= 2 ^ 20 -> n1 <= n0 -> 1 <= cs <= 2 ^ 30 -> paints art s st colr lg -> rightwards glyphs ->
  exists im order, draw_2d FA f_int glyphs s art st None cs = Ok im /\
    Permutation order (dkeys lg) /\ Sorted (fun a b => String.leb a b = true) order /\
    im_w im = (n0 + 6) * cs + 5 /\ im_h im = Z.max n0 (Z.of_nat (length lg) + 1) * cs /\
    (forall a b i x y, 0 <= a < n1 -> 0 <= b < n0 -> fl_cell [n0; n1] s [a; b] i ->
       inside (a * cs) ((a + 1) * cs) ((n0 - 1 - b) * cs) ((n0 - b) * cs) x y = true -> im_px im x y = colr i) /\
    (forall x y, 0 <= x < n0 * cs -> 0 <= y < im_h im -> n1 * cs <= x \/ n0 * cs <= y -> im_px im x y = (0, 0, 0)) /\
    (forall x y, n0 * cs <= x < n0 * cs + 5 -> 0 <= y < im_h im -> im_px im x y = (255, 255, 255)) /\
    (forall k l c x y, nth_error order k = Some l -> dget l lg = Some c ->
       inside (n0 * cs + 5 + cs / 4) (n0 * cs + 5 + cs / 4 + cs) (Z.of_nat k * cs + cs / 4) (Z.of_nat k * cs + cs / 4 + cs) x y = true -> im_px im x y = c).
Proof.
  intros s art st colr lg glyphs cs n0 n1 FS B0 B1 LE BC. exact (art_gen FA f_int (fun a b i => fl_cell [n0; n1] s [a; b] i) s art st colr lg glyphs cs n0 n1 (screen_float s n0 n1 cs FS B0 B1 BC) LE (proj1 BC)).
Qed.
Lemma C102_wide_lemma : forall s art st colr lg glyphs cs n0 n1, fl_square [n0; n1] s -> 1 <= n0 <= 2 ^ 20 -> 1 <= n1 <= 2 ^ 20 -> n0 < n1 -> 1 <= cs <= 2 ^ 30 -> paints art s st colr lg -> rightwards glyphs ->
  ((n0 + 6) * cs + 5 < n1 * cs -> draw_2d FA f_int glyphs s art st None cs = Err IndexError) /\
  (n1 * cs <= (n0 + 6) * cs + 5 -> exists im, draw_2d FA f_int glyphs s art st None cs = Ok im /\
     forall b, 0 <= b < n0 -> inside (n0 * cs) ((n0 + 1) * cs) ((n0 - 1 - b) * cs) ((n0 - b) * cs) (n0 * cs) ((n0 - 1 - b) * cs) = true /\ im_px im (n0 * cs) ((n0 - 1 - b) * cs) = (255, 255, 255)).
Proof.
  intros s art st colr lg glyphs cs n0 n1 FS B0 B1 LE BC. exact (wide_gen FA f_int (fun a b i => fl_cell [n0; n1] s [a; b] i) s art st colr lg glyphs cs n0 n1 (screen_float s n0 n1 cs FS B0 B1 BC) LE (proj1 BC)).
Qed.
Lemma C102_label_lemma : forall s art st colr lg glyphs cs n0 n1 t, fl_square [n0; n1] s -> 1 <= n0 <= 2 ^ 20 -> 1 <= n1 <= 2 ^ 20 -> n1 <= n0 -> 1 <= cs <= 2 ^ 30 -> paints art s st colr lg -> rightwards glyphs ->
  exists im im', draw_2d FA f_int glyphs s art st None cs = Ok im /\ draw_2d FA f_int glyphs s art st (Some t) cs = Ok im' /\ im_w im' = im_w im /\ im_h im' = im_h im /\
    (forall x y, (forall c, ~ In (x, y, c) (glyphs (5, 5) t)) -> im_px im' x y = im_px im x y) /\
    (forall x y c, In (x, y, c) (glyphs (5, 5) t) -> (forall c', In (x, y, c') (glyphs (5, 5) t) -> c' = c) -> 0 <= x < im_w im -> 0 <= y < im_h im -> im_px im' x y = c).
Proof.
  intros s art st colr lg glyphs cs n0 n1 t FS B0 B1 LE BC. exact (label_gen FA f_int (fun a b i => fl_cell [n0; n1] s [a; b] i) s art st colr lg glyphs cs n0 n1 t (screen_float s n0 n1 cs FS B0 B1 BC) LE (proj1 BC)).
Qed.
Lemma C102_movie_lemma : forall s art colr lg init h T glyphs kw cs n0 n1 fs filename, fl_square [n0; n1] s -> 1 <= n0 <= 2 ^ 20 -> 1 <= n1 <= 2 ^ 20 -> n1 <= n0 ->
  cs = match kw_cell_size kw with Some c => c | None => 20 end -> 1 <= cs <= 2 ^ 30 -> 1 <= every kw -> visits init (added h) T ->
  (forall n, (n <= length (added h))%nat -> paints art s (T n) (colr n) (lg n)) -> rightwards glyphs ->
  (forall k, k * every kw <= Z.of_nat (length (added h)) -> filename <> temporary k) ->
  exists fs' frames, to_gif (artist_2d FA f_int glyphs s art) fs (fold_left apply_rop h (new_result init)) filename kw = (fs', Ok tt) /\
    dget filename fs' = Some (CFrames frames) /\
    Z.of_nat (length frames) = Z.of_nat (length (added h)) / every kw + 1 /\
    forall k im n, nth_error frames k = Some im -> Z.of_nat n = Z.of_nat k * every kw ->
      im_w im = (n0 + 6) * cs + 5 /\
      forall a b i x y, 0 <= a < n1 -> 0 <= b < n0 -> fl_cell [n0; n1] s [a; b] i ->
        inside (a * cs) ((a + 1) * cs) ((n0 - 1 - b) * cs) ((n0 - b) * cs) x y = true ->
        (forall c, ~ In (x, y, c) (glyphs (5, 5) ("Step " ++ str_of_Z (Z.of_nat n))%string)) -> im_px im x y = colr n i.
Proof.
  intros s art colr lg init h T glyphs kw cs n0 n1 fs filename FS B0 B1 LE Ecs BC. exact (movie_gen FA f_int (fun a b i => fl_cell [n0; n1] s [a; b] i) s art colr lg init h T glyphs kw cs n0 n1 fs filename (screen_float s n0 n1 cs FS B0 B1 BC) LE Ecs (proj1 BC)).
Qed.
Lemma C102_voxels_lemma : forall s art st colr n cube_root, fl_square [n; n; n] s -> 1 <= n <= 2 ^ 20 -> colours art s st colr -> cube_root (size st) = n ->
  exists ds, draw_3d f_int f_is cube_root s art st false = Ok (n, ds) /\
    (forall x y z i, 0 <= x < n -> 0 <= y < n -> 0 <= z < n -> fl_cell [n; n; n] s [x; y; z] i ->
       forall c, voxel ds c [x; y; z] <-> c = colr i) /\
    (forall c v, voxel ds c v -> exists x y z, v = [x; y; z] /\ 0 <= x < n /\ 0 <= y < n /\ 0 <= z < n).
Proof.
  intros s art st colr n cube_root FS B. exact (voxels_lemma f_int f_is (fun a b c i => fl_cell [n; n; n] s [a; b; c] i) s art st colr n cube_root (screen3_float s n n n FS B B B)).
Qed.
Lemma C102_shell_lemma : forall s art st colr n cube_root, fl_square [n; n; n] s -> 1 <= n <= 2 ^ 20 -> colours art s st colr -> cube_root (size st) = n ->
  exists ds, draw_3d f_int f_is cube_root s art st true = Ok (n, ds) /\
    (forall x y z i, 0 <= x < n -> 0 <= y < n -> 0 <= z < n -> fl_cell [n; n; n] s [x; y; z] i ->
       forall c, voxel ds c [x; y; z] <-> y = 0 /\ c = colr i).
Proof.
  intros s art st colr n cube_root FS B. exact (voxels_shell_lemma f_int f_is (fun a b c i => fl_cell [n; n; n] s [a; b; c] i) s art st colr n cube_root (screen3_float s n n n FS B B B)).
Qed.
Lemma C102_box_lemma : forall s art st colr n0 n1 n2 cube_root, fl_square [n0; n1; n2] s -> 1 <= n0 <= 2 ^ 20 -> 1 <= n1 <= 2 ^ 20 -> 1 <= n2 <= 2 ^ 20 -> colours art s st colr -> cube_root (size st) < n0 \/ cube_root (size st) < n1 \/ cube_root (size st) < n2 ->
  draw_3d f_int f_is cube_root s art st false = Err IndexError.
Proof.
  intros s art st colr n0 n1 n2 cube_root FS B0 B1 B2. apply (voxels_box_lemma f_int f_is (fun a b c i => fl_cell [n0; n1; n2] s [a; b; c] i) s art st colr n0 n1 n2 cube_root (screen3_float s n0 n1 n2 FS B0 B1 B2)). lia.
Qed.
Lemma C102_calls_lemma : forall s art st colr n cube_root shell, fl_square [n; n; n] s -> 1 <= n <= 2 ^ 20 -> colours art s st colr -> cube_root (size st) = n ->
  let hue := fun y i => if shell && negb (y =? 0) then Grey else Face (colr i) in
  exists calls, image_3d f_int f_is cube_root s art st shell = Ok calls /\ NoDup (map v_face calls) /\ hd_error (map v_face calls) = Some Grey /\
    (forall x y z i, 0 <= x < n -> 0 <= y < n -> 0 <= z < n -> fl_cell [n; n; n] s [x; y; z] i -> exists call, In call calls /\ v_face call = hue y i /\ In [x; y; z] (v_cells call)) /\
    (forall call v, In call calls -> In v (v_cells call) -> exists x y z i, v = [x; y; z] /\ 0 <= x < n /\ 0 <= y < n /\ 0 <= z < n /\ fl_cell [n; n; n] s [x; y; z] i /\ v_face call = hue y i).
Proof. intros s art st colr n cube_root shell FS B. exact (calls_lemma f_int f_is (fun a b c i => fl_cell [n; n; n] s [a; b; c] i) s art st colr n cube_root shell (screen3_float s n n n FS B B B)). Qed.

(** A state for a grid. *)
Lemma solid_fl dim sz s : fl_setup dim sz s -> exists st, discrete st /\ (forall i x, get_site s i = Some x -> In (KInt i) (site_ids st)) /\ present st (VStr "a").
Proof.
  intros H. destruct (setup_facts dim sz s H) as (Hk & FS & Lg & _ & L & HB). destruct (built_inv FA L s HB) as [h0 I0]. assert (BG : forall i x, get_site s i = Some x <-> In x (sites s None) /\ s_id x = i) by (intros; eapply inv_get_site; eauto). pose proof (C47_solid_lemma b64 FA L s "a"%string HB) as C.
  exists (setup_solid_phase s "a"%string). split; [eapply config_discrete; eauto|]. split.
  - intros i x Gx. rewrite (proj1 C). apply BG in Gx as [Hx <-]. apply in_map_iff. eauto.
  - destruct (torus_total (grid_size dim sz) s Hk FS (repeat 0 (length (grid_size dim sz))) (repeat_length _ _)) as (i & Ci).
    assert (I : In i (map s_id (sites s None))) by (apply (torus_ids (grid_size dim sz) s Hk FS); eexists; split; [apply repeat_length|exact Ci]). apply in_map_iff in I as (x & <- & Hx).
    assert (Gx : get_site s (s_id x) = Some x) by (apply BG; auto). exists (KInt (s_id x)). split; [rewrite (proj1 C); apply in_map_iff; eauto|].
    destruct (proj2 (proj2 C) (s_id x) x Gx) as (p & Ep & ->). unfold has_phase, site_entry. rewrite Ep. reflexivity.
Qed.
Lemma square_setup dim k : (dim = 2 \/ dim = 3)%nat -> length k = dim -> Forall (fun m => 1 <= m <= 2 ^ 20) k -> exists s, fl_setup dim (SzTuple k) s /\ fl_square k s.
Proof.
  intros HD HL HK. destruct (square_box k) as (s & L & FS & _); [lia|exact HK|]. exists s. split; [|exact FS]. split; [split; [exact HD|split; [exact HL|]]|split; [|exact FS]]; cbn [grid_size]; (eapply Forall_impl; [|exact HK]); simpl; intros; lia.
Qed.
