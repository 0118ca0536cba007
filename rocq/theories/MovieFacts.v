(** Animations and notebooks of 2D grids (C64, C101). *)
From Coq Require Import Reals Lra Permutation Sorted.
From Verif Require Import Prelude Dict Val Arith RealArith LatticeModel StructModel StateModel ResultModel JsonModel GridModel SetupModel AnalyzerModel VizModel
  SpecState SpecResult SpecGeom SpecNb SpecGrid SpecSetup SpecAnalyze SpecViz ResultFacts VizFacts DrawFacts GifFacts.
Local Open Scope Z_scope.

Lemma C101_save_lemma : forall I (get_img : sstate -> kwargs -> res I) fs state filename kw,
  (forall img, get_img state kw = Ok img -> exists fs', save_img get_img fs state filename kw = (fs', Ok filename) /\
     dget filename fs' = Some (CImage img) /\ (forall n, n <> filename -> dget n fs' = dget n fs) /\ jupyter_show get_img state kw = Ok [Display img]) /\
  (forall e, get_img state kw = Err e -> save_img get_img fs state filename kw = (fs, Err e) /\ jupyter_show get_img state kw = Err e).
Proof.
  intros. unfold save_img, jupyter_show. split.
  - intros img ->. eexists. split; [reflexivity|]. split; [rewrite dget_dset, eqb_refl; reflexivity|]. split; [|reflexivity]. intros n N. rewrite dget_dset, eqb_neq; auto.
  - intros e ->. split; reflexivity.
Qed.

Lemma C101_step_lemma : forall I (get_img : sstate -> kwargs -> res I) init h n cell_size,
  let r := fold_left apply_rop h (new_result init) in
  (rlen r <= n -> exists e, jupyter_show_step get_img r n cell_size = Err e) /\
  (n < 0 -> jupyter_show_step get_img r n cell_size = jupyter_show get_img init (mkKw (Some ("Step " ++ str_of_Z n)%string) (Some cell_size) None)).
Proof.
  intros I get_img init h n cell_size r. unfold jupyter_show_step. split; intros H.
  - destruct (C08_lemma init h n H) as (e & E). fold r in E. rewrite E. exists e. reflexivity.
  - pose proof (C08_neg_lemma init h n H) as E. fold r in E. rewrite E. reflexivity.
Qed.

(** What the picture of a step shows, apart from the pixels of its label. *)
Lemma movie_gen : forall {F} (A : arith F) trunc P s art colr lg init h T glyphs kw cs n0 n1 fs filename, screen A trunc s n0 n1 cs P -> n1 <= n0 ->
  cs = match kw_cell_size kw with Some c => c | None => 20 end -> 1 <= cs -> 1 <= every kw -> visits init (added h) T ->
  (forall n, (n <= length (added h))%nat -> paints art s (T n) (colr n) (lg n)) -> rightwards glyphs ->
  (forall k, k * every kw <= Z.of_nat (length (added h)) -> filename <> temporary k) ->
  exists fs' frames, to_gif (artist_2d A trunc glyphs s art) fs (fold_left apply_rop h (new_result init)) filename kw = (fs', Ok tt) /\
    dget filename fs' = Some (CFrames frames) /\
    Z.of_nat (length frames) = Z.of_nat (length (added h)) / every kw + 1 /\
    forall k im n, nth_error frames k = Some im -> Z.of_nat n = Z.of_nat k * every kw ->
      im_w im = (n0 + 6) * cs + 5 /\
      forall a b i x y, 0 <= a < n1 -> 0 <= b < n0 -> P a b i ->
        inside (a * cs) ((a + 1) * cs) ((n0 - 1 - b) * cs) ((n0 - b) * cs) x y = true ->
        (forall c, ~ In (x, y, c) (glyphs (5, 5) ("Step " ++ str_of_Z (Z.of_nat n))%string)) -> im_px im x y = colr n i.
Proof.
  intros F A trunc P s art colr lg init h T glyphs kw cs n0 n1 fs filename SG LE Ecs Hcs HF PS PA RG NF.
  set (frame := fun n => match artist_2d A trunc glyphs s art (T n) (titled kw n) with Ok im => im | Err _ => mkImage 0 0 (fun _ _ => (0, 0, 0)) end).
  assert (FR : forall n, (n <= length (added h))%nat -> artist_2d A trunc glyphs s art (T n) (titled kw n) = Ok (frame n) /\
    im_w (frame n) = (n0 + 6) * cs + 5 /\
    forall a b i x y, 0 <= a < n1 -> 0 <= b < n0 -> P a b i ->
        inside (a * cs) ((a + 1) * cs) ((n0 - 1 - b) * cs) ((n0 - b) * cs) x y = true ->
        (forall c, ~ In (x, y, c) (glyphs (5, 5) ("Step " ++ str_of_Z (Z.of_nat n))%string)) -> im_px (frame n) x y = colr n i).
  { intros n Hn. specialize (PA n Hn).
    destruct (label_gen A trunc P s art (T n) (colr n) (lg n) glyphs cs n0 n1 ("Step " ++ str_of_Z (Z.of_nat n))%string SG LE Hcs PA RG) as (im & im' & E & E' & W & _ & PX & _).
    destruct (art_gen A trunc P s art (T n) (colr n) (lg n) glyphs cs n0 n1 SG LE Hcs PA RG) as (im0 & order & E0 & _ & _ & W0 & _ & PX0 & _).
    rewrite E in E0. injection E0 as <-. unfold frame, artist_2d, titled. cbn [kw_label kw_cell_size]. rewrite <- Ecs, E'. split; [reflexivity|]. split; [now rewrite W|].
    intros a b i x y Ha Hb C IN NG. rewrite PX by auto. now apply (PX0 a b i x y). }
  destruct (C64_lemma _ (artist_2d A trunc glyphs s art) init h T frame kw (every kw) fs filename PS eq_refl HF) as (fs' & frames & E & G & NT & _); auto.
  { intros n Hn. apply FR; auto. }
  exists fs', frames. split; [exact E|]. split; [exact G|]. set (f := every kw) in *. set (len := length (added h)) in *.
  assert (LT : forall k, (k < length frames)%nat <-> Z.of_nat k * f <= Z.of_nat len).
  { intros k. rewrite <- nth_error_Some, NT. destruct (Z.leb_spec (Z.of_nat k * f) (Z.of_nat len)); split; intros; try lia; congruence. }
  split.
  - set (q := Z.of_nat len / f). assert (Q : q * f <= Z.of_nat len < (q + 1) * f) by (unfold q; pose proof (Z.div_mod (Z.of_nat len) f); pose proof (Z.mod_pos_bound (Z.of_nat len) f); nia).
    assert (Q0 : 0 <= q) by (unfold q; apply Z.div_pos; lia). pose proof (LT (Z.to_nat q)) as [_ L1]. specialize (L1 ltac:(nia)). pose proof (LT (Z.to_nat (q + 1))) as [L2 _]. destruct (le_lt_dec (length frames) (Z.to_nat (q + 1))) as [G1|G1]; [lia|]. specialize (L2 G1). nia.
  - intros k im n Ek En. rewrite NT in Ek. destruct (Z.leb_spec (Z.of_nat k * f) (Z.of_nat len)); [|discriminate]. injection Ek as <-. replace (k * Z.to_nat f)%nat with n by nia. apply FR. lia.
Qed.

Lemma C64_movie_lemma : forall s art colr lg init h T glyphs kw cs n0 n1 fs filename, square_grid [n0; n1] s -> n1 <= n0 ->
  cs = match kw_cell_size kw with Some c => c | None => 20 end -> 1 <= cs -> 1 <= every kw -> visits init (added h) T ->
  (forall n, (n <= length (added h))%nat -> paints art s (T n) (colr n) (lg n)) -> rightwards glyphs ->
  (forall k, k * every kw <= Z.of_nat (length (added h)) -> filename <> temporary k) ->
  exists fs' frames, to_gif (artist_2d RA real_int glyphs s art) fs (fold_left apply_rop h (new_result init)) filename kw = (fs', Ok tt) /\
    dget filename fs' = Some (CFrames frames) /\
    Z.of_nat (length frames) = Z.of_nat (length (added h)) / every kw + 1 /\
    forall k im n, nth_error frames k = Some im -> Z.of_nat n = Z.of_nat k * every kw ->
      im_w im = (n0 + 6) * cs + 5 /\
      forall a b i x y, 0 <= a < n1 -> 0 <= b < n0 -> cell s [a; b] i ->
        inside (a * cs) ((a + 1) * cs) ((n0 - 1 - b) * cs) ((n0 - b) * cs) x y = true ->
        (forall c, ~ In (x, y, c) (glyphs (5, 5) ("Step " ++ str_of_Z (Z.of_nat n))%string)) -> im_px im x y = colr n i.
Proof. intros s art colr lg init h T glyphs kw cs n0 n1 fs filename SG. exact (movie_gen RA real_int (fun a b i => cell s [a; b] i) s art colr lg init h T glyphs kw cs n0 n1 fs filename (screen_real s n0 n1 cs SG)). Qed.
