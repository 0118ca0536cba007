(** Properties C62-C64, C71, C76, C78, C101 and C104: colours, legends, drawings and animations. *)
From Coq Require Import Reals Lra Permutation Sorted Ascii.
From Verif Require Import Prelude Dict Val Arith RealArith LatticeModel StructModel StateModel ResultModel JsonModel GridModel SetupModel AnalyzerModel VizModel SpecState SpecResult SpecGeom SpecNb SpecGrid SpecSetup SpecAnalyze SpecViz AnalyzerDemo VizDemo VizFacts DrawFacts VoxFacts VizBeyond GifFacts MovieFacts ArtFacts.
Local Open Scope Z_scope.

(** C62, part: every listed phase gets a colour, never black; up to 22 phases get distinct colours. Missing: distinct colours for more phases (below). *)
Theorem C62_colours_partial : forall phases sk lg, NoDup phases -> forallb hashable phases = true ->
  exists cm ca, build_color_map phases = Ok cm /\ from_phase_list phases sk lg = Ok ca /\ dkeys cm = phases /\
    (forall p c, hashable p = true -> dget p cm = Some c -> c <> (0, 0, 0)) /\
    (forall d p, dget (match sk with Some k => k | None => KStr "DISCRETE_OCCUPANCY" end) d = Some p -> hashable p = true -> get_color ca (Some d) = Ok (shade cm p)) /\
    ((length phases <= 22)%nat -> forall p q c, hashable p = true -> hashable q = true -> dget p cm = Some c -> dget q cm = Some c -> p = q).
Proof. exact C62_lemma. Qed.
Print Assumptions C62_colours_partial.
Example C62_example : build_color_map [VStr "a"; VInt 7] = Ok [(VStr "a", (32, 178, 170)); (VInt 7, (0, 255, 127))].
Proof. reflexivity. Qed.

(** C62 is false: among more than 22 phases two share a colour. *)
Theorem C62_colours_refuted : forall phases cm, NoDup phases -> forallb hashable phases = true -> (22 < length phases)%nat -> build_color_map phases = Ok cm ->
  exists p q c, p <> q /\ In p phases /\ In q phases /\ dget p cm = Some c /\ dget q cm = Some c.
Proof. exact C62_refuted_lemma. Qed.
Print Assumptions C62_colours_refuted.
Example C62_refuted_example : NoDup (map VInt (zrange 0 23)) /\ forallb hashable (map VInt (zrange 0 23)) = true.
Proof. split; [|reflexivity]. repeat (constructor; [simpl; intuition discriminate|]). constructor. Qed.

(** C62. The other colour map, color_map of helpers.py: the same up to 70 phases, IndexError beyond. *)
Theorem C62_helper : forall phases, NoDup phases -> forallb hashable phases = true -> color_map phases = if (length phases <=? 70)%nat then build_color_map phases else Err IndexError.
Proof. exact C62_helper_lemma. Qed.
Print Assumptions C62_helper.
Example C62_helper_example : color_map [VStr "a"; VStr "b"] = build_color_map [VStr "a"; VStr "b"].
Proof. reflexivity. Qed.

(** C62. Unless the artist is given a legend, it lists the label of each value of the state once, with a colour of that label. *)
Theorem C62_legend : forall st str_ ca cm, valued (ca_state_key ca) st -> colours_by ca cm ->
  exists lg, get_legend str_ ca st = Ok lg /\ NoDup (dkeys lg) /\ (forall l, In l (dkeys lg) <-> exists v, held (ca_state_key ca) st v /\ str_ v = l) /\
    (forall l c, dget l lg = Some c -> exists v, held (ca_state_key ca) st v /\ str_ v = l /\ c = shade cm v).
Proof. exact C62_legend_lemma. Qed.
Print Assumptions C62_legend.
Example C62_legend_example : valued (ca_state_key demo_artist) (duo "a" "b") /\ colours_by demo_artist [(VStr "a", (32, 178, 170))] /\ get_legend demo_str demo_artist (duo "a" "b") = Ok [("a"%string, (32, 178, 170)); ("b"%string, (0, 0, 0))].
Proof. split; [apply duo_discrete|]. split; [apply demo_ok|reflexivity]. Qed.

(** C63. The picture of a 2D grid at most as wide as high: cells, background, border and swatches. *)
Theorem C63_drawing : forall s ca cm st str_ glyphs cs n0 n1, square_grid [n0; n1] s -> n1 <= n0 -> 1 <= cs -> valued (ca_state_key ca) st -> colours_by ca cm ->
  (forall i x, get_site s i = Some x -> In (KInt i) (site_ids st)) -> rightwards glyphs ->
  exists im order, draw_2d RA real_int glyphs s (as_artist str_ ca) st None cs = Ok im /\
    NoDup order /\ Sorted (fun a b => String.leb a b = true) order /\ (forall l, In l order <-> exists v, held (ca_state_key ca) st v /\ str_ v = l) /\
    im_w im = (n0 + 6) * cs + 5 /\ im_h im = Z.max n0 (Z.of_nat (length order) + 1) * cs /\
    (forall a b i v x y, 0 <= a < n1 -> 0 <= b < n0 -> cell s [a; b] i -> site_entry st (KInt i) (ca_state_key ca) = Some v ->
       inside (a * cs) ((a + 1) * cs) ((n0 - 1 - b) * cs) ((n0 - b) * cs) x y = true -> im_px im x y = shade cm v) /\
    (forall x y, 0 <= x < n0 * cs -> 0 <= y < im_h im -> n1 * cs <= x \/ n0 * cs <= y -> im_px im x y = (0, 0, 0)) /\
    (forall x y, n0 * cs <= x < n0 * cs + 5 -> 0 <= y < im_h im -> im_px im x y = (255, 255, 255)) /\
    (forall k l, nth_error order k = Some l -> exists v, held (ca_state_key ca) st v /\ str_ v = l /\
       forall x y, inside (n0 * cs + 5 + cs / 4) (n0 * cs + 5 + cs / 4 + cs) (Z.of_nat k * cs + cs / 4) (Z.of_nat k * cs + cs / 4 + cs) x y = true -> im_px im x y = shade cm v).
Proof. exact C63_lemma. Qed.
Print Assumptions C63_drawing.
Example C63_example : exists s st, square_grid [2; 2] s /\ valued (ca_state_key demo_artist) st /\ (forall i x, get_site s i = Some x -> In (KInt i) (site_ids st)) /\ present st (VStr "a") /\
  colours_by demo_artist [(VStr "a", (32, 178, 170))] /\ rightwards demo_glyphs.
Proof.
  destruct (solid_demo 2 (SzInt 2)) as (s & st & H1 & H2 & H3 & H4); [split; [auto|split; [reflexivity|repeat constructor; lia]]|]. exists s, st. split; [exact H1|]. pose proof demo_ok. auto.
Qed.

(** C63. A label changes only the pixels of its text; these lie over the cells. *)
Theorem C63_label : forall s art st colr lg glyphs cs n0 n1 t, square_grid [n0; n1] s -> n1 <= n0 -> 1 <= cs -> paints art s st colr lg -> rightwards glyphs ->
  exists im im', draw_2d RA real_int glyphs s art st None cs = Ok im /\ draw_2d RA real_int glyphs s art st (Some t) cs = Ok im' /\ im_w im' = im_w im /\ im_h im' = im_h im /\
    (forall x y, (forall c, ~ In (x, y, c) (glyphs (5, 5) t)) -> im_px im' x y = im_px im x y) /\
    (forall x y c, In (x, y, c) (glyphs (5, 5) t) -> (forall c', In (x, y, c') (glyphs (5, 5) t) -> c' = c) -> 0 <= x < im_w im -> 0 <= y < im_h im -> im_px im' x y = c).
Proof. exact C63_label_lemma. Qed.
Print Assumptions C63_label.
Example C63_label_example : In (5, 5, (255, 255, 255)) (demo_glyphs (5, 5) "Step 1") /\ inside 0 20 0 20 5 5 = true.
Proof. split; [left|]; reflexivity. Qed.

(** Grids that are wider than high are not drawn correctly: IndexError, or the border over the cells of column n0. *)
Theorem C63_wide : forall s art st colr lg glyphs cs n0 n1, square_grid [n0; n1] s -> n0 < n1 -> 1 <= cs -> paints art s st colr lg -> rightwards glyphs ->
  ((n0 + 6) * cs + 5 < n1 * cs -> draw_2d RA real_int glyphs s art st None cs = Err IndexError) /\
  (n1 * cs <= (n0 + 6) * cs + 5 -> exists im, draw_2d RA real_int glyphs s art st None cs = Ok im /\
     forall b, 0 <= b < n0 -> inside (n0 * cs) ((n0 + 1) * cs) ((n0 - 1 - b) * cs) ((n0 - b) * cs) (n0 * cs) ((n0 - 1 - b) * cs) = true /\ im_px im (n0 * cs) ((n0 - 1 - b) * cs) = (255, 255, 255)).
Proof. exact C63_wide_lemma. Qed.
Print Assumptions C63_wide.
Example C63_wide_example : exists s st, square_grid [2; 20] s /\ discrete st /\ (2 + 6) * 20 + 5 < 20 * 20.
Proof.
  destruct (solid_demo 2 (SzTuple [2; 20])) as (s & st & H1 & H2 & _); [split; [auto|split; [reflexivity|repeat constructor; lia]]|]. exists s, st. split; [exact H1|]. split; [exact H2|lia].
Qed.

(** C104. The picture of any artist: cells in the colours it gives them, swatches in the colours of its legend. *)
Theorem C104_drawing : forall s art st colr lg glyphs cs n0 n1, square_grid [n0; n1] s -> n1 <= n0 -> 1 <= cs -> paints art s st colr lg -> rightwards glyphs ->
  exists im order, draw_2d RA real_int glyphs s art st None cs = Ok im /\
    Permutation order (dkeys lg) /\ Sorted (fun a b => String.leb a b = true) order /\
    im_w im = (n0 + 6) * cs + 5 /\ im_h im = Z.max n0 (Z.of_nat (length lg) + 1) * cs /\
    (forall a b i x y, 0 <= a < n1 -> 0 <= b < n0 -> cell s [a; b] i ->
       inside (a * cs) ((a + 1) * cs) ((n0 - 1 - b) * cs) ((n0 - b) * cs) x y = true -> im_px im x y = colr i) /\
    (forall x y, 0 <= x < n0 * cs -> 0 <= y < im_h im -> n1 * cs <= x \/ n0 * cs <= y -> im_px im x y = (0, 0, 0)) /\
    (forall x y, n0 * cs <= x < n0 * cs + 5 -> 0 <= y < im_h im -> im_px im x y = (255, 255, 255)) /\
    (forall k l c x y, nth_error order k = Some l -> dget l lg = Some c ->
       inside (n0 * cs + 5 + cs / 4) (n0 * cs + 5 + cs / 4 + cs) (Z.of_nat k * cs + cs / 4) (Z.of_nat k * cs + cs / 4 + cs) x y = true -> im_px im x y = c).
Proof. exact C104_lemma. Qed.
Print Assumptions C104_drawing.
Example C104_example : exists s st colr, square_grid [2; 2] s /\ paints (as_artist demo_str value_artist) s st colr [("seven"%string, (9, 8, 7)); ("none"%string, (1, 1, 1))] /\ exists i x, get_site s i = Some x /\ colr i = (9, 8, 7).
Proof. exact value_demo. Qed.

(** C104. A DiscreteCellArtist colours any hashable values under its state_key; a legend given to it is used as it is. *)
Theorem C104_discrete : forall F (s : structure F) str_ ca cm st, valued (ca_state_key ca) st -> ca_color_map ca = Some cm ->
  (forall i x, get_site s i = Some x -> In (KInt i) (site_ids st)) ->
  exists colr, colours (as_artist str_ ca) s st colr /\ (forall i v, site_entry st (KInt i) (ca_state_key ca) = Some v -> colr i = shade cm v) /\
    forall lg, ca_legend ca = Some lg -> NoDup (dkeys lg) -> paints (as_artist str_ ca) s st colr lg.
Proof. exact C104_discrete_lemma. Qed.
Print Assumptions C104_discrete.
Example C104_discrete_example : exists st, valued (ca_state_key value_artist) st /\ held (KStr "value") st (VInt 7) /\ ca_color_map value_artist = Some [(VInt 7, (9, 8, 7))].
Proof. exact value_state_demo. Qed.

(** C104. The legend an artist inherits: each label once, in the colour of the first site that has it. *)
Theorem C104_inherited_legend : forall st color label (colr : key -> colour) (lab : key -> string), ided st ->
  (forall k, In k (site_ids st) -> color (get_site_state st k) = Ok (colr k) /\ exists d, get_site_state st k = Some d /\ label d = Ok (lab k)) ->
  exists lg, art_legend (plain_artist color label) st = Ok lg /\ NoDup (dkeys lg) /\ (forall l, In l (dkeys lg) <-> exists k, In k (site_ids st) /\ lab k = l) /\
    (forall l c, dget l lg = Some c -> exists pre k post, site_ids st = pre ++ k :: post /\ lab k = l /\ (forall k', In k' pre -> lab k' <> l) /\ c = colr k).
Proof. exact C104_legend_lemma. Qed.
Print Assumptions C104_inherited_legend.
Example C104_legend_example : art_legend (plain_artist (fun o => Ok (match o with Some d => if dmem (KStr "q") d then (1, 2, 3) else (4, 5, 6) | None => (0, 0, 0) end)) (fun d => Ok "cell"%string)) (duo "a" "b") = Ok [("cell"%string, (4, 5, 6))].
Proof. reflexivity. Qed.

(** C71, part: without shell_only every voxel is drawn in its colour and no other. Missing: shell_only (below). *)
Theorem C71_voxels_partial : forall s art st colr n cube_root, square_grid [n; n; n] s -> colours art s st colr -> cube_root (size st) = n ->
  exists ds, draw_3d real_int real_eq cube_root s art st false = Ok (n, ds) /\
    (forall x y z i, 0 <= x < n -> 0 <= y < n -> 0 <= z < n -> cell s [x; y; z] i ->
       forall c, voxel ds c [x; y; z] <-> c = colr i) /\
    (forall c v, voxel ds c v -> exists x y z, v = [x; y; z] /\ 0 <= x < n /\ 0 <= y < n /\ 0 <= z < n).
Proof. exact C71_lemma. Qed.
Print Assumptions C71_voxels_partial.
Example C71_example : exists s st, square_grid [2; 2; 2] s /\ discrete st /\ (forall i x, get_site s i = Some x -> In (KInt i) (site_ids st)) /\ present st (VStr "a").
Proof.
  destruct (solid_demo 3 (SzInt 2)) as (s & st & H); [split; [auto|split; [reflexivity|repeat constructor; lia]]|]. exists s, st. exact H.
Qed.

(** C71 is false: with shell_only only the voxels with y = 0 are drawn, not those of the two other faces. *)
Theorem C71_shell_refuted : forall s art st colr n cube_root, square_grid [n; n; n] s -> colours art s st colr -> cube_root (size st) = n ->
  exists ds, draw_3d real_int real_eq cube_root s art st true = Ok (n, ds) /\
    (forall x y z i, 0 <= x < n -> 0 <= y < n -> 0 <= z < n -> cell s [x; y; z] i ->
       forall c, voxel ds c [x; y; z] <-> y = 0 /\ c = colr i).
Proof. exact C71_shell_lemma. Qed.
Print Assumptions C71_shell_refuted.

(** C71. What matplotlib is asked to draw, with and without shell_only: the calls divide up the cube, the cells that are not shown are grey. *)
Theorem C71_calls : forall s art st colr n cube_root shell, square_grid [n; n; n] s -> colours art s st colr -> cube_root (size st) = n ->
  let hue := fun y i => if shell && negb (y =? 0) then Grey else Face (colr i) in
  exists calls, image_3d real_int real_eq cube_root s art st shell = Ok calls /\ NoDup (map v_face calls) /\ hd_error (map v_face calls) = Some Grey /\
    (forall x y z i, 0 <= x < n -> 0 <= y < n -> 0 <= z < n -> cell s [x; y; z] i -> exists call, In call calls /\ v_face call = hue y i /\ In [x; y; z] (v_cells call)) /\
    (forall call v, In call calls -> In v (v_cells call) -> exists x y z i, v = [x; y; z] /\ 0 <= x < n /\ 0 <= y < n /\ 0 <= z < n /\ cell s [x; y; z] i /\ v_face call = hue y i).
Proof. exact C71_calls_lemma. Qed.
Print Assumptions C71_calls.
Example C71_calls_example : exists s st colr, square_grid [2; 2; 2] s /\ colours (as_artist demo_str demo_artist) s st colr /\ present st (VStr "a") /\ forall i, site_entry st (KInt i) (KStr "DISCRETE_OCCUPANCY") = Some (VStr "a") -> colr i = (32, 178, 170).
Proof.
  destruct (solid_demo 3 (SzInt 2)) as (s & st & H1 & H2 & H3 & H4); [split; [auto|split; [reflexivity|repeat constructor; lia]]|].
  destruct (C104_discrete_lemma R s demo_str demo_artist _ st H2 eq_refl H3) as (colr & HC & HV & _). exists s, st, colr. split; [exact H1|]. split; [exact HC|].
  split; [exact H4|]. intros i Hi. rewrite (HV i (VStr "a") Hi). reflexivity.
Qed.

(** C71. Boxes whose sides fit into the cube drawn. *)
Theorem C71_fitting : forall s art st colr n0 n1 n2 cube_root shell, square_grid [n0; n1; n2] s -> colours art s st colr ->
  n0 <= cube_root (size st) -> n1 <= cube_root (size st) -> n2 <= cube_root (size st) ->
  exists ds, draw_3d real_int real_eq cube_root s art st shell = Ok (cube_root (size st), ds) /\
    forall c v, voxel ds c v <-> exists x y z i, v = [x; y; z] /\ 0 <= x < n1 /\ 0 <= y < n0 /\ 0 <= z < n2 /\ cell s v i /\ c = colr i /\ (shell = true -> y = 0).
Proof. exact C71_fitting_lemma. Qed.
Print Assumptions C71_fitting.
Example C71_fitting_example : exists s st, square_grid [3; 3; 2] s /\ discrete st /\ 2 * 2 * 2 < 3 * 3 * 2 < 3 * 3 * 3.
Proof.
  destruct (solid_demo 3 (SzTuple [3; 3; 2])) as (s & st & H1 & H2 & _); [split; [auto|split; [reflexivity|repeat constructor; lia]]|]. exists s, st. split; [exact H1|]. split; [exact H2|lia].
Qed.

(** C71. Boxes with a side longer than the rounded cube root of the number of sites raise IndexError. *)
Theorem C71_box : forall s art st colr n0 n1 n2 cube_root, square_grid [n0; n1; n2] s -> colours art s st colr -> cube_root (size st) < n0 \/ cube_root (size st) < n1 \/ cube_root (size st) < n2 ->
  draw_3d real_int real_eq cube_root s art st false = Err IndexError.
Proof. exact C71_box_lemma. Qed.
Print Assumptions C71_box.
Example C71_box_example : exists s st, square_grid [1; 1; 8] s /\ discrete st /\ 2 < 8.
Proof.
  destruct (solid_demo 3 (SzTuple [1; 1; 8])) as (s & st & H1 & H2 & _); [split; [auto|split; [reflexivity|repeat constructor; lia]]|]. exists s, st. split; [exact H1|]. split; [exact H2|lia].
Qed.

(** C64, part: the frames are every f-th step from step 0 on, the temporary files are gone and all files with other names are unchanged. Missing: files that already have the name of a temporary file (below). *)
Theorem C64_gif_partial : forall I (get_img : sstate -> kwargs -> res I) init h T frame kw f fs filename,
  visits init (added h) T -> every kw = f -> 1 <= f ->
  (forall n, (n <= length (added h))%nat -> get_img (T n) (titled kw n) = Ok (frame n)) ->
  (forall k, k * f <= Z.of_nat (length (added h)) -> filename <> temporary k) ->
  exists fs' frames, to_gif get_img fs (fold_left apply_rop h (new_result init)) filename kw = (fs', Ok tt) /\
    dget filename fs' = Some (CFrames frames) /\
    (forall k, nth_error frames k = if Z.of_nat k * f <=? Z.of_nat (length (added h)) then Some (frame (k * Z.to_nat f)%nat) else None) /\
    (forall k, (k < length frames)%nat -> dget (temporary (Z.of_nat k)) fs' = None) /\
    (forall n, n <> filename -> (forall k, (k < length frames)%nat -> n <> temporary (Z.of_nat k)) -> dget n fs' = dget n fs).
Proof. exact C64_lemma. Qed.
Print Assumptions C64_gif_partial.
Example C64_example : visits (duo "a" "b") (added [RAdd (paint 1 "c")]) duo_T /\ every (mkKw None None (Some 2)) = 2 /\ (forall k, "out.gif"%string <> temporary k).
Proof. split; [intros n Hn; now apply duo_course|]. split; [reflexivity|]. intros k. discriminate. Qed.

(** C64, 2D grids: frame k of the animation shows the colours of step k * f, apart from the pixels of its label. *)
Theorem C64_movie : forall s art colr lg init h T glyphs kw cs n0 n1 fs filename, square_grid [n0; n1] s -> n1 <= n0 ->
  cs = match kw_cell_size kw with Some c => c | None => 20 end -> 1 <= cs -> 1 <= every kw -> visits init (added h) T ->
  (forall n, (n <= length (added h))%nat -> paints art s (T n) (colr n) (lg n)) -> rightwards glyphs ->
  (forall k, k * every kw <= Z.of_nat (length (added h)) -> filename <> temporary k) ->
  exists fs' frames, to_gif (artist_2d RA real_int glyphs s art) fs (fold_left apply_rop h (new_result init)) filename kw = (fs', Ok tt) /\
    dget filename fs' = Some (CFrames frames) /\
    Z.of_nat (length frames) = Z.of_nat (length (added h)) / every kw + 1 /\
    forall k im n, nth_error frames k = Some im -> Z.of_nat n = Z.of_nat k * every kw ->
      im_w im = (n0 + 6) * cs + 5 /\
      forall a b i x y, 0 <= a < n1 -> 0 <= b < n0 -> cell s [a; b] i ->
        inside (a * cs) ((a + 1) * cs) ((n0 - 1 - b) * cs) ((n0 - b) * cs) x y = true ->
        (forall c, ~ In (x, y, c) (glyphs (5, 5) ("Step " ++ str_of_Z (Z.of_nat n))%string)) -> im_px im x y = colr n i.
Proof. exact C64_movie_lemma. Qed.
Print Assumptions C64_movie.
Example C64_movie_example : 1 <= every (mkKw None None None) /\ titled (mkKw None (Some 10) (Some 3)) 6 = mkKw (Some "Step 6"%string) (Some 10) (Some 3) /\ temporary 12 = "tmp_pylat_step_12.png"%string.
Proof. repeat split. cbn. lia. Qed.

(** C64 is false: a file with the name of the first temporary file is destroyed. *)
Theorem C64_gif_refuted : forall I (get_img : sstate -> kwargs -> res I) init h T frame kw f fs filename c,
  visits init (added h) T -> every kw = f -> 1 <= f ->
  (forall n, (n <= length (added h))%nat -> get_img (T n) (titled kw n) = Ok (frame n)) ->
  (forall k, k * f <= Z.of_nat (length (added h)) -> filename <> temporary k) ->
  dget (temporary 0) fs = Some c ->
  exists fs', to_gif get_img fs (fold_left apply_rop h (new_result init)) filename kw = (fs', Ok tt) /\ dget (temporary 0) fs' = None.
Proof. exact C64_refuted_lemma. Qed.
Print Assumptions C64_gif_refuted.
Example C64_refuted_example : fst (to_gif (I := Z) (fun _ _ => Ok 7) [(temporary 0, COther 1); ("x"%string, COther 2)] (new_result (duo "a" "b")) "out.gif" (mkKw None None None))
  = [("x"%string, COther 2); ("out.gif"%string, CFrames [7])].
Proof. reflexivity. Qed.

(** C64. Frequencies below 1 raise and change no file. *)
Theorem C64_bad_frequency : forall I (get_img : sstate -> kwargs -> res I) r fs filename kw, every kw <= 0 ->
  to_gif get_img fs r filename kw = (fs, Err (if every kw =? 0 then ValueError else IndexError)).
Proof. exact C64_freq_lemma. Qed.
Print Assumptions C64_bad_frequency.
Example C64_bad_example : let get_img := fun (_ : sstate) (_ : kwargs) => Ok 5 in
  to_gif get_img [] (new_result (duo "a" "b")) "out.gif" (mkKw None None (Some 0)) = ([], Err ValueError) /\
  to_gif get_img [] (new_result (duo "a" "b")) "out.gif" (mkKw None None (Some (-3))) = ([], Err IndexError).
Proof. split; reflexivity. Qed.

(** C64. If a step cannot be drawn its exception is raised and no file is touched. *)
Theorem C64_failure : forall I (get_img : sstate -> kwargs -> res I) init h T kw n e fs filename,
  visits init (added h) T -> 1 <= every kw -> (n <= length (added h))%nat -> Z.of_nat n mod every kw = 0 ->
  (forall m, (m < n)%nat -> exists i, get_img (T m) (titled kw m) = Ok i) -> get_img (T n) (titled kw n) = Err e ->
  to_gif get_img fs (fold_left apply_rop h (new_result init)) filename kw = (fs, Err e).
Proof. exact C64_fail_lemma. Qed.
Print Assumptions C64_failure.
Example C64_failure_example : to_gif (I := Z) (fun _ kw => match kw_label kw with Some l => if eqb l "Step 0"%string then Ok 7 else Err KeyError | None => Err TypeError end) [("x"%string, COther 2)] (fold_left apply_rop [RAdd (paint 1 "c")] (new_result (duo "a" "b"))) "out.gif" (mkKw None None None)
  = ([("x"%string, COther 2)], Err KeyError).
Proof. reflexivity. Qed.

(** C101. jupyter_play shows every step once, in order and labelled, as jupyter_show_step does. *)
Theorem C101_play : forall I (get_img : sstate -> kwargs -> res I) init h T frame cell_size wait, visits init (added h) T ->
  (forall n, (n <= length (added h))%nat -> get_img (T n) (titled (mkKw None (Some cell_size) None) n) = Ok (frame n)) ->
  jupyter_play get_img (fold_left apply_rop h (new_result init)) cell_size wait
    = Ok (concat (map (fun n => [Clear; Display (frame n); Sleep wait]) (seq 0 (Datatypes.S (length (added h)))))) /\
  (forall n, (n <= length (added h))%nat -> jupyter_show_step get_img (fold_left apply_rop h (new_result init)) (Z.of_nat n) cell_size = Ok [Display (frame n)]).
Proof. exact C101_play_lemma. Qed.
Print Assumptions C101_play.
Example C101_play_example : jupyter_play (I := option string) (fun _ kw => Ok (kw_label kw)) (fold_left apply_rop [RAdd (paint 1 "c")] (new_result (duo "a" "b"))) 20 1
  = Ok [Clear; Display (Some "Step 0"%string); Sleep 1; Clear; Display (Some "Step 1"%string); Sleep 1].
Proof. reflexivity. Qed.

(** C101. Steps at or beyond the length raise; negative ones show the initial state. *)
Theorem C101_other_steps : forall I (get_img : sstate -> kwargs -> res I) init h n cell_size,
  let r := fold_left apply_rop h (new_result init) in
  (rlen r <= n -> exists e, jupyter_show_step get_img r n cell_size = Err e) /\
  (n < 0 -> jupyter_show_step get_img r n cell_size = jupyter_show get_img init (mkKw (Some ("Step " ++ str_of_Z n)%string) (Some cell_size) None)).
Proof. exact C101_step_lemma. Qed.
Print Assumptions C101_other_steps.
Example C101_step_example : jupyter_show_step (I := option string) (fun _ kw => Ok (kw_label kw)) (new_result (duo "a" "b")) (-1) 20 = Ok [Display (Some "Step -1"%string)].
Proof. reflexivity. Qed.

(** C101. Which exception: IndexError, or the one with which the recorded updates fail. *)
Theorem C101_beyond : forall I (get_img : sstate -> kwargs -> res I) init h n cell_size,
  let r := fold_left apply_rop h (new_result init) in
  rlen r <= n -> jupyter_show_step get_img r n cell_size = Err (match replay init (added h) (length (added h)) with Ok _ => IndexError | Err e => e end).
Proof. exact C101_beyond_lemma. Qed.
Print Assumptions C101_beyond.
Example C101_beyond_example : jupyter_show_step (I := option string) (fun _ kw => Ok (kw_label kw)) (fold_left apply_rop [RAdd (paint 1 "c")] (new_result (duo "a" "b"))) 2 20 = Err IndexError.
Proof. reflexivity. Qed.

(** C101. save_img writes the picture that jupyter_show shows, and nothing if it cannot be drawn. *)
Theorem C101_save : forall I (get_img : sstate -> kwargs -> res I) fs state filename kw,
  (forall img, get_img state kw = Ok img -> exists fs', save_img get_img fs state filename kw = (fs', Ok filename) /\
     dget filename fs' = Some (CImage img) /\ (forall n, n <> filename -> dget n fs' = dget n fs) /\ jupyter_show get_img state kw = Ok [Display img]) /\
  (forall e, get_img state kw = Err e -> save_img get_img fs state filename kw = (fs, Err e) /\ jupyter_show get_img state kw = Err e).
Proof. exact C101_save_lemma. Qed.
Print Assumptions C101_save.
Example C101_save_example : let get_img := fun (st : sstate) (_ : kwargs) => if size st =? 2 then Ok 5 else Err KeyError in
  save_img get_img [("b.png"%string, CImage 1)] (duo "a" "b") "a.png" (mkKw None None None) = ([("b.png"%string, CImage 1); ("a.png"%string, CImage 5)], Ok "a.png"%string) /\
  save_img get_img [] (mkS [] []) "a.png" (mkKw None None None) = ([], Err KeyError).
Proof. split; reflexivity. Qed.

(** C76, states. The artist made from a state draws no site black and, for up to 22 phases, two sites alike exactly if they hold the same phase. *)
Theorem C76_state : forall st ord lg, discrete st -> any_order ord ->
  exists ca, from_discrete_state ord st None lg = Ok ca /\
    (forall k, In k (site_ids st) -> exists c, get_color ca (get_site_state st k) = Ok c /\ c <> (0, 0, 0)) /\
    (forall ps, (forall p, present st p -> In p ps) -> (length ps <= 22)%nat ->
       forall k k' p p' c, site_entry st k (KStr "DISCRETE_OCCUPANCY") = Some p -> site_entry st k' (KStr "DISCRETE_OCCUPANCY") = Some p' -> In k (site_ids st) -> In k' (site_ids st) ->
         get_color ca (get_site_state st k) = Ok c -> (get_color ca (get_site_state st k') = Ok c <-> p = p')).
Proof. exact C76_state_lemma. Qed.
Print Assumptions C76_state.
Example C76_state_example : exists ca, from_discrete_state (fun l => l) (duo "a" "b") None None = Ok ca /\ get_color ca (get_site_state (duo "a" "b") (KInt 0)) = Ok (32, 178, 170) /\
  get_color ca (get_site_state (duo "a" "b") (KInt 1)) = Ok (0, 255, 127).
Proof. eexists. split; [reflexivity|]. split; reflexivity. Qed.

(** C76, results, part: exactly the phases present in some step before the last are drawn in a colour other than black.  Missing: phases first present in the last step (refuted below). *)
Theorem C76_result_partial : forall init h T ord lg, course init (added h) T -> any_order ord ->
  let r := fold_left apply_rop h (new_result init) in let n := length (added h) in
  exists ca, from_discrete_result ord r None lg = Ok ca /\
    forall m k p, (m <= n)%nat -> In k (site_ids (T m)) -> site_entry (T m) k (KStr "DISCRETE_OCCUPANCY") = Some p ->
      exists c, get_color ca (get_site_state (T m) k) = Ok c /\
        (c <> (0, 0, 0) <-> exists m', (m' < n)%nat /\ present (T m') p).
Proof. exact C76_result_lemma. Qed.
Print Assumptions C76_result_partial.
Example C76_result_example : course (duo "a" "b") (added [RAdd (paint 1 "c")]) duo_T.
Proof. exact duo_course. Qed.

(** C76 is false for results: a phase first present in the last step is drawn black, the colour of unknown phases. *)
Theorem C76_result_refuted : forall init h T ord lg p, course init (added h) T -> any_order ord ->
  let r := fold_left apply_rop h (new_result init) in let n := length (added h) in
  present (T n) p -> (forall m, (m < n)%nat -> ~ present (T m) p) ->
  exists ca k, from_discrete_result ord r None lg = Ok ca /\ In k (site_ids (T n)) /\ site_entry (T n) k (KStr "DISCRETE_OCCUPANCY") = Some p /\
    get_color ca (get_site_state (T n) k) = Ok (0, 0, 0).
Proof. exact C76_refuted_lemma. Qed.
Print Assumptions C76_result_refuted.
Example C76_refuted_example : exists ca, from_discrete_result (fun l => l) (add_step (new_result (duo "a" "b")) (paint 1 "c")) None None = Ok ca /\
  get_color ca (get_site_state (duo_T 1) (KInt 1)) = Ok (0, 0, 0).
Proof. eexists. split; reflexivity. Qed.

(** C78. A phase set lists every given phase once. *)
Theorem C78_phase_set : forall ord phases, (forall l, Permutation l (ord l)) ->
  NoDup (phase_set ord phases) /\ forall p, In p (phase_set ord phases) <-> In p phases.
Proof. exact C78_lemma. Qed.
Print Assumptions C78_phase_set.
Example C78_example : phase_set (@rev string) ["a"; "b"; "a"]%string = ["b"; "a"]%string.
Proof. reflexivity. Qed.
