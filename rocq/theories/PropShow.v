(** Properties C102 and C103: drawings and phase fractions in binary64. *)
From Coq Require Import Reals Lra Sorted Permutation.
From Flocq Require Import Core BinarySingleNaN.
From Verif Require Import Prelude Dict Val Arith RealArith FloatArith LatticeModel StructModel StateModel ResultModel JsonModel GridModel SetupModel AnalyzerModel VizModel SpecState SpecResult SpecGeom SpecNb SpecGrid SpecSetup SpecAnalyze SpecViz SpecFloat64 SpecNuc FloatFacts AnalyzerDemo VizDemo FloatDraw LifeAsyncFl FloatFrac DrawFacts.
Local Open Scope Z_scope.

(** C102. The picture of a 2D grid at most as wide as high. *)
Theorem C102_drawing : forall s ca cm st str_ glyphs cs n0 n1, fl_square [n0; n1] s -> 1 <= n0 <= 2 ^ 20 -> 1 <= n1 <= 2 ^ 20 -> n1 <= n0 -> 1 <= cs <= 2 ^ 30 -> valued (ca_state_key ca) st -> colours_by ca cm ->
  (forall i x, get_site s i = Some x -> In (KInt i) (site_ids st)) -> rightwards glyphs ->
  exists im order, draw_2d FA f_int glyphs s (as_artist str_ ca) st None cs = Ok im /\
    NoDup order /\ Sorted (fun a b => String.leb a b = true) order /\ (forall l, In l order <-> exists v, held (ca_state_key ca) st v /\ str_ v = l) /\
    im_w im = (n0 + 6) * cs + 5 /\ im_h im = Z.max n0 (Z.of_nat (length order) + 1) * cs /\
    (forall a b i v x y, 0 <= a < n1 -> 0 <= b < n0 -> fl_cell [n0; n1] s [a; b] i -> site_entry st (KInt i) (ca_state_key ca) = Some v ->
       inside (a * cs) ((a + 1) * cs) ((n0 - 1 - b) * cs) ((n0 - b) * cs) x y = true -> im_px im x y = shade cm v) /\
    (forall x y, 0 <= x < n0 * cs -> 0 <= y < im_h im -> n1 * cs <= x \/ n0 * cs <= y -> im_px im x y = (0, 0, 0)) /\
    (forall x y, n0 * cs <= x < n0 * cs + 5 -> 0 <= y < im_h im -> im_px im x y = (255, 255, 255)) /\
    (forall k l, nth_error order k = Some l -> exists v, held (ca_state_key ca) st v /\ str_ v = l /\
       forall x y, inside (n0 * cs + 5 + cs / 4) (n0 * cs + 5 + cs / 4 + cs) (Z.of_nat k * cs + cs / 4) (Z.of_nat k * cs + cs / 4 + cs) x y = true -> im_px im x y = shade cm v).
Proof. exact C102_drawing_lemma. Qed.
Print Assumptions C102_drawing.
Example C102_drawing_example : exists s st, fl_square [3; 2] s /\ valued (ca_state_key demo_artist) st /\ (forall i x, get_site s i = Some x -> In (KInt i) (site_ids st)) /\ present st (VStr "a") /\
  colours_by demo_artist [(VStr "a", (32, 178, 170))] /\ rightwards demo_glyphs.
Proof.
  destruct (square_setup 2 [3; 2]) as (s & FG & FS); [auto|reflexivity|repeat constructor; lia|]. destruct (solid_fl _ _ _ FG) as (st & H). exists s, st. pose proof demo_ok. split; [exact FS|]. intuition.
Qed.

(** C102. The same for artists of every kind (see C104). *)
Theorem C102_any_artist : forall s art st colr lg glyphs cs n0 n1, fl_square [n0; n1] s -> 1 <= n0 <= 2 ^ 20 -> 1 <= n1 <= 2 ^ 20 -> n1 <= n0 -> 1 <= cs <= 2 ^ 30 -> paints art s st colr lg -> rightwards glyphs ->
  exists im order, draw_2d FA f_int glyphs s art st None cs = Ok im /\
    Permutation order (dkeys lg) /\ Sorted (fun a b => String.leb a b = true) order /\
    im_w im = (n0 + 6) * cs + 5 /\ im_h im = Z.max n0 (Z.of_nat (length lg) + 1) * cs /\
    (forall a b i x y, 0 <= a < n1 -> 0 <= b < n0 -> fl_cell [n0; n1] s [a; b] i ->
       inside (a * cs) ((a + 1) * cs) ((n0 - 1 - b) * cs) ((n0 - b) * cs) x y = true -> im_px im x y = colr i) /\
    (forall x y, 0 <= x < n0 * cs -> 0 <= y < im_h im -> n1 * cs <= x \/ n0 * cs <= y -> im_px im x y = (0, 0, 0)) /\
    (forall x y, n0 * cs <= x < n0 * cs + 5 -> 0 <= y < im_h im -> im_px im x y = (255, 255, 255)) /\
    (forall k l c x y, nth_error order k = Some l -> dget l lg = Some c ->
       inside (n0 * cs + 5 + cs / 4) (n0 * cs + 5 + cs / 4 + cs) (Z.of_nat k * cs + cs / 4) (Z.of_nat k * cs + cs / 4 + cs) x y = true -> im_px im x y = c).
Proof. exact C102_art_lemma. Qed.
Print Assumptions C102_any_artist.
Example C102_artist_example : exists s st colr, fl_square [3; 2] s /\ paints (as_artist demo_str (mkDiscrete (Some [(VStr "a", (32, 178, 170))]) (KStr "DISCRETE_OCCUPANCY") (Some [("A"%string, (32, 178, 170))]))) s st colr [("A"%string, (32, 178, 170))] /\
  present st (VStr "a") /\ rightwards demo_glyphs.
Proof.
  destruct (square_setup 2 [3; 2]) as (s & FG & FS); [auto|reflexivity|repeat constructor; lia|]. destruct (solid_fl _ _ _ FG) as (st & D & SI & P). exists s, st.
  destruct (C104_discrete_lemma b64 s demo_str (mkDiscrete (Some [(VStr "a", (32, 178, 170))]) (KStr "DISCRETE_OCCUPANCY") (Some [("A"%string, (32, 178, 170))])) [(VStr "a", (32, 178, 170))] st D eq_refl SI) as (colr & _ & _ & H).
  exists colr. split; [exact FS|]. split; [apply H; [reflexivity|repeat constructor; simpl; tauto]|]. split; [exact P|apply demo_ok].
Qed.

(** C102. A label changes only the pixels of its text. *)
Theorem C102_label : forall s art st colr lg glyphs cs n0 n1 t, fl_square [n0; n1] s -> 1 <= n0 <= 2 ^ 20 -> 1 <= n1 <= 2 ^ 20 -> n1 <= n0 -> 1 <= cs <= 2 ^ 30 -> paints art s st colr lg -> rightwards glyphs ->
  exists im im', draw_2d FA f_int glyphs s art st None cs = Ok im /\ draw_2d FA f_int glyphs s art st (Some t) cs = Ok im' /\ im_w im' = im_w im /\ im_h im' = im_h im /\
    (forall x y, (forall c, ~ In (x, y, c) (glyphs (5, 5) t)) -> im_px im' x y = im_px im x y) /\
    (forall x y c, In (x, y, c) (glyphs (5, 5) t) -> (forall c', In (x, y, c') (glyphs (5, 5) t) -> c' = c) -> 0 <= x < im_w im -> 0 <= y < im_h im -> im_px im' x y = c).
Proof. exact C102_label_lemma. Qed.
Print Assumptions C102_label.
Example C102_label_example : demo_glyphs (5, 5) "Step 3" = [(5, 5, (255, 255, 255))] /\ (forall c, ~ In (7, 5, c) (demo_glyphs (5, 5) "Step 3")) /\ rightwards demo_glyphs.
Proof. split; [reflexivity|]. split; [|apply demo_ok]. intros c [E|[]]. discriminate. Qed.

(** C102. Grids that are wider than high: IndexError, or the border over the cells of column n0. *)
Theorem C102_wide : forall s art st colr lg glyphs cs n0 n1, fl_square [n0; n1] s -> 1 <= n0 <= 2 ^ 20 -> 1 <= n1 <= 2 ^ 20 -> n0 < n1 -> 1 <= cs <= 2 ^ 30 -> paints art s st colr lg -> rightwards glyphs ->
  ((n0 + 6) * cs + 5 < n1 * cs -> draw_2d FA f_int glyphs s art st None cs = Err IndexError) /\
  (n1 * cs <= (n0 + 6) * cs + 5 -> exists im, draw_2d FA f_int glyphs s art st None cs = Ok im /\
     forall b, 0 <= b < n0 -> inside (n0 * cs) ((n0 + 1) * cs) ((n0 - 1 - b) * cs) ((n0 - b) * cs) (n0 * cs) ((n0 - 1 - b) * cs) = true /\ im_px im (n0 * cs) ((n0 - 1 - b) * cs) = (255, 255, 255)).
Proof. exact C102_wide_lemma. Qed.
Print Assumptions C102_wide.
Example C102_wide_example : exists s st, fl_square [2; 20] s /\ discrete st /\ (2 + 6) * 20 + 5 < 20 * 20.
Proof.
  destruct (square_setup 2 [2; 20]) as (s & FG & FS); [auto|reflexivity|repeat constructor; lia|]. destruct (solid_fl _ _ _ FG) as (st & H & _). exists s, st. split; [exact FS|]. split; [exact H|lia].
Qed.

(** C102. The frames of an animation. *)
Theorem C102_movie : forall s art colr lg init h T glyphs kw cs n0 n1 fs filename, fl_square [n0; n1] s -> 1 <= n0 <= 2 ^ 20 -> 1 <= n1 <= 2 ^ 20 -> n1 <= n0 ->
  cs = match kw_cell_size kw with Some c => c | None => 20 end -> 1 <= cs <= 2 ^ 30 -> 1 <= every kw -> visits init (added h) T ->
  (forall n, (n <= length (added h))%nat -> paints art s (T n) (colr n) (lg n)) -> rightwards glyphs ->
  (forall k, k * every kw <= Z.of_nat (length (added h)) -> filename <> temporary k) ->
  exists fs' frames, to_gif (artist_2d FA f_int glyphs s art) fs (fold_left apply_rop h (new_result init)) filename kw = (fs', Ok tt) /\
    dget filename fs' = Some (CFrames frames) /\
    Z.of_nat (length frames) = Z.of_nat (length (added h)) / every kw + 1 /\
    forall k im n, nth_error frames k = Some im -> Z.of_nat n = Z.of_nat k * every kw ->
      im_w im = (n0 + 6) * cs + 5 /\
      forall a b i x y, 0 <= a < n1 -> 0 <= b < n0 -> fl_cell [n0; n1] s [a; b] i ->
        inside (a * cs) ((a + 1) * cs) ((n0 - 1 - b) * cs) ((n0 - b) * cs) x y = true ->
        (forall c, ~ In (x, y, c) (glyphs (5, 5) ("Step " ++ str_of_Z (Z.of_nat n))%string)) -> im_px im x y = colr n i.
Proof. exact C102_movie_lemma. Qed.
Print Assumptions C102_movie.
Example C102_movie_example : exists s st colr, fl_square [3; 2] s /\ visits st (added [RAdd (VDict [(GENERAL, VDict [])])]) (fun _ => st) /\
  paints (as_artist demo_str (mkDiscrete (Some [(VStr "a", (32, 178, 170))]) (KStr "DISCRETE_OCCUPANCY") (Some [("A"%string, (32, 178, 170))]))) s st colr [("A"%string, (32, 178, 170))] /\
  every (mkKw None (Some 7) None) = 1 /\ forall k, "out.gif"%string <> temporary k.
Proof.
  destruct (square_setup 2 [3; 2]) as (s & FG & FS); [auto|reflexivity|repeat constructor; lia|]. destruct (solid_fl _ _ _ FG) as (st & D & SI & P). exists s, st.
  destruct (C104_discrete_lemma b64 s demo_str (mkDiscrete (Some [(VStr "a", (32, 178, 170))]) (KStr "DISCRETE_OCCUPANCY") (Some [("A"%string, (32, 178, 170))])) [(VStr "a", (32, 178, 170))] st D eq_refl SI) as (colr & _ & _ & H).
  exists colr. split; [exact FS|]. split; [|split; [apply H; [reflexivity|repeat constructor; simpl; tauto]|split; [reflexivity|discriminate]]].
  intros [|[|n]] Hn; [reflexivity|destruct st; reflexivity|simpl in Hn; lia].
Qed.

(** C102. The voxels of a cube. *)
Theorem C102_voxels : forall s art st colr n cube_root, fl_square [n; n; n] s -> 1 <= n <= 2 ^ 20 -> colours art s st colr -> cube_root (size st) = n ->
  exists ds, draw_3d f_int f_is cube_root s art st false = Ok (n, ds) /\
    (forall x y z i, 0 <= x < n -> 0 <= y < n -> 0 <= z < n -> fl_cell [n; n; n] s [x; y; z] i ->
       forall c, voxel ds c [x; y; z] <-> c = colr i) /\
    (forall c v, voxel ds c v -> exists x y z, v = [x; y; z] /\ 0 <= x < n /\ 0 <= y < n /\ 0 <= z < n).
Proof. exact C102_voxels_lemma. Qed.
Print Assumptions C102_voxels.
Example C102_voxels_example : exists s st, fl_square [2; 2; 2] s /\ discrete st /\ (forall i x, get_site s i = Some x -> In (KInt i) (site_ids st)) /\ present st (VStr "a").
Proof.
  destruct (square_setup 3 [2; 2; 2]) as (s & FG & FS); [auto|reflexivity|repeat constructor; lia|]. destruct (solid_fl _ _ _ FG) as (st & H). exists s, st. split; [exact FS|exact H].
Qed.

(** C102. With shell_only only the voxels with y = 0 are drawn. *)
Theorem C102_shell : forall s art st colr n cube_root, fl_square [n; n; n] s -> 1 <= n <= 2 ^ 20 -> colours art s st colr -> cube_root (size st) = n ->
  exists ds, draw_3d f_int f_is cube_root s art st true = Ok (n, ds) /\
    (forall x y z i, 0 <= x < n -> 0 <= y < n -> 0 <= z < n -> fl_cell [n; n; n] s [x; y; z] i ->
       forall c, voxel ds c [x; y; z] <-> y = 0 /\ c = colr i).
Proof. exact C102_shell_lemma. Qed.
Print Assumptions C102_shell.
Example C102_shell_example : exists s st colr, fl_square [2; 2; 2] s /\ colours (as_artist demo_str demo_artist) s st colr /\ present st (VStr "a").
Proof.
  destruct (square_setup 3 [2; 2; 2]) as (s & FG & FS); [auto|reflexivity|repeat constructor; lia|]. destruct (solid_fl _ _ _ FG) as (st & D & SI & P). exists s, st.
  destruct (C104_discrete_lemma b64 s demo_str demo_artist [(VStr "a", (32, 178, 170))] st D eq_refl SI) as (colr & H & _). exists colr. split; [exact FS|]. split; [exact H|exact P].
Qed.

(** C102. What matplotlib is asked to draw: the calls divide up the cube, the cells that are not shown are grey. *)
Theorem C102_calls : forall s art st colr n cube_root shell, fl_square [n; n; n] s -> 1 <= n <= 2 ^ 20 -> colours art s st colr -> cube_root (size st) = n ->
  let hue := fun y i => if shell && negb (y =? 0) then Grey else Face (colr i) in
  exists calls, image_3d f_int f_is cube_root s art st shell = Ok calls /\ NoDup (map v_face calls) /\ hd_error (map v_face calls) = Some Grey /\
    (forall x y z i, 0 <= x < n -> 0 <= y < n -> 0 <= z < n -> fl_cell [n; n; n] s [x; y; z] i -> exists call, In call calls /\ v_face call = hue y i /\ In [x; y; z] (v_cells call)) /\
    (forall call v, In call calls -> In v (v_cells call) -> exists x y z i, v = [x; y; z] /\ 0 <= x < n /\ 0 <= y < n /\ 0 <= z < n /\ fl_cell [n; n; n] s [x; y; z] i /\ v_face call = hue y i).
Proof. exact C102_calls_lemma. Qed.
Print Assumptions C102_calls.
Example C102_calls_example : exists s st colr, fl_square [3; 3; 3] s /\ colours (as_artist demo_str demo_artist) s st colr /\ present st (VStr "a").
Proof.
  destruct (square_setup 3 [3; 3; 3]) as (s & FG & FS); [auto|reflexivity|repeat constructor; lia|]. destruct (solid_fl _ _ _ FG) as (st & D & SI & P). exists s, st.
  destruct (C104_discrete_lemma b64 s demo_str demo_artist [(VStr "a", (32, 178, 170))] st D eq_refl SI) as (colr & H & _). exists colr. split; [exact FS|]. split; [exact H|exact P].
Qed.

(** C102. Boxes whose sides fit into the rounded cube root of the number of sites. *)
Theorem C102_fitting : forall s art st colr n0 n1 n2 cube_root shell, fl_square [n0; n1; n2] s -> 1 <= n0 <= 2 ^ 20 -> 1 <= n1 <= 2 ^ 20 -> 1 <= n2 <= 2 ^ 20 -> colours art s st colr ->
  n0 <= cube_root (size st) -> n1 <= cube_root (size st) -> n2 <= cube_root (size st) ->
  exists ds, draw_3d f_int f_is cube_root s art st shell = Ok (cube_root (size st), ds) /\
    forall c v, voxel ds c v <-> exists x y z i, v = [x; y; z] /\ 0 <= x < n1 /\ 0 <= y < n0 /\ 0 <= z < n2 /\ fl_cell [n0; n1; n2] s v i /\ c = colr i /\ (shell = true -> y = 0).
Proof. exact C102_fitting_lemma. Qed.
Print Assumptions C102_fitting.
Example C102_fitting_example : exists s st colr, fl_square [3; 3; 2] s /\ colours (as_artist demo_str demo_artist) s st colr /\ 2 * 2 * 2 < 3 * 3 * 2 < 3 * 3 * 3.
Proof.
  destruct (square_setup 3 [3; 3; 2]) as (s & FG & FS); [auto|reflexivity|repeat constructor; lia|]. destruct (solid_fl _ _ _ FG) as (st & D & SI & P). exists s, st.
  destruct (C104_discrete_lemma b64 s demo_str demo_artist [(VStr "a", (32, 178, 170))] st D eq_refl SI) as (colr & H & _). exists colr. split; [exact FS|]. split; [exact H|lia].
Qed.

(** C102. Boxes with a side longer than the rounded cube root of the number of sites. *)
Theorem C102_box : forall s art st colr n0 n1 n2 cube_root, fl_square [n0; n1; n2] s -> 1 <= n0 <= 2 ^ 20 -> 1 <= n1 <= 2 ^ 20 -> 1 <= n2 <= 2 ^ 20 -> colours art s st colr -> cube_root (size st) < n0 \/ cube_root (size st) < n1 \/ cube_root (size st) < n2 ->
  draw_3d f_int f_is cube_root s art st false = Err IndexError.
Proof. exact C102_box_lemma. Qed.
Print Assumptions C102_box.
Example C102_box_example : exists s st colr, fl_square [2; 4; 2] s /\ colours (as_artist demo_str demo_artist) s st colr /\ 2 < 4.
Proof.
  destruct (square_setup 3 [2; 4; 2]) as (s & FG & FS); [auto|reflexivity|repeat constructor; lia|]. destruct (solid_fl _ _ _ FG) as (st & D & SI & P). exists s, st.
  destruct (C104_discrete_lemma b64 s demo_str demo_artist [(VStr "a", (32, 178, 170))] st D eq_refl SI) as (colr & H & _). exists colr. split; [exact FS|]. split; [exact H|lia].
Qed.

(** C103. A single fraction. *)
Theorem C103_fraction : forall F (so : option (structure F)) st p, discrete st -> suits so st -> 0 < size st < 2 ^ 53 ->
  exists x, cell_fraction so FA st p = Ok x /\ denotes x (rnd (IZR (occurrences st p) / IZR (size st))) /\
    (0 <= B2R x <= 1)%R /\ (Rabs (B2R x - IZR (occurrences st p) / IZR (size st)) <= / IZR (2 ^ 54))%R /\
    (B2R x = 0%R <-> ~ present st p) /\
    (B2R x = 1%R <-> forall k, In k (site_ids st) -> site_entry st k (KStr "DISCRETE_OCCUPANCY") = Some p).
Proof. exact C103_lemma. Qed.
Print Assumptions C103_fraction.
Example C103_example : discrete (duo "a" "b") /\ present (duo "a" "b") (VStr "a") /\ size (duo "a" "b") = 2 /\ cell_fraction (F := R) None FA (duo "a" "b") (VStr "a") = Ok (f_div (f_ofZ 1) (f_ofZ 2)).
Proof. split; [apply duo_discrete|]. split; [exists (KInt 0); split; [left; reflexivity|reflexivity]|]. split; reflexivity. Qed.

(** C103. Fractions compare like counts. *)
Theorem C103_order : forall F (so : option (structure F)) st p q x y, discrete st -> suits so st -> 0 < size st < 2 ^ 53 ->
  cell_fraction so FA st p = Ok x -> cell_fraction so FA st q = Ok y ->
  ((B2R x < B2R y)%R <-> occurrences st p < occurrences st q) /\ (B2R x = B2R y <-> occurrences st p = occurrences st q).
Proof. exact C103_order_lemma. Qed.
Print Assumptions C103_order.
Example C103_order_example : discrete (duo "a" "a") /\ occurrences (duo "a" "a") (VStr "b") < occurrences (duo "a" "a") (VStr "a") /\
  cell_fraction (F := R) None FA (duo "a" "a") (VStr "b") = Ok (f_div (f_ofZ 0) (f_ofZ 2)) /\ cell_fraction (F := R) None FA (duo "a" "a") (VStr "a") = Ok (f_div (f_ofZ 2) (f_ofZ 2)).
Proof. split; [apply duo_discrete|]. split; [vm_compute; reflexivity|]. split; reflexivity. Qed.

(** C103. The fractions add up to 1 up to rounding. *)
Theorem C103_sum : forall F (so : option (structure F)) st ord ps, discrete st -> suits so st -> any_order ord -> 0 < size st < 2 ^ 53 ->
  phases_present ord st = Ok ps ->
  exists fs, mapM (cell_fraction so FA st) ps = Ok fs /\ (Rabs (fold_right Rplus 0 (map B2R fs) - 1) <= IZR (Z.of_nat (length ps)) / IZR (2 ^ 54))%R.
Proof. exact C103_sum_lemma. Qed.
Print Assumptions C103_sum.
Example C103_sum_example : discrete (duo "a" "b") /\ any_order (@rev val) /\ phases_present (@rev val) (duo "a" "b") = Ok [VStr "b"; VStr "a"].
Proof. split; [apply duo_discrete|]. split; [intros l; apply Permutation_rev|reflexivity]. Qed.

(** C103. Ratios of counts. *)
Theorem C103_ratio : forall F (so : option (structure F)) st p q, discrete st -> suits so st -> size st < 2 ^ 53 ->
  (present st q -> exists x, cell_ratio so FA st p q = Ok x /\ denotes x (rnd (IZR (occurrences st p) / IZR (occurrences st q)))) /\
  (~ present st q -> cell_ratio so FA st p q = Err ZeroDivisionError).
Proof. exact C103_ratio_lemma. Qed.
Print Assumptions C103_ratio.
Example C103_ratio_example : discrete (duo "a" "b") /\ present (duo "a" "b") (VStr "b") /\ cell_ratio (F := R) None FA (duo "a" "b") (VStr "a") (VStr "c") = Err ZeroDivisionError.
Proof. split; [apply duo_discrete|]. split; [exists (KInt 1); split; [right; left; reflexivity|reflexivity]|reflexivity]. Qed.

(** C103. The fractions at the end of a result. *)
Theorem C103_final : forall init h T ord, course init (added h) T -> any_order ord ->
  let r := fold_left apply_rop h (new_result init) in let n := length (added h) in 0 < size (T n) < 2 ^ 53 ->
  exists ps fs, all_phases ord None r = Ok (ps, Some ps) /\ NoDup ps /\ (forall p, In p ps <-> exists m, (m < n)%nat /\ present (T m) p) /\
    final_phase_fractions ord FA None r = Ok fs /\ dkeys fs = ps /\
    (forall p x, hashable p = true -> dget p fs = Some x -> denotes x (rnd (IZR (occurrences (T n) p) / IZR (size (T n))))).
Proof. exact C103_final_lemma. Qed.
Print Assumptions C103_final.
Example C103_final_example : course (duo "a" "b") (added [RAdd (paint 1 "c")]) duo_T /\ any_order (@rev val) /\ size (duo_T 1) = 2.
Proof. split; [exact duo_course|]. split; [intros l; apply Permutation_rev|reflexivity]. Qed.

(** C103. The lines of the plot of phase fractions. *)
Theorem C103_plot : forall init h T ord v m, course init (added h) T -> any_order ord -> (forall n, 0 < size (T n) < 2 ^ 53) -> denotes v m ->
  let r := fold_left apply_rop h (new_result init) in
  exists r' idxs kept lines, get_steps_to_plot r = (r', Ok (idxs, map (fun i => T (Z.to_nat i)) idxs)) /\
    plot_phase_fractions FA ord None r v = (r', Ok ((0, last idxs 0), lines)) /\
    Forall2 (fun p line => fst line = (p, idxs) /\ Forall2 (fun i y => denotes y (rnd (IZR (occurrences (T (Z.to_nat i)) p) / IZR (size (T (Z.to_nat i)))))) idxs (snd line)) kept lines /\
    NoDup kept /\
    (forall p, In p kept <-> (exists n, (n < length (added h))%nat /\ present (T n) p) /\
                            exists i, In i idxs /\ (m < rnd (IZR (occurrences (T (Z.to_nat i)) p) / IZR (size (T (Z.to_nat i)))))%R).
Proof. exact C103_plot_lemma. Qed.
Print Assumptions C103_plot.
Example C103_plot_example : course (duo "a" "b") (added [RAdd (paint 1 "c")]) duo_T /\ (forall n, 0 < size (duo_T n) < 2 ^ 53) /\ denotes (f_ofZ 0) 0.
Proof. split; [exact duo_course|]. split; [intros [|n]; cbn; lia|apply denotes_ofZ; reflexivity]. Qed.
