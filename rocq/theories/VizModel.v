(** Model of src/pylattica/visualization: colours, legends, the 2D and 3D grid
    artists and GIF files. *)
From Verif Require Import Prelude Val Arith LatticeModel StructModel StateModel ResultModel JsonModel SetupModel AnalyzerModel.
Local Open Scope Z_scope.

Definition colour := (Z * Z * Z)%type.
#[export] Instance Eqb_colour : Eqb colour := fun a b =>
  let '(r, g, b0) := a in let '(r', g', b') := b in (r =? r') && (g =? g') && (b0 =? b').

(** visualization/colors.py:1-72, the lines 2-36; the list repeats them once. *)
Definition COLORS_35 : list colour :=
  [(32, 178, 170); (0, 255, 127); (47, 79, 79); (30, 144, 255); (138, 43, 226); (186, 85, 211); (199, 21, 133);
   (255, 20, 147); (250, 235, 215); (160, 82, 45); (244, 164, 96); (176, 196, 222); (205, 92, 92); (255, 215, 0);
   (85, 107, 47); (0, 128, 0); (143, 188, 143); (255, 140, 0); (255, 69, 0); (250, 128, 114); (128, 0, 0);
   (255, 255, 0); (0, 128, 0); (32, 178, 170); (128, 0, 0); (0, 255, 0); (255, 255, 255); (128, 128, 0);
   (0, 0, 128); (34, 139, 34); (221, 160, 221); (210, 105, 30); (188, 143, 143); (112, 128, 144); (240, 255, 240)].
Definition COLORS : list colour := COLORS_35 ++ COLORS_35.

(** visualization/cell_artist.py:114-137 [build_color_map_from_phase_list] *)
Definition build_color_map (phases : list val) : res (dict val colour) :=
  do (display_phases, _) <- foldM (fun (acc : dict val colour * Z) p =>
      let '(display_phases, c_idx) := acc in
      do c <- list_getE COLORS (c_idx mod Z.of_nat (length COLORS));
      if negb (hashable p) then Err TypeError else Ok (dset p c display_phases, c_idx + 1)) phases ([], 0);
  Ok display_phases.

(** visualization/helpers.py:6-25 [color_map] *)
Definition color_map (phases : list val) : res (dict val colour) :=
  do (cm, _) <- foldM (fun (acc : dict val colour * Z) p =>
      let '(cm, c_idx) := acc in
      do c <- list_getE COLORS c_idx;
      if negb (hashable p) then Err TypeError else Ok (dset p c cm, c_idx + 1)) phases ([], 0);
  Ok cm.

(** visualization/cell_artist.py:139-149, the attributes of a DiscreteCellArtist.
    Keys of the colour map are compared by [val_eqb], which tells True, 1 and 1.0
    apart. *)
Record discrete_artist := mkDiscrete {
  ca_color_map : option (dict val colour);
  ca_state_key : key;
  ca_legend : option (dict string colour)
}.
(** visualization/cell_artist.py:55-70 [from_phase_list]; the keyword arguments
    [state_key] ([None]: not given) and [legend] are passed on. *)
Definition from_phase_list (phases : list val) (state_key : option key) (legend : option (dict string colour)) : res discrete_artist :=
  do cm <- build_color_map phases;
  Ok (mkDiscrete (Some cm) (match state_key with Some k => k | None => DISCRETE_OCCUPANCY end) legend).

(** visualization/cell_artist.py:72-91 [from_discrete_state] *)
Definition from_discrete_state (ord : list val -> list val) (state : sstate) (state_key : option key) (legend : option (dict string colour)) : res discrete_artist :=
  do phases <- phases_present ord state;
  from_phase_list phases state_key legend.

(** visualization/cell_artist.py:93-112 [from_discrete_result]: a new analyzer,
    hence nothing cached. *)
Definition from_discrete_result (ord : list val -> list val) (result : sresult) (state_key : option key) (legend : option (dict string colour)) : res discrete_artist :=
  do (phases, _) <- all_phases ord None result;
  from_phase_list phases state_key legend.

(** visualization/cell_artist.py:14-49 [CellArtist]: the methods of an artist.
    Colours depend on the state of the cell, [None] is the state of a site the
    simulation state does not know.  Simplification: methods depend on their
    arguments only, labels are strings. *)
Record cell_artist := mkCellArtist {
  art_color : option pdict -> res colour;            (* get_color_from_cell_state *)
  art_label : pdict -> res string;                   (* get_cell_legend_label *)
  art_legend : sstate -> res (dict string colour)    (* get_legend *)
}.

(** visualization/cell_artist.py:26-49 [CellArtist.get_legend] *)
Definition base_legend (color : option pdict -> res colour) (label : pdict -> res string) (state : sstate) : res (dict string colour) :=
  foldM (fun legend d =>
    do l <- label d;
    if dmem l legend then Ok legend
    else do c <- color (Some d); Ok (dset l c legend))
    (all_site_states state) [].

(** An artist that inherits [get_legend] from [CellArtist]. *)
Definition plain_artist (color : option pdict -> res colour) (label : pdict -> res string) : cell_artist :=
  mkCellArtist color label (base_legend color label).

Section Cells.
  Variable str_ : val -> string.   (* Python's str() *)
  Variable ca : discrete_artist.

  (** visualization/cell_artist.py:157-174 [get_color_from_cell_state] *)
  Definition get_color (cell_state : option pdict) : res colour :=
    match cell_state with
    | None => Err TypeError
    | Some d =>
        do phase_name <- dgetE (ca_state_key ca) d;
        match ca_color_map ca with
        | None => Err TypeError                       (* "x not in None" *)
        | Some cm =>
            if hashable phase_name
            then Ok match dget phase_name cm with Some c => c | None => (0, 0, 0) end
            else Err TypeError
        end
    end.

  (** visualization/cell_artist.py:176-189 [get_cell_legend_label] *)
  Definition get_cell_legend_label (d : pdict) : res string := do v <- dgetE (ca_state_key ca) d; Ok (str_ v).

  (** visualization/cell_artist.py:151-155 [get_legend] *)
  Definition get_legend (state : sstate) : res (dict string colour) :=
    match ca_legend ca with
    | None => base_legend get_color get_cell_legend_label state
    | Some l => Ok l
    end.

  (** visualization/cell_artist.py:52-189 [DiscreteCellArtist] *)
  Definition as_artist : cell_artist := mkCellArtist get_color get_cell_legend_label get_legend.
End Cells.

(** A PIL image: size and pixels. *)
Record picture := mkImage { im_w : Z; im_h : Z; im_px : Z -> Z -> colour }.
(** [Image.new("RGB", (w, h), "black")] *)
Definition new_image (w h : Z) : res picture := if (w <? 0) || (h <? 0) then Err ValueError else Ok (mkImage w h (fun _ _ => (0, 0, 0))).
(** [pixels[x, y] = c]: negative coordinates count from the right and bottom;
    outside the image IndexError. *)
Definition put (im : picture) (x y : Z) (c : colour) : res picture :=
  let x := if x <? 0 then x + im_w im else x in
  let y := if y <? 0 then y + im_h im else y in
  if (x <? 0) || (x >=? im_w im) || (y <? 0) || (y >=? im_h im) then Err IndexError
  else Ok (mkImage (im_w im) (im_h im) (fun a b => if (a =? x) && (b =? y) then c else im_px im a b)).
(** The double loops over pixels *)
Definition fill (im : picture) (x0 x1 y0 y1 : Z) (c : colour) : res picture :=
  foldM (fun im p_x => foldM (fun im p_y => put im p_x p_y c) (zrange y0 y1) im) (zrange x0 x1) im.

(** [sorted] of strings.  Strings are compared by their UTF-8 bytes, which agrees
    with Python's comparison by code points. *)
Fixpoint insert_sorted (s : string) (l : list string) : list string :=
  match l with
  | [] => [s]
  | t :: r => if String.leb s t then s :: l else t :: insert_sorted s r
  end.
Definition sorted (l : list string) : list string := fold_right insert_sorted [] l.

(** square_grid_artist_3D.py:44-50: one call of [ax.voxels]: the filled cells and
    their colour, a translucent grey or one given by the artist. *)
Inductive face := Grey | Face (c : colour).
Record voxel_call := mkVoxels { v_face : face; v_cells : list (list Z) }.

Section Draw.
  Context {F : Type} (A : arith F) (trunc : F -> Z).   (* trunc: int() *)
  (** The pixels PIL's font rendering touches for a text at a position. *)
  Variable glyphs : Z * Z -> string -> list (Z * Z * colour).

  (** [draw.text]: pixels outside the image are dropped. *)
  Definition draw_text (im : picture) (pos : Z * Z) (t : string) : picture :=
    fold_left (fun im g => let '(x, y, c) := g in
      if (x <? 0) || (x >=? im_w im) || (y <? 0) || (y >=? im_h im) then im
      else mkImage (im_w im) (im_h im) (fun a b => if (a =? x) && (b =? y) then c else im_px im a b)) (glyphs pos t) im.

  (** visualization/square_grid_artist_2D.py:12-69 [_draw_image].  Simplification:
      [cell_size] is an integer. *)
  Definition draw_2d (struct : structure F) (ca : cell_artist) (state : sstate) (label : option string) (cell_size : Z) : res picture :=
    do legend <- art_legend ca state;
    let legend_order := sorted (dkeys legend) in
    do vl <- list_getE (vec_lengths A (p_lattice struct)) 0;
    let state_size := trunc vl in
    let width := state_size + 6 in
    let legend_border_width := 5 in
    let height := Z.max state_size (Z.of_nat (length legend) + 1) in
    do im <- new_image (width * cell_size + legend_border_width) (height * cell_size);
    do im <- foldM (fun im site =>
        let loc := s_loc site in
        do cell_color <- art_color ca (get_site_state state (KInt (s_id site)));
        do l0 <- list_getE loc 0;
        let p_x_start := trunc (a_mul A l0 (a_ofZ A cell_size)) in
        do l1 <- list_getE loc 1;
        let p_y_start := trunc (a_mul A (a_sub A (a_ofZ A (state_size - 1)) l1) (a_ofZ A cell_size)) in
        fill im p_x_start (p_x_start + cell_size) p_y_start (p_y_start + cell_size) cell_color) (sites struct None) im;
    let legend_hoffset := Z.quot cell_size 4 in
    let legend_voffset := Z.quot cell_size 4 in
    do im <- foldM (fun im p_y => foldM (fun im p_x => put im (state_size * cell_size + p_x) p_y (255, 255, 255))
                                      (zrange 0 legend_border_width) im) (zrange 0 (height * cell_size)) im;
    do (im, _) <- foldM (fun (acc : picture * Z) phase =>
        let '(im, count) := acc in
        do color <- dgetE phase legend;
        let p_col_start := state_size * cell_size + legend_border_width + legend_hoffset in
        let p_row_start := count * cell_size + legend_voffset in
        do im <- fill im p_col_start (p_col_start + cell_size) p_row_start (p_row_start + cell_size) color;
        (* int(p_col_start + cell_size + cell_size / 4) *)
        let legend_label_loc := (Z.quot (4 * (p_col_start + cell_size) + cell_size) 4, Z.quot (4 * p_row_start + cell_size) 4) in
        Ok (draw_text im legend_label_loc phase, count + 1)) legend_order (im, 0);
    match label with
    | Some l => Ok (draw_text im (5, 5) l)
    | None => Ok im
    end.

  Variable eq_loc : F -> Z -> bool.   (* comparison of a coordinate with an integer *)

  (** visualization/square_grid_artist_3D.py:14-40, up to the voxel data: for each
      colour the filled cells, the cells left "empty" among the [size]^3 ones are
      those in no list.  [cube_root n] is [round(n ** (1/3))].  Simplifications:
      colours are told apart by themselves instead of by their text. *)
  Definition draw_3d (cube_root : Z -> Z) (struct : structure F) (ca : cell_artist) (state : sstate) (shell_only : bool)
    : res (Z * dict colour (list (list Z))) :=
    let sz := cube_root (size state) in
    do dataset <- foldM (fun dataset site =>
        let loc := s_loc site in
        do shown <- (if negb shell_only then Ok true
                     else do l1 <- list_getE loc 1;
                          if eq_loc l1 0 then Ok true
                          else do l0 <- list_getE loc 0;
                               if eq_loc l0 sz then Ok true else do l2 <- list_getE loc 2; Ok (eq_loc l2 sz));
        if negb shown then Ok dataset
        else
          do color <- art_color ca (get_site_state state (KInt (s_id site)));
          let shifted_loc := map trunc loc in
          (* the arrays have one axis of length [sz] per dimension; negative indices count from the end *)
          if negb (Nat.leb (length shifted_loc) (p_dim struct)) then Err IndexError
          else if forallb (fun i => (- sz <=? i) && (i <? sz)) shifted_loc
          then Ok (dset color (match dget color dataset with Some l => l | None => [] end ++ [map (fun i => if i <? 0 then i + sz else i) shifted_loc]) dataset)
          else Err IndexError) (sites struct None) [];
    Ok (sz, dataset).

  (** square_grid_artist_3D.py:22, 42-50: the calls of [ax.voxels], first for the cells
      left "empty", then for each colour; matplotlib refuses arrays that are not
      three-dimensional.  Simplification: the rendering by matplotlib and PIL
      (lines 42, 52-60) is not modelled; the colours are those before the division by 255. *)
  Definition image_3d (cube_root : Z -> Z) (struct : structure F) (ca : cell_artist) (state : sstate) (shell_only : bool) : res (list voxel_call) :=
    do drawn <- draw_3d cube_root struct ca state shell_only;
    let (sz, dataset) := drawn in
    if negb (Nat.eqb (p_dim struct) 3) then Err ValueError
    else
      let empty := filter (fun v => negb (existsb (fun data => existsb (eqb v) (snd data)) dataset)) (product (repeat (zrange 0 sz) (p_dim struct))) in
      Ok (mkVoxels Grey empty :: map (fun data => mkVoxels (Face (fst data)) (snd data)) dataset).
End Draw.

(** ** Pictures of states, in files and in notebooks *)
(** The keyword arguments that reach [_draw_image] of the 2D artist and
    [_get_images]; [None]: not given. *)
Record kwargs := mkKw { kw_label : option string; kw_cell_size : option Z; kw_draw_freq : option Z }.

(** A directory: file names and contents; a content is a single image, a sequence
    of frames or something else. *)
Inductive content (I : Type) := CImage (i : I) | CFrames (l : list I) | COther (n : Z).
Arguments CImage {I}. Arguments CFrames {I}. Arguments COther {I}.

(** What a notebook is asked to do: [clear_output()], [display(img)], [time.sleep(wait)]. *)
Inductive shown (I : Type) := Clear | Display (i : I) | Sleep (wait : Z).
Arguments Clear {I}. Arguments Display {I}. Arguments Sleep {I}.

(** visualization/square_grid_artist_2D.py:12-14: [SquareGridArtist2D(struct, ca).get_img(state, **kw)]
    (structure_artist.py:37-50) *)
Definition artist_2d {F} (A : arith F) (trunc : F -> Z) glyphs (struct : structure F) (ca : cell_artist) (state : sstate) (kw : kwargs) : res picture :=
  draw_2d A trunc glyphs struct ca state (kw_label kw) (match kw_cell_size kw with Some c => c | None => 20 end).

Section Gif.
  Context {I : Type}.
  (** [self._step_artist.get_img(step, **kwargs)] of an arbitrary artist *)
  Variable get_img : sstate -> kwargs -> res I.

  (** visualization/structure_artist.py:52-68 [save_img]; saving never fails. *)
  Definition save_img (fs : dict string (content I)) (state : sstate) (filename : string) (kw : kwargs) : dict string (content I) * res string :=
    match get_img state kw with
    | Err e => (fs, Err e)
    | Ok img => (dset filename (CImage img) fs, Ok filename)
    end.

  (** visualization/structure_artist.py:24-35 [jupyter_show] *)
  Definition jupyter_show (state : sstate) (kw : kwargs) : res (list (shown I)) :=
    do img <- get_img state kw; Ok [Display img].

  (** [f"Step {idx}"] (visualization/result_artist.py:37, 50, 74) *)
  Definition step_label (idx : Z) : string := ("Step " ++ str_of_Z idx)%string.
  (** [f"tmp_pylat_step_{idx}.png"] (visualization/result_artist.py:115) *)
  Definition tmp_name (idx : Z) : string := ("tmp_pylat_step_" ++ str_of_Z idx ++ ".png")%string.

  (** [range(0, n, step)] for any step *)
  Definition py_range (n step : Z) : res (list Z) :=
    if step =? 0 then Err ValueError
    else if 0 <? step then Ok (range_step n step)
    else Ok [].

  (** visualization/result_artist.py:30-58 and 135-136 [_get_images].  The pool's
      starmap returns the images in order; simplification: when several fail, the
      first one's exception. *)
  Definition get_images (result : sresult) (kw : kwargs) : res (list I) :=
    do indices <- py_range (rlen result) (match kw_draw_freq kw with Some f => f | None => 1 end);
    do params <- mapM (fun idx =>
      let step_kwargs := mkKw (Some (step_label idx)) (kw_cell_size kw) (kw_draw_freq kw) in
      do step <- get_step result idx; Ok (step, step_kwargs)) indices;
    mapM (fun p => get_img (fst p) (snd p)) params.

  (** visualization/result_artist.py:60-78 [jupyter_show_step] *)
  Definition jupyter_show_step (result : sresult) (step_no cell_size : Z) : res (list (shown I)) :=
    let label := step_label step_no in
    do step <- get_step result step_no;
    jupyter_show step (mkKw (Some label) (Some cell_size) None).

  (** visualization/result_artist.py:80-101 [jupyter_play] *)
  Definition jupyter_play (result : sresult) (cell_size wait : Z) : res (list (shown I)) :=
    do imgs <- get_images result (mkKw None (Some cell_size) None);
    Ok (fold_left (fun out img => out ++ [Clear; Display img; Sleep wait]) imgs []).

  Definition ddel {V} (k : string) (d : dict string V) : dict string V := filter (fun e => negb (String.eqb (fst e) k)) d.

  (** visualization/result_artist.py:103-132 [to_gif] in the current directory
      [fs].  Simplifications: file names without directories; saving never fails;
      PNG files keep images exactly; a GIF is the list of frames handed to PIL,
      the duration is left out. *)
  Definition to_gif (fs : dict string (content I)) (result : sresult) (filename : string) (kw : kwargs)
    : dict string (content I) * res unit :=
    match get_images result kw with
    | Err e => (fs, Err e)
    | Ok imgs =>
        let names := map (fun p => tmp_name (fst p)) (enumerate imgs) in
        let fs := fold_left (fun fs p => dset (tmp_name (fst p)) (CImage (snd p)) fs) (enumerate imgs) fs in
        let reopen := mapM (fun name => match dget name fs with Some (CImage i) => Ok i | _ => Err ValueError end) names in
        match reopen with
        | Err e => (fs, Err e)
        | Ok [] => (fs, Err IndexError)
        | Ok reloaded =>
            let fs := dset filename (CFrames reloaded) fs in
            fold_left (fun st name => let '(fs, out) := st in
              match out with
              | Err e => (fs, Err e)
              | Ok _ => if dmem name fs then (ddel name fs, Ok tt) else (fs, Err ValueError)
              end) names (fs, Ok tt)
        end
    end.
End Gif.
