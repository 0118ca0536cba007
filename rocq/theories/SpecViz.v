(** Vocabulary for drawings. *)
From Coq Require Import Reals.
From Verif Require Import Prelude Val Arith RealArith LatticeModel StructModel StateModel ResultModel JsonModel AnalyzerModel SpecState VizModel.
Local Open Scope Z_scope.

(** The colour of a value: that of the map, black if it has none. *)
Definition shade (cm : dict val colour) (p : val) : colour := match dget p cm with Some c => c | None => (0, 0, 0) end.

(** Pixels [x0 <= x < x1], [y0 <= y < y1]. *)
Definition inside (x0 x1 y0 y1 x y : Z) : bool := (x0 <=? x) && (x <? x1) && (y0 <=? y) && (y <? y1).

(** Text is written to the right of its position. *)
Definition rightwards (glyphs : Z * Z -> string -> list (Z * Z * colour)) : Prop :=
  forall x y t a b c, In (a, b, c) (glyphs (x, y) t) -> x <= a.

(** [int(x)] of a real number: towards zero. *)
Definition real_int (x : R) : Z := if Rlt_dec x 0 then - zfloor (- x) else zfloor x.

(** A discrete artist that colours values by the map [cm], with the default legend. *)
Definition colours_by (ca : discrete_artist) (cm : dict val colour) : Prop := ca_color_map ca = Some cm /\ ca_legend ca = None.

(** The artist gives every site of the structure its colour [colr]. *)
Definition colours {F} (art : cell_artist) (s : structure F) (st : sstate) (colr : Z -> colour) : Prop :=
  forall i x, get_site s i = Some x -> art_color art (get_site_state st (KInt i)) = Ok (colr i).
(** ... and makes the legend [lg]. *)
Definition paints {F} (art : cell_artist) (s : structure F) (st : sstate) (colr : Z -> colour) (lg : dict string colour) : Prop :=
  colours art s st colr /\ art_legend art st = Ok lg /\ NoDup (dkeys lg).

(** [x == z] for a real coordinate and an integer. *)
Definition real_eq (x : R) (z : Z) : bool := if Req_EM_T x (IZR z) then true else false.

(** The voxel [v] is drawn in colour [c]. *)
Definition voxel (ds : dict colour (list (list Z))) (c : colour) (v : list Z) : Prop := exists l, dget c ds = Some l /\ In v l.

(** Every how many steps a frame is drawn: 1 unless given. *)
Definition every (kw : kwargs) : Z := match kw_draw_freq kw with Some f => f | None => 1 end.
(** The arguments [kw] with the label "Step n". *)
Definition titled (kw : kwargs) (n : nat) : kwargs := mkKw (Some ("Step " ++ str_of_Z (Z.of_nat n))%string) (kw_cell_size kw) (kw_draw_freq kw).
(** The names tmp_pylat_step_0.png, tmp_pylat_step_1.png, ... *)
Definition temporary (k : Z) : string := ("tmp_pylat_step_" ++ str_of_Z k ++ ".png")%string.

(** [T n] is the state after [n] of the updates, for every [n]. *)
Definition visits (init : sstate) (updates : list val) (T : nat -> sstate) : Prop :=
  forall n, (n <= length updates)%nat ->
    fold_left (fun r u => match r with Ok s => batch_update s u | Err e => Err e end) (firstn n updates) (Ok init) = Ok (T n).
