(** Drawings of boxes (C71) and of steps beyond the last one (C101). *)
From Coq Require Import Reals.
From Verif Require Import Prelude Dict Val Arith RealArith LatticeModel StructModel StateModel ResultModel SetupModel AnalyzerModel VizModel
  SpecState SpecResult SpecGeom SpecNb SpecGrid SpecSetup SpecAnalyze SpecViz ResultFacts StepBeyond VoxFacts.
Local Open Scope Z_scope.

Lemma C101_beyond_lemma : forall I (get_img : sstate -> kwargs -> res I) init h n cell_size,
  let r := fold_left apply_rop h (new_result init) in
  rlen r <= n -> jupyter_show_step get_img r n cell_size = Err (match replay init (added h) (length (added h)) with Ok _ => IndexError | Err e => e end).
Proof. intros I get_img init h n cell_size r L. unfold jupyter_show_step. unfold r. now rewrite C08_exception_lemma. Qed.

Lemma C71_fitting_lemma : forall s art st colr n0 n1 n2 cube_root shell, square_grid [n0; n1; n2] s -> colours art s st colr ->
  n0 <= cube_root (size st) -> n1 <= cube_root (size st) -> n2 <= cube_root (size st) ->
  exists ds, draw_3d real_int real_eq cube_root s art st shell = Ok (cube_root (size st), ds) /\
    forall c v, voxel ds c v <-> exists x y z i, v = [x; y; z] /\ 0 <= x < n1 /\ 0 <= y < n0 /\ 0 <= z < n2 /\ cell s v i /\ c = colr i /\ (shell = true -> y = 0).
Proof.
  intros s art st colr n0 n1 n2 cube_root shell SG CO B0 B1 B2.
  destruct (draw_3d_all real_int real_eq (fun a b c i => cell s [a; b; c] i) s art st colr n0 n1 n2 cube_root shell (screen3_real s n0 n1 n2 SG) CO B0 B1 B2) as (ds & E & H).
  exists ds. split; [exact E|]. intros c v. rewrite H. split; intros (x & y & z & i & -> & K); exists x, y, z, i; (split; [reflexivity|exact K]).
Qed.
