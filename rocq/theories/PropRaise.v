(** Property C132: what drawing raises. *)
From Coq Require Import Reals Lra Permutation.
From Verif Require Import Prelude Dict Val Arith RealArith LatticeModel StructModel StateModel ResultModel NbModel GridModel SetupModel AnalyzerModel VizModel SpecState SpecGeom SpecNb SpecGrid SpecAnalyze SpecViz GridNb GridFacts GridMore StructMore VizDemo StructFacts LatticeFacts NbFacts VizRaise.
Local Open Scope Z_scope.

(** C132. What colouring a cell raises. *)
Theorem C132_cell : forall ca, get_color ca None = Err TypeError /\
  (forall d, dget (ca_state_key ca) d = None -> get_color ca (Some d) = Err KeyError) /\
  (forall d v, dget (ca_state_key ca) d = Some v ->
     (ca_color_map ca = None \/ hashable v = false -> get_color ca (Some d) = Err TypeError) /\
     (forall cm, ca_color_map ca = Some cm -> hashable v = true -> get_color ca (Some d) = Ok (shade cm v))).
Proof. exact C132_cell_lemma. Qed.
Print Assumptions C132_cell.
Example C132_cell_example : get_color value_artist (Some [(KStr "value", VInt 7)]) = Ok (9, 8, 7) /\ get_color value_artist (Some [(KStr "x", VInt 7)]) = Err KeyError /\
  get_color value_artist (Some [(KStr "value", VList [])]) = Err TypeError.
Proof. repeat split. Qed.

(** C132. What making colour maps raises. *)
Theorem C132_maps : forall phases,
  (forallb hashable phases = true -> exists cm, build_color_map phases = Ok cm) /\
  (forallb hashable phases = false -> build_color_map phases = Err TypeError) /\
  (forall pre p post, phases = pre ++ p :: post -> forallb hashable pre = true ->
     ((length pre < 70)%nat -> hashable p = false -> color_map phases = Err TypeError) /\
     (length pre = 70%nat -> color_map phases = Err IndexError)) /\
  (forallb hashable phases = true -> (length phases <= 70)%nat -> exists cm, color_map phases = Ok cm).
Proof. exact C132_maps_lemma. Qed.
Print Assumptions C132_maps.
Example C132_maps_example : forallb hashable (map VInt (zrange 0 70)) = true /\ length (map VInt (zrange 0 70)) = 70%nat /\ hashable (VTuple [VInt 1; VDict []]) = false /\
  build_color_map [VInt 1; VTuple [VInt 1; VDict []]] = Err TypeError.
Proof. repeat split. Qed.

(** C132. What drawing plane grids raises. *)
Theorem C132_drawing : forall n0 n1 s art st glyphs label cs, square_grid [n0; n1] s ->
  (forall e, art_legend art st = Err e -> draw_2d RA real_int glyphs s art st label cs = Err e) /\
  (forall lg, art_legend art st = Ok lg ->
     (cs < 0 -> draw_2d RA real_int glyphs s art st label cs = Err ValueError) /\
     (cs = 0 -> forall colr, colours art s st colr -> exists im, draw_2d RA real_int glyphs s art st label cs = Ok im /\ im_w im = 5 /\ im_h im = 0) /\
     (0 <= cs -> n1 <= n0 -> forall pre x post e, sites s None = pre ++ x :: post ->
        (forall y, In y pre -> exists c, art_color art (get_site_state st (KInt (s_id y))) = Ok c) -> art_color art (get_site_state st (KInt (s_id x))) = Err e ->
        draw_2d RA real_int glyphs s art st label cs = Err e)).
Proof. exact C132_drawing_lemma. Qed.
Print Assumptions C132_drawing.
Example C132_drawing_example : exists s st lg pre x post, square_grid [2; 2] s /\ art_legend (as_artist demo_str value_artist) st = Ok lg /\ sites s None = pre ++ x :: post /\ pre <> [] /\
  (forall y, In y pre -> exists c, art_color (as_artist demo_str value_artist) (get_site_state st (KInt (s_id y))) = Ok c) /\ art_color (as_artist demo_str value_artist) (get_site_state st (KInt (s_id x))) = Err TypeError.
Proof.
  destruct (C67_exists_lemma [2; 2]) as [s SG]; [repeat constructor; lia|auto|]. destruct (square_facts _ _ SG) as [L G]. exists s, (mkS [(KInt 0, [(KStr "value", VInt 7)])] []).
  pose proof (built_dense RA L s (gf_built _ _ _ G) : _ = _) as D. pose proof (gf_count _ _ _ G) as N.
  destruct (sites s None) as [|y [|x [|x2 [|x3 [|]]]]] eqn:E; try (cbn in N; lia). injection D as Dy Dx _ _.
  eexists. exists [y], x, [x2; x3]. split; [exact SG|]. split; [reflexivity|]. split; [reflexivity|]. split; [discriminate|]. split.
  - intros z [<-|[]]. rewrite Dy. eexists. reflexivity.
  - rewrite Dx. reflexivity.
Qed.

(** C132. The voxel artist on plane grids. *)
Theorem C132_flat : forall n0 n1 s art st colr cube_root shell, square_grid [n0; n1] s -> colours art s st colr ->
  let sz := cube_root (size st) in
  ((n0 <= sz /\ shell = false \/ n0 = 1) /\ n1 <= sz /\ 1 <= sz -> image_3d real_int real_eq cube_root s art st shell = Err ValueError) /\
  (~ ((n0 <= sz /\ shell = false \/ n0 = 1) /\ n1 <= sz /\ 1 <= sz) -> image_3d real_int real_eq cube_root s art st shell = Err IndexError).
Proof. exact C132_flat_lemma. Qed.
Print Assumptions C132_flat.
Example C132_flat_example : exists s, square_grid [4; 2] s /\ colours (plain_artist (fun _ => Ok (1, 2, 3)) (fun _ => Ok "cell"%string)) s (mkS [] []) (fun _ => (1, 2, 3)).
Proof. destruct (C67_exists_lemma [4; 2]) as [s SG]; [repeat constructor; lia|auto|]. exists s. split; [exact SG|]. intros i x _. reflexivity. Qed.

(** C132. Boxes of which only the shell is drawn. *)
Theorem C132_shell : forall s art st colr n0 n1 n2 cube_root, square_grid [n0; n1; n2] s -> colours art s st colr ->
  let sz := cube_root (size st) in
  (n1 <= sz /\ n2 <= sz /\ 1 <= sz -> exists ds, draw_3d real_int real_eq cube_root s art st true = Ok (sz, ds) /\
     forall c v, voxel ds c v <-> exists x z i, v = [x; 0; z] /\ 0 <= x < n1 /\ 0 <= z < n2 /\ cell s v i /\ c = colr i) /\
  (sz < n1 \/ sz < n2 \/ sz < 1 -> draw_3d real_int real_eq cube_root s art st true = Err IndexError).
Proof. exact C132_shell_lemma. Qed.
Print Assumptions C132_shell.
Example C132_shell_example : exists s, square_grid [9; 2; 3] s /\ colours (plain_artist (fun _ => Ok (1, 2, 3)) (fun _ => Ok "cell"%string)) s (mkS [] []) (fun _ => (1, 2, 3)) /\ (2 <= 3 /\ 3 <= 3 /\ 1 <= 3).
Proof. destruct (C67_exists_lemma [9; 2; 3]) as [s SG]; [repeat constructor; lia|auto|]. exists s. split; [exact SG|]. split; [intros i x _; reflexivity|lia]. Qed.
