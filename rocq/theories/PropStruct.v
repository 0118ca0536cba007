(** Properties C28, C29, C31-C36, C46: structures and how they are built. *)
From Coq Require Import Reals Lra Permutation Sorted.
From Verif Require Import Prelude Dict Arith RVec RealArith LatticeModel StructModel SpecGeom LatticeFacts LatticeMore Unknown StructMore StructExact StructBuild StructDemo StructFacts SpecNb NbDemo AnalyzerDemo.
Local Open Scope Z_scope.

(** C28. Ids are 0, 1, 2, ... over every history of calls, refused ones included; sites keep class and location. *)
Theorem C28_ids : forall n vs per L calls s outs, lattice_on n vs per L ->
  adds RA (struct_init L) calls = (s, outs) ->
  let acc := accepted calls outs in
  let m := Z.of_nat (length acc) in
  returned outs = zrange 0 m /\ p_ids s = zrange 0 m /\
  (forall i c p, nth_error acc i = Some (c, p) ->
     exists q, periodised n vs per p q /\
       get_site s (Z.of_nat i) = Some (mkSite c (map round3 q) (Z.of_nat i)) /\
       site_class s (Z.of_nat i) = Ok c /\ site_location s (Z.of_nat i) = Ok (map round3 q)) /\
  (forall i, (i < 0 \/ m <= i) -> get_site s i = None).
Proof. exact C28_lemma. Qed.
Print Assumptions C28_ids.
Example C28_example : exists s, adds RA (struct_init line_lattice) [("A"%string, [(9996/10000)%R])] = (s, [Ok 0]).
Proof. destruct edge_adds as (s & E & _). now exists s. Qed.

(** C28. The same for every arithmetic, floating point included: ids are dense and a site never changes later. *)
Theorem C28_ids_any_arithmetic : forall F (A : arith F) L calls s outs, adds A (struct_init L) calls = (s, outs) ->
  let acc := accepted calls outs in
  let m := Z.of_nat (length acc) in
  returned outs = zrange 0 m /\ p_ids s = zrange 0 m /\
  (forall i c p, nth_error acc i = Some (c, p) ->
     exists x, get_site s (Z.of_nat i) = Some x /\ s_class x = c /\ s_id x = Z.of_nat i /\
       forall more, get_site (fst (adds A s more)) (Z.of_nat i) = Some x).
Proof. exact C28_any_lemma. Qed.
Print Assumptions C28_ids_any_arithmetic.
Example C28_any_example : adds RA (struct_init line_lattice) trio = (trio_built, [Ok 0; Ok 1; Err AssertionError]) /\
  accepted trio [Ok 0; Ok 1; Err AssertionError] = [("A"%string, [(13/4)%R]); ("B"%string, [(1/2)%R])].
Proof. split; [exact trio_adds|reflexivity]. Qed.

(** C28. The ids from 0 to the number of sites are known; for all others get_site gives None, site_class and site_location raise TypeError. *)
Theorem C28_unknown_ids : forall F (A : arith F) L s i, built A L s ->
  (0 <= i < Z.of_nat (length (sites s None)) -> exists x, get_site s i = Some x /\ site_class s i = Ok (s_class x) /\ site_location s i = Ok (s_loc x)) /\
  (i < 0 \/ Z.of_nat (length (sites s None)) <= i -> get_site s i = None /\ site_class s i = Err TypeError /\ site_location s i = Err TypeError).
Proof. exact C28_unknown_lemma. Qed.
Print Assumptions C28_unknown_ids.
Example C28_unknown_example : built RA open_line two /\ length (sites two None) = 2%nat.
Proof. split; [exact two_built|]. pose proof two_ids as E. apply (f_equal (@length Z)) in E. now rewrite map_length in E. Qed.

(** C29. A site is found at every periodic image of the point given; None exactly when no added site has the same place. *)
Theorem C29_lookup : forall n vs per L calls s outs, lattice_on n vs per L ->
  adds RA (struct_init L) calls = (s, outs) ->
  let acc := accepted calls outs in
  (forall i c p q, nth_error acc i = Some (c, p) -> image n vs per p q ->
     exists x, get_site s (Z.of_nat i) = Some x /\ s_class x = c /\ s_id x = Z.of_nat i /\
       site_at RA s q = Ok (Some x) /\ id_at RA s q = Ok (Some (Z.of_nat i)) /\ class_at RA s q = Ok (Some c)) /\
  (forall q, length q = n ->
     (exists i c p x, nth_error acc i = Some (c, p) /\ same_place n vs per p q /\
        get_site s (Z.of_nat i) = Some x /\ s_class x = c /\ s_id x = Z.of_nat i /\
        site_at RA s q = Ok (Some x) /\ id_at RA s q = Ok (Some (Z.of_nat i)) /\ class_at RA s q = Ok (Some c)) \/
     ((forall c p, In (c, p) acc -> ~ same_place n vs per p q) /\
        site_at RA s q = Ok None /\ id_at RA s q = Ok None /\ class_at RA s q = Ok None)).
Proof. exact C29_lemma. Qed.
Print Assumptions C29_lookup.
Example C29_example : image 1 [[1%R]] [true] [(1/4)%R] [(13/4)%R].
Proof. exists [3]. split; [repeat constructor; discriminate|]. unfold lincomb, vplus, vscale, vzero; simpl. f_equal. field. Qed.

(** C31. Accepted sites are at different places; a site at an occupied place is refused and nothing changes. *)
Theorem C31_no_duplicates : forall n vs per L calls s outs c p, lattice_on n vs per L ->
  adds RA (struct_init L) calls = (s, outs) ->
  let acc := accepted calls outs in
  (forall i j c1 p1 c2 p2, i <> j -> nth_error acc i = Some (c1, p1) -> nth_error acc j = Some (c2, p2) ->
     ~ same_place n vs per p1 p2) /\
  (length p = n -> (exists c' p', In (c', p') acc /\ same_place n vs per p' p) ->
     add_site RA s c p = (s, Err AssertionError)) /\
  (length p = n -> (forall c' p', In (c', p') acc -> ~ same_place n vs per p' p) ->
     exists s', add_site RA s c p = (s', Ok (Z.of_nat (length acc)))) /\
  (length p <> n -> add_site RA s c p = (s, Err ValueError)).
Proof. exact C31_lemma. Qed.
Print Assumptions C31_no_duplicates.
Example C31_example : same_place 1 [[1%R]] [true] [(1/4)%R] [(13/4)%R].
Proof.
  exists [(1/4)%R], [(1/4)%R]. assert (C : in_cell 1 [[1%R]] [true] [(1/4)%R]).
  { exists [(1/4)%R]. split; [split; [reflexivity|unfold lincomb, vplus, vscale, vzero; simpl; f_equal; field]|].
    constructor; [intros _; lra|constructor]. }
  split; [|split; [|reflexivity]]; split; auto.
  - exists [0]. split; [repeat constructor; discriminate|]. unfold lincomb, vplus, vscale, vzero; simpl. f_equal. field.
  - exists [-3]. split; [repeat constructor; discriminate|]. unfold lincomb, vplus, vscale, vzero; simpl. f_equal. field.
Qed.

(** C31. A refused call changes nothing, in every arithmetic. *)
Theorem C31_refused_any_arithmetic : forall F (A : arith F) s c p s' e, add_site A s c p = (s', Err e) -> s' = s.
Proof. exact C31_any_lemma. Qed.
Print Assumptions C31_refused_any_arithmetic.
Example C31_any_example : add_site RA (struct_init line_lattice) "A"%string [1%R; 2%R] = (struct_init line_lattice, Err ValueError).
Proof.
  destruct (add_site_real 1 line [true] line_lattice line_on [] (struct_init line_lattice) "A"%string [1%R; 2%R] (Inv_init _ _) (NoDup_nil _)) as [[_ E]|(q & X & _)]; [exact E|discriminate].
Qed.

(** C32, part: sites whose rounded location stays in the cell and is not a rounding tie.  Missing: sites that round across the cell boundary (refuted). *)
Theorem C32_reported_location_partial : forall n vs per L calls s outs i c p, lattice_on n vs per L ->
  adds RA (struct_init L) calls = (s, outs) ->
  nth_error (accepted calls outs) i = Some (c, p) -> settled n vs per p ->
  exists loc x, site_location s (Z.of_nat i) = Ok loc /\ get_site s (Z.of_nat i) = Some x /\ site_at RA s loc = Ok (Some x).
Proof. exact C32_lemma. Qed.
Print Assumptions C32_reported_location_partial.
Example C32_settled_example : settled 1 [[1%R]] [true] [(13/4)%R].
Proof.
  exists [(1/4)%R]. assert (C : forall x, (0 <= x < 1)%R -> in_cell 1 [[1%R]] [true] [x]).
  { intros x H. exists [x]. split; [split; [reflexivity|unfold lincomb, vplus, vscale, vzero; simpl; f_equal; ring]|].
    constructor; [intros _; exact H|constructor]. }
  split; [split|split].
  - exists [-3]. split; [repeat constructor; discriminate|]. unfold lincomb, vplus, vscale, vzero; simpl. f_equal. field.
  - apply C. lra.
  - cbn [map]. rewrite (milli 250); [apply C; lra|apply Rabs_def1; lra].
  - constructor; [|constructor]. rewrite (zrint_near _ 250); apply Rabs_def1; lra.
Qed.

(** C32, part: if no period is shorter than 0.002, a site is found at the location it reports exactly when it is settled, i.e. its rounded location stays in the cell and is not a rounding tie. *)
Theorem C32_exactly_when_partial : forall n vs per L calls s outs i c p, lattice_on n vs per L -> coarse n vs per ->
  adds RA (struct_init L) calls = (s, outs) -> nth_error (accepted calls outs) i = Some (c, p) ->
  exists loc x, site_location s (Z.of_nat i) = Ok loc /\ get_site s (Z.of_nat i) = Some x /\ (site_at RA s loc = Ok (Some x) <-> settled n vs per p).
Proof. exact C32_exact_lemma. Qed.
Print Assumptions C32_exactly_when_partial.
Example C32_exact_example : lattice_on 1 line [true] line_lattice /\ coarse 1 line [true] /\ ~ settled 1 line [true] [(9996/10000)%R].
Proof.
  split; [exact line_on|]. split; [exact line_coarse|]. intros ST. destruct edge_adds as (s & E & I).
  destruct (C32_exact_lemma 1 line [true] line_lattice edge s [Ok 0] 0%nat "A" [(9996/10000)%R] line_on line_coarse E eq_refl) as (loc & x & E1 & E2 & H).
  apply H in ST. pose proof (edge_site s I) as G. unfold site_location in E1. cbn [Z.of_nat] in E1. rewrite G in E1. injection E1 as <-. cbn [s_loc] in ST. rewrite (edge_at_1 s I) in ST. discriminate.
Qed.

(** C32 is false: a site at 0.9996 of a unit cell reports 1.0, where nothing is found. *)
Theorem C32_reported_location_refuted : exists n vs per L calls s outs i loc, lattice_on n vs per L /\
  adds RA (struct_init L) calls = (s, outs) /\ outs = [Ok i] /\ site_location s i = Ok loc /\ site_at RA s loc = Ok None.
Proof. exact C32_refuted_lemma. Qed.
Print Assumptions C32_reported_location_refuted.

(** C33. Fractional motifs, every lattice: one site per cell and position, numbered cell by cell; the build raises exactly when two positions coincide. *)
Theorem C33_build_fractional : forall n vs per L k m, lattice_on n vs per L -> length k = n ->
  Forall (fun a => 0 < a) k -> motif_ok n m ->
  let t := tiling k (motif_dict m) (frac_place n vs) in
  (no_collision n (scaled k vs) per t ->
     exists s, build_from RA L k m true = Ok s /\ holds_sites n (scaled k vs) per s t /\
       Z.of_nat (length (sites s None)) = fold_right Z.mul 1 k * Z.of_nat (motif_size (motif_dict m))) /\
  (~ no_collision n (scaled k vs) per t -> build_from RA L k m true = Err AssertionError).
Proof. exact C33_fractional_lemma. Qed.
Print Assumptions C33_build_fractional.
Example C33_example : tiling [1; 2] [("A"%string, [[0; 0]%R])] (frac_place 2 [[2; 0]; [1; 2]]%R) = [("A"%string, [0; 0]%R); ("A"%string, [1; 2]%R)].
Proof. unfold tiling, frac_place, lincomb, vplus, vscale, vzero; simpl. repeat (f_equal; try lra). Qed.

(** C33, part: Cartesian motifs on lattices with a symmetric matrix.  Missing: other lattices (refuted). *)
Theorem C33_build_cartesian_partial : forall n vs per L k m, lattice_on n vs per L -> symmetric n vs -> length k = n ->
  Forall (fun a => 0 < a) k -> motif_ok n m ->
  let t := tiling k (motif_dict m) (cart_place n vs) in
  (no_collision n (scaled k vs) per t ->
     exists s, build_from RA L k m false = Ok s /\ holds_sites n (scaled k vs) per s t /\
       Z.of_nat (length (sites s None)) = fold_right Z.mul 1 k * Z.of_nat (motif_size (motif_dict m))) /\
  (~ no_collision n (scaled k vs) per t -> build_from RA L k m false = Err AssertionError).
Proof. exact C33_cartesian_lemma. Qed.
Print Assumptions C33_build_cartesian_partial.
Example C33_symmetric_example : symmetric 2 [[3; 0]; [0; 5]]%R.
Proof.
  intros [|x [|y [|]]] H; try discriminate. unfold lincomb, vplus, vscale, vzero, vdot; simpl. repeat (f_equal; try ring).
Qed.

(** C33 is false for Cartesian motifs: with vectors (2,0), (1,2) the second cell is built at the wrong place. *)
Theorem C33_build_cartesian_refuted : exists n vs per L k m s, lattice_on n vs per L /\ length k = n /\
  Forall (fun a => 0 < a) k /\ motif_ok n m /\
  no_collision n (scaled k vs) per (tiling k (motif_dict m) (cart_place n vs)) /\
  build_from RA L k m false = Ok s /\
  ~ holds_sites n (scaled k vs) per s (tiling k (motif_dict m) (cart_place n vs)).
Proof. exact C33_refuted_lemma. Qed.
Print Assumptions C33_build_cartesian_refuted.

(** C34. Sizes of the wrong length raise, an integer means a cube. *)
Theorem C34_size : forall F (A : arith F) (b : builder F),
  (forall l, length l <> l_dim (b_lattice b) -> build A b (SzTuple l) = Err ValueError) /\
  (forall k, build A b (SzInt k) = build A b (SzTuple (repeat k (l_dim (b_lattice b))))).
Proof. exact C34_lemma. Qed.
Print Assumptions C34_size.
Example C34_size_example : build RA (mkBuilder line_lattice (MList [[0%R]]) true) (SzTuple [2; 3]) = Err ValueError.
Proof. reflexivity. Qed.

(** C35, part: structures of settled sites come back equal.  Missing: sites whose rounded location leaves the cell (refuted). *)
Theorem C35_roundtrip_partial : forall n vs per L calls s outs, lattice_on n vs per L ->
  adds RA (struct_init L) calls = (s, outs) ->
  Forall (fun x => settled n vs per (snd x)) (accepted calls outs) ->
  struct_from_dict RA (struct_json s) = Ok s.
Proof. exact C35_lemma. Qed.
Print Assumptions C35_roundtrip_partial.
Example C35_roundtrip_example : adds RA (struct_init line_lattice) trio = (trio_built, [Ok 0; Ok 1; Err AssertionError]) /\
  Forall (fun x => settled 1 line [true] (snd x)) (accepted trio [Ok 0; Ok 1; Err AssertionError]).
Proof. split; [exact trio_adds|exact trio_settled]. Qed.

(** C35, part: if no period is shorter than 0.002, a structure comes back equal exactly when all its sites are settled. *)
Theorem C35_exactly_when_partial : forall n vs per L calls s outs, lattice_on n vs per L -> coarse n vs per ->
  adds RA (struct_init L) calls = (s, outs) ->
  (struct_from_dict RA (struct_json s) = Ok s <-> Forall (fun x => settled n vs per (snd x)) (accepted calls outs)).
Proof. exact C35_exact_lemma. Qed.
Print Assumptions C35_exactly_when_partial.
Example C35_exact_example : lattice_on 1 line [true] line_lattice /\ coarse 1 line [true] /\ (exists s, adds RA (struct_init line_lattice) edge = (s, [Ok 0]) /\ struct_from_dict RA (struct_json s) <> Ok s) /\
  struct_from_dict RA (struct_json trio_built) = Ok trio_built.
Proof.
  split; [exact line_on|]. split; [exact line_coarse|]. split.
  - destruct edge_adds as (s & E & I). exists s. split; [exact E|]. intros X.
    apply (C35_exact_lemma 1 line [true] line_lattice edge s [Ok 0] line_on line_coarse E) in X. inversion X as [|? ? ST _]; subst. cbn [snd] in ST.
    destruct (C32_exact_lemma 1 line [true] line_lattice edge s [Ok 0] 0%nat "A" [(9996/10000)%R] line_on line_coarse E eq_refl) as (loc & x & E1 & E2 & H).
    apply H in ST. pose proof (edge_site s I) as G. unfold site_location in E1. cbn [Z.of_nat] in E1. rewrite G in E1. injection E1 as <-. cbn [s_loc] in ST. rewrite (edge_at_1 s I) in ST. discriminate.
  - exact (C35_lemma 1 line [true] line_lattice trio trio_built _ line_on trio_adds trio_settled).
Qed.

(** C35 is false: a site at 0.9996 of a unit cell moves to 0 when reloaded. *)
Theorem C35_roundtrip_refuted : exists n vs per L calls s outs s', lattice_on n vs per L /\
  adds RA (struct_init L) calls = (s, outs) /\ struct_from_dict RA (struct_json s) = Ok s' /\
  site_location s' 0 <> site_location s 0 /\
  exists p x, site_at RA s p = Ok (Some x) /\ site_at RA s' p = Ok None.
Proof. exact C35_refuted_lemma. Qed.
Print Assumptions C35_roundtrip_refuted.

(** C36. Classes partition the sites. *)
Theorem C36_classes : forall F (A : arith F) L calls s outs ord, adds A (struct_init L) calls = (s, outs) ->
  (forall l, Permutation (ord l) l) ->
  map s_id (sites s None) = zrange 0 (Z.of_nat (length (accepted calls outs))) /\
  map s_class (sites s None) = map fst (accepted calls outs) /\
  (forall c, sites s (Some c) = filter (fun x => String.eqb (s_class x) c) (sites s None)) /\
  NoDup (all_site_classes ord s) /\
  (forall c, In c (all_site_classes ord s) <-> exists x, In x (sites s None) /\ s_class x = c) /\
  Permutation (flat_map (fun c => sites s (Some c)) (all_site_classes ord s)) (sites s None).
Proof. exact C36_lemma. Qed.
Print Assumptions C36_classes.
Example C36_example : map s_id (sites trio_built None) = [0; 1] /\ map s_class (sites trio_built None) = ["A"; "B"]%string.
Proof.
  destruct (C36_lemma R RA line_lattice trio trio_built _ (fun l => l) trio_adds) as (E1 & E2 & _); [reflexivity|]. split; [exact E1|exact E2].
Qed.

(** C46. Points in a box: all, once, in lexicographic order. *)
Theorem C46_points : forall lbs ubs, length lbs = length ubs ->
  (forall p, In p (get_points_in_box lbs ubs) <->
     length p = length lbs /\
     forall i x a b, nth_error p i = Some x -> nth_error lbs i = Some a -> nth_error ubs i = Some b -> a <= x < b) /\
  NoDup (get_points_in_box lbs ubs) /\ StronglySorted lex_lt (get_points_in_box lbs ubs) /\
  (forall lb ub dim p, In p (get_points_in_cube lb ub dim) <-> length p = dim /\ Forall (fun x => lb <= x < ub) p).
Proof. exact C46_lemma. Qed.
Print Assumptions C46_points.
Example C46_example : get_points_in_box [-1; 2] [1; 4] = [[-1; 2]; [-1; 3]; [0; 2]; [0; 3]].
Proof. reflexivity. Qed.
