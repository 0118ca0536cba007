(** Drawings of 2D grids. *)
From Coq Require Import Reals Lra Permutation Sorted.
From Verif Require Import Prelude Dict Val Arith RVec RealArith LatticeModel StructModel StateModel ResultModel NbModel GridModel SetupModel AnalyzerModel VizModel
  SpecState SpecGeom SpecNb SpecGrid SpecAnalyze SpecViz StateFacts LatticeFacts StructFacts NbFacts NbMore GridFacts GridMore SpecSetup SetupFacts AnalyzerFacts AnalyzerMore VizFacts.
Local Open Scope Z_scope.

Definition in_image (im : picture) (p : Z * Z) : Prop := 0 <= fst p < im_w im /\ 0 <= snd p < im_h im.
Lemma put_ok im x y c : in_image im (x, y) -> put im x y c = Ok (mkImage (im_w im) (im_h im) (fun a b => if (a =? x) && (b =? y) then c else im_px im a b)).
Proof.
  intros [H1 H2]. cbn [fst snd] in *. unfold put. destruct (Z.ltb_spec x 0); [lia|]. destruct (Z.ltb_spec y 0); [lia|]. rewrite !Z.geb_leb.
  destruct (Z.ltb_spec x 0); [lia|]. destruct (Z.leb_spec (im_w im) x); [lia|]. destruct (Z.ltb_spec y 0); [lia|]. destruct (Z.leb_spec (im_h im) y); [lia|]. reflexivity.
Qed.
Lemma put_out im x y c : 0 <= x -> 0 <= y -> ~ in_image im (x, y) -> put im x y c = Err IndexError.
Proof.
  intros H1 H2 N. unfold put. destruct (Z.ltb_spec x 0); [lia|]. destruct (Z.ltb_spec y 0); [lia|]. rewrite !Z.geb_leb.
  destruct (Z.ltb_spec x 0); [lia|]. destruct (Z.ltb_spec y 0); [lia|]. destruct (Z.leb_spec (im_w im) x); [reflexivity|]. destruct (Z.leb_spec (im_h im) y); [reflexivity|]. exfalso. apply N. split; cbn; lia.
Qed.
Definition puts (ps : list (Z * Z)) (c : colour) (im : picture) : res picture := foldM (fun im p => put im (fst p) (snd p) c) ps im.
Lemma nested_puts (xs ys : list Z) (f g : Z -> Z -> Z) c : forall im,
  foldM (fun im x => foldM (fun im y => put im (f x y) (g x y) c) ys im) xs im = puts (flat_map (fun x => map (fun y => (f x y, g x y)) ys) xs) c im.
Proof.
  induction xs as [|x xs IH]; intros im; [reflexivity|]. cbn [foldM flat_map]. unfold puts. rewrite foldM_app.
  assert (E : forall im, foldM (fun im p => put im (fst p) (snd p) c) (map (fun y => (f x y, g x y)) ys) im = foldM (fun im y => put im (f x y) (g x y) c) ys im).
  { clear IH. induction ys as [|y l IHy]; intros i; [reflexivity|]. cbn [map foldM fst snd]. destruct (put i (f x y) (g x y) c); cbn [bind]; auto. }
  rewrite E. destruct (foldM _ ys im) as [im'|e]; cbn [bind]; [apply IH|reflexivity].
Qed.
(** [im'] is [im] with the points satisfying [P] painted. *)
Definition painted (im : picture) (P : Z -> Z -> Prop) (c : colour) (im' : picture) : Prop :=
  im_w im' = im_w im /\ im_h im' = im_h im /\ (forall a b, P a b -> im_px im' a b = c) /\ (forall a b, ~ P a b -> im_px im' a b = im_px im a b).
Lemma puts_ok c ps : forall im, (forall p, In p ps -> in_image im p) -> exists im', puts ps c im = Ok im' /\ painted im (fun a b => In (a, b) ps) c im'.
Proof.
  induction ps as [|[x y] ps IH]; intros im H.
  - exists im. split; [reflexivity|]. split; auto. split; auto. split; [intros a b []|auto].
  - unfold puts. cbn [foldM fst snd]. rewrite put_ok by (apply H; simpl; auto). cbn [bind]. edestruct IH as (im' & E & W & Hh & P1 & P2); [|exists im'; split; [exact E|]].
    + intros p Hp. specialize (H p (or_intror Hp)). exact H.
    + cbn [im_w im_h im_px] in *. split; [exact W|]. split; [exact Hh|]. assert (DEC : forall a b, {In (a, b) ps} + {~ In (a, b) ps}) by (intros; apply in_dec; decide equality; apply Z.eq_dec). split.
      * intros a b [E'|Hin]; [|auto]. injection E' as -> ->. destruct (DEC a b) as [I|N]; [auto|]. rewrite P2 by auto. now rewrite !Z.eqb_refl.
      * intros a b N. rewrite P2 by (intros X; apply N; simpl; auto). destruct (Z.eqb_spec a x) as [->|]; [|reflexivity]. destruct (Z.eqb_spec b y) as [->|]; [|reflexivity]. exfalso. apply N. simpl; auto.
Qed.
Lemma puts_out c ps : forall im, (forall p, In p ps -> 0 <= fst p /\ 0 <= snd p) -> (exists im', puts ps c im = Ok im' /\ im_w im' = im_w im /\ im_h im' = im_h im /\ forall p, In p ps -> in_image im p) \/ puts ps c im = Err IndexError.
Proof.
  induction ps as [|[x y] ps IH]; intros im H; [left; exists im; repeat split; destruct H0|]. unfold puts. cbn [foldM fst snd].
  destruct (H (x, y) (or_introl eq_refl)) as [H1 H2]. cbn [fst snd] in H1, H2.
  assert (DEC : in_image im (x, y) \/ ~ in_image im (x, y)) by (unfold in_image; cbn [fst snd]; lia).
  destruct DEC as [D|D]; [|right; rewrite put_out by auto; reflexivity]. rewrite put_ok by auto. cbn [bind].
  edestruct IH as [(im' & E & W & Hh & A)|E]; [intros p Hp; apply H; simpl; auto| |right; exact E]. left. exists im'. split; [exact E|]. cbn [im_w im_h] in *. split; auto. split; auto.
  intros p [<-|Hp]; auto. specialize (A p Hp). exact A.
Qed.
Lemma rect_In x0 x1 y0 y1 a b : In (a, b) (flat_map (fun x => map (fun y => (x, y)) (zrange y0 y1)) (zrange x0 x1)) <-> inside x0 x1 y0 y1 a b = true.
Proof.
  rewrite in_flat_map. unfold inside. rewrite !Bool.andb_true_iff, !Z.leb_le, !Z.ltb_lt. split.
  - intros (x & Hx & H). apply in_map_iff in H as (y & E & Hy). injection E as -> ->. apply zrange_In in Hx, Hy. lia.
  - intros H. exists a. split; [apply zrange_In; lia|]. apply in_map_iff. exists b. split; auto. apply zrange_In; lia.
Qed.
Lemma fill_puts im x0 x1 y0 y1 c : fill im x0 x1 y0 y1 c = puts (flat_map (fun x => map (fun y => (x, y)) (zrange y0 y1)) (zrange x0 x1)) c im.
Proof. unfold fill. apply (nested_puts _ _ (fun x _ => x) (fun _ y => y)). Qed.
Lemma painted_iff im P Q c im' : (forall a b, P a b <-> Q a b) -> painted im P c im' -> painted im Q c im'.
Proof. intros E (W & Hh & P1 & P2). split; auto. split; auto. split; intros a b H; [apply P1, E|apply P2]; auto. intros X. apply H, E, X. Qed.
Lemma fill_ok im x0 x1 y0 y1 c : 0 <= x0 -> x1 <= im_w im -> 0 <= y0 -> y1 <= im_h im -> exists im', fill im x0 x1 y0 y1 c = Ok im' /\ painted im (fun a b => inside x0 x1 y0 y1 a b = true) c im'.
Proof.
  intros. rewrite fill_puts. destruct (puts_ok c (flat_map (fun x => map (fun y => (x, y)) (zrange y0 y1)) (zrange x0 x1)) im) as (im' & E & P).
  - intros [a b] H3. apply rect_In in H3. unfold inside in H3. rewrite !Bool.andb_true_iff, !Z.leb_le, !Z.ltb_lt in H3. split; cbn; lia.
  - exists im'. split; auto. eapply painted_iff; [|exact P]. intros a b. apply rect_In.
Qed.

(** Text *)
Lemma text_frame glyphs im pos t : let im' := draw_text glyphs im pos t in im_w im' = im_w im /\ im_h im' = im_h im /\
  (forall a b, (forall c, ~ In (a, b, c) (glyphs pos t)) -> im_px im' a b = im_px im a b) /\
  (forall a b, in_image im (a, b) -> im_px im' a b = im_px im a b \/ exists c, In (a, b, c) (glyphs pos t) /\ im_px im' a b = c) /\
  (forall a b c, in_image im (a, b) -> In (a, b, c) (glyphs pos t) -> exists c', In (a, b, c') (glyphs pos t) /\ im_px im' a b = c').
Proof.
  unfold draw_text. generalize (glyphs pos t) as gs. clear pos t. intros gs. revert im. induction gs as [|[[x y] c] gs IH]; intros im; cbn [fold_left].
  - split; auto. split; auto. split; auto. split; auto. intros a b c' _ [].
  - match goal with |- context [fold_left _ gs ?i] => set (im1 := i) end. assert (WH : im_w im1 = im_w im /\ im_h im1 = im_h im) by (unfold im1; destruct (_ || _); auto).
    destruct (IH im1) as (W & Hh & P1 & P2 & P3). destruct WH as [W1 H1]. split; [congruence|]. split; [congruence|].
    assert (KEEP : forall a b, (a, b) <> (x, y) -> im_px im1 a b = im_px im a b).
    { intros a b N. unfold im1. destruct (_ || _ || _ || _); [reflexivity|]. cbn [im_px]. destruct (Z.eqb_spec a x) as [->|]; [|reflexivity]. destruct (Z.eqb_spec b y) as [->|]; [|reflexivity]. congruence. }
    assert (SET : in_image im (x, y) -> im_px im1 x y = c).
    { intros [X1 X2]. cbn [fst snd] in *. unfold im1. rewrite !Z.geb_leb. destruct (Z.ltb_spec x 0); [lia|]. destruct (Z.leb_spec (im_w im) x); [lia|]. destruct (Z.ltb_spec y 0); [lia|]. destruct (Z.leb_spec (im_h im) y); [lia|]. cbn [orb im_px]. now rewrite !Z.eqb_refl. }
    assert (DEC : forall a b, (a, b) = (x, y) \/ (a, b) <> (x, y)) by (intros a b; destruct (Z.eq_dec a x), (Z.eq_dec b y); [left; congruence|right; congruence..]).
    split; [|split].
    + intros a b H. rewrite P1 by (intros c' Hc; apply (H c'); simpl; auto). apply KEEP. intros E. injection E as -> ->. apply (H c). simpl; auto.
    + intros a b HI. assert (HI1 : in_image im1 (a, b)) by (unfold in_image in *; cbn [fst snd] in *; rewrite W1, H1; auto). destruct (P2 a b HI1) as [E|(c' & Hc & E)].
      * destruct (DEC a b) as [D|D]; [|left; rewrite E; auto]. injection D as -> ->. right. exists c. split; [simpl; auto|]. rewrite E. auto.
      * right. exists c'. simpl; auto.
    + intros a b c0 HI Hin. assert (HI1 : in_image im1 (a, b)) by (unfold in_image in *; cbn [fst snd] in *; rewrite W1, H1; auto).
      destruct (P2 a b HI1) as [E|(c' & Hc & E)]; [|exists c'; simpl; auto].
      destruct (DEC a b) as [D|D]; [injection D as -> ->; exists c; split; [simpl; auto|]; rewrite E; auto|].
      destruct Hin as [E'|Hin]; [exfalso; apply D; congruence|]. destruct (P3 a b c0 HI1 Hin) as (c' & Hc & Ec). exists c'. simpl; auto.
Qed.

(** Sorting *)
Lemma insert_perm s l : Permutation (s :: l) (insert_sorted s l).
Proof. induction l as [|t r IH]; cbn [insert_sorted]; auto. destruct (String.leb s t); auto. etransitivity; [apply perm_swap|]. now constructor. Qed.
Lemma sorted_perm l : Permutation l (sorted l).
Proof. unfold sorted. induction l as [|s l IH]; cbn [fold_right]; auto. etransitivity; [constructor; exact IH|]. apply insert_perm. Qed.
Lemma sorted_sorted l : Sorted (fun a b => String.leb a b = true) (sorted l).
Proof.
  unfold sorted. induction l as [|s l IH]; cbn [fold_right]; [constructor|]. revert IH. generalize (fold_right insert_sorted [] l) as m. induction m as [|t r IHm]; intros S; cbn [insert_sorted]; [repeat constructor|].
  destruct (String.leb s t) eqn:E; [constructor; auto|]. assert (E' : String.leb t s = true) by (destruct (String.leb_total s t); congruence).
  inversion S as [|? ? S1 S2]; subst. constructor; [auto|]. destruct r as [|u r]; cbn [insert_sorted]; [constructor; auto|]. destruct (String.leb s u); constructor; auto. inversion S2; auto.
Qed.

Lemma square_first size s k t : square_grid size s -> size = k :: t -> list_getE (vec_lengths RA (p_lattice s)) 0 = Ok (IZR k) /\ p_dim s = length size.
Proof.
  intros SG ES. destruct (setup_grid (length size) (SzTuple size)) as (s' & L & E & SG' & _ & PD & FL).
  - split; [|split; [auto|apply SG]]. destruct SG as [_ [[D _]|[D _]]]; auto.
  - assert (s = s').
    { destruct SG as [P [[D (b & Eb & Es)]|[D (b & Eb & Es)]]]; unfold build_structure, setup_builder in E; rewrite D in E;
      cbn [Z.of_nat Z.eqb Pos.of_succ_nat Pos.succ Pos.eqb] in E; rewrite Eb in E; cbn [bind] in E; congruence. }
    subst s'. split; auto. apply (FL k t). exact ES.
Qed.
Lemma real_int_IZR z : real_int (IZR z) = z.
Proof. unfold real_int. destruct (Rlt_dec (IZR z) 0). rewrite <- opp_IZR, zfloor_IZR. lia. apply zfloor_IZR. Qed.

(** What the drawing needs to know about a grid: [P a b i] says that site [i] is
    at the integer point [(a, b)]. *)
Record screen {F} (A : arith F) (trunc : F -> Z) (s : structure F) (n0 n1 cs : Z) (P : Z -> Z -> Z -> Prop) : Prop := {
  sc_first : exists v, list_getE (vec_lengths A (p_lattice s)) 0 = Ok v /\ trunc v = n0;
  sc_pos : 0 < n0 /\ 0 < n1;
  sc_get : forall x, In x (sites s None) -> get_site s (s_id x) = Some x;
  sc_all : forall x, In x (sites s None) -> exists a b, 0 <= a < n1 /\ 0 <= b < n0 /\ P a b (s_id x);
  sc_loc : forall x a b, In x (sites s None) -> 0 <= a < n1 -> 0 <= b < n0 -> P a b (s_id x) -> exists l0 l1, s_loc x = [l0; l1] /\
    trunc (a_mul A l0 (a_ofZ A cs)) = a * cs /\ trunc (a_mul A (a_sub A (a_ofZ A (n0 - 1)) l1) (a_ofZ A cs)) = (n0 - 1 - b) * cs;
  sc_fun : forall a b i j, 0 <= a < n1 -> 0 <= b < n0 -> P a b i -> P a b j -> i = j;
  sc_inj : forall a b a' b' i, 0 <= a < n1 -> 0 <= b < n0 -> 0 <= a' < n1 -> 0 <= b' < n0 -> P a b i -> P a' b' i -> a = a' /\ b = b';
  sc_site : forall a b, 0 <= a < n1 -> 0 <= b < n0 -> exists x, In x (sites s None) /\ P a b (s_id x) }.

(** ** The stages of the drawing *)
Section Stages.
  Context {F : Type} (A : arith F) (trunc : F -> Z).
  Variables (s : structure F) (art : cell_artist) (colr : Z -> colour) (st : sstate) (n0 n1 cs : Z) (P : Z -> Z -> Z -> Prop).
  Hypothesis G : screen A trunc s n0 n1 cs P.
  Hypothesis CO : forall i x, get_site s i = Some x -> art_color art (get_site_state st (KInt i)) = Ok (colr i).
  Hypothesis CS : 1 <= cs.

  (** Site [x] is at the integer point [(a, b)]. *)
  Definition sits (x : site F) (a b : Z) : Prop := In x (sites s None) /\ 0 <= a < n1 /\ 0 <= b < n0 /\ P a b (s_id x).
  Lemma sits_all x : In x (sites s None) -> exists a b, sits x a b.
  Proof. intros Hx. destruct (sc_all _ _ _ _ _ _ _ G x Hx) as (a & b & Ba & Bb & C). exists a, b. repeat (split; auto). Qed.
  Lemma sits_same x y a b : sits x a b -> sits y a b -> s_id x = s_id y.
  Proof. intros (_ & Ba & Bb & C1) (_ & _ & _ & C2). eapply (sc_fun _ _ _ _ _ _ _ G); eauto. Qed.
  Lemma sits_loc x a b a' b' : sits x a b -> sits x a' b' -> a = a' /\ b = b'.
  Proof. intros (_ & Ba & Bb & C1) (_ & Ba' & Bb' & C2). eapply (sc_inj _ _ _ _ _ _ _ G); eauto. Qed.
  Definition site_colour (x : site F) : colour := colr (s_id x).

  Definition draw_site (im : picture) (site : site F) : res picture :=
    let loc := s_loc site in
    do cell_color <- art_color art (get_site_state st (KInt (s_id site)));
    do l0 <- list_getE loc 0;
    let p_x_start := trunc (a_mul A l0 (a_ofZ A cs)) in
    do l1 <- list_getE loc 1;
    let p_y_start := trunc (a_mul A (a_sub A (a_ofZ A (n0 - 1)) l1) (a_ofZ A cs)) in
    fill im p_x_start (p_x_start + cs) p_y_start (p_y_start + cs) cell_color.
  Lemma draw_site_fill x a b im : sits x a b -> draw_site im x = fill im (a * cs) (a * cs + cs) ((n0 - 1 - b) * cs) ((n0 - 1 - b) * cs + cs) (site_colour x).
  Proof.
    intros (Hx & Ba & Bb & C). destruct (sc_loc _ _ _ _ _ _ _ G x a b Hx Ba Bb C) as (l0 & l1 & El & E0 & E1). unfold draw_site.
    rewrite (CO (s_id x) x) by (apply (sc_get _ _ _ _ _ _ _ G); auto). cbn [bind]. rewrite El.
    change (list_getE [l0; l1] 0) with (Ok l0). change (list_getE [l0; l1] 1) with (Ok l1). cbn [bind]. rewrite E0, E1. reflexivity.
  Qed.
  Definition block (a b x y : Z) : Prop := inside (a * cs) (a * cs + cs) ((n0 - 1 - b) * cs) ((n0 - 1 - b) * cs + cs) x y = true.
  Lemma block_unique a b a' b' x y : block a b x y -> block a' b' x y -> a = a' /\ b = b'.
  Proof. unfold block, inside. rewrite !Bool.andb_true_iff, !Z.leb_le, !Z.ltb_lt. intros. split; nia. Qed.

  Lemma grid_stage im : n1 * cs <= im_w im -> n0 * cs <= im_h im -> exists im', foldM draw_site (sites s None) im = Ok im' /\ im_w im' = im_w im /\ im_h im' = im_h im /\
    (forall site a b x y, sits site a b -> block a b x y -> im_px im' x y = site_colour site) /\
    (forall x y, (forall site a b, sits site a b -> ~ block a b x y) -> im_px im' x y = im_px im x y).
  Proof.
    intros W Hh. assert (H : forall l im, (forall x, In x l -> In x (sites s None)) -> n1 * cs <= im_w im -> n0 * cs <= im_h im -> exists im', foldM draw_site l im = Ok im' /\ im_w im' = im_w im /\ im_h im' = im_h im /\
      (forall site a b x y, In site l -> sits site a b -> block a b x y -> im_px im' x y = site_colour site) /\
      (forall x y, (forall site a b, In site l -> sits site a b -> ~ block a b x y) -> im_px im' x y = im_px im x y)).
    { clear W Hh im. induction l as [|z l IH]; intros im HL W Hh.
      - exists im. split; [reflexivity|]. split; auto. split; auto. split; [intros ? ? ? ? ? []|auto].
      - destruct (sits_all z) as (a & b & Sz); [apply HL; simpl; auto|]. cbn [foldM]. rewrite (draw_site_fill z a b im Sz). pose proof Sz as (Hz & Ba & Bb & Cz).
        destruct (fill_ok im (a * cs) (a * cs + cs) ((n0 - 1 - b) * cs) ((n0 - 1 - b) * cs + cs) (site_colour z)) as (im1 & E1 & W1 & H1 & P1 & P2); [nia..|]. rewrite E1. cbn [bind].
        destruct (IH im1) as (im' & E & W' & H' & Q1 & Q2); [intros; apply HL; simpl; auto|congruence|congruence|]. exists im'. split; auto. split; [congruence|]. split; [congruence|].
        assert (SZ : sits z a b) by exact Sz. split.
        + intros site a' b' x y Hin S B. destruct Hin as [<-|Hin]; [|eauto]. destruct (sits_loc _ _ _ _ _ SZ S) as [<- <-].
          assert (D : (exists site, In site l /\ sits site a b) \/ ~ (exists site, In site l /\ sits site a b)) by apply Classical_Prop.classic. destruct D as [(site & Hin & S')|N].
          * rewrite (Q1 site a b x y Hin S' B). unfold site_colour. now rewrite (sits_same _ _ _ _ S' SZ).
          * rewrite Q2; [apply P1; exact B|]. intros site a' b' Hin S' B'. destruct (block_unique _ _ _ _ _ _ B B') as [<- <-]. apply N. eauto.
        + intros x y N. rewrite Q2 by (intros site a' b' Hin; apply N; simpl; auto). apply P2. intros B. apply (N z a b); simpl; auto. }
    destruct (H (sites s None) im) as (im' & E & W' & H' & Q1 & Q2); auto. exists im'. split; auto. split; auto. split; auto. split.
    - intros site a b x y S B. apply (Q1 site a b); auto. apply S.
    - intros x y N. apply Q2. intros site a b _. apply N.
  Qed.
  Lemma grid_stage_out im : im_w im < n1 * cs -> n0 * cs <= im_h im -> foldM draw_site (sites s None) im = Err IndexError.
  Proof.
    intros W Hh.
    assert (EX : exists z b, In z (sites s None) /\ sits z (n1 - 1) b).
    { destruct (sc_pos _ _ _ _ _ _ _ G). destruct (sc_site _ _ _ _ _ _ _ G (n1 - 1) 0) as (x & Hx & C); [lia..|]. exists x, 0. split; auto. split; auto. split; [lia|]. split; [lia|exact C]. }
    assert (H : forall l im, (forall x, In x l -> In x (sites s None)) -> im_w im < n1 * cs -> n0 * cs <= im_h im -> 
       (exists im', foldM draw_site l im = Ok im' /\ forall z b, In z l -> ~ sits z (n1 - 1) b) \/ foldM draw_site l im = Err IndexError).
    { clear W Hh im. induction l as [|z l IH]; intros im HL W Hh; [left; exists im; split; [reflexivity|intros z b []]|].
      destruct (sits_all z) as (a & b & Sz); [apply HL; simpl; auto|]. cbn [foldM]. rewrite (draw_site_fill z a b im Sz). rewrite fill_puts. pose proof Sz as (Hz & Ba & Bb & Cz).
      match goal with |- context [puts ?ps ?c im] => destruct (puts_out c ps im) as [(im1 & E1 & W1 & H1 & AA)|E1] end.
      - intros [x y] Hp. apply rect_In in Hp. unfold inside in Hp. rewrite !Bool.andb_true_iff, !Z.leb_le, !Z.ltb_lt in Hp. cbn [fst snd]. nia.
      - rewrite E1. cbn [bind]. destruct (IH im1) as [(im' & E & N)|E]; [intros; apply HL; simpl; auto|lia|lia| |right; exact E]. left. exists im'. split; auto. intros z' b' [<-|Hz'] S'; [|eapply N; eauto].
        destruct (sits_loc _ _ _ _ _ Sz S') as [-> ->]. specialize (AA ((n1 - 1) * cs + cs - 1, (n0 - 1 - b') * cs)). destruct AA as [AA _]; [|cbn [fst] in AA; lia].
        apply rect_In. unfold inside. rewrite !Bool.andb_true_iff, !Z.leb_le, !Z.ltb_lt. lia.
      - right. rewrite E1. reflexivity. }
    destruct (H (sites s None) im) as [(im' & E & N)|E]; auto. destruct EX as (z & b & Hz & Sz). exfalso. eapply N; eauto.
  Qed.
End Stages.

Section Legends.
  Variables (glyphs : Z * Z -> string -> list (Z * Z * colour)) (lg : dict string colour) (n0 cs : Z).
  Hypothesis RW : rightwards glyphs.
  Hypothesis CS : 1 <= cs.
  Hypothesis N0 : 0 < n0.

  Definition border (h : Z) (im : picture) : res picture :=
    foldM (fun im p_y => foldM (fun im p_x => put im (n0 * cs + p_x) p_y (255, 255, 255)) (zrange 0 5) im) (zrange 0 h) im.
  Lemma border_stage im h : im_h im = h -> n0 * cs + 5 <= im_w im -> exists im', border h im = Ok im' /\ painted im (fun x y => inside (n0 * cs) (n0 * cs + 5) 0 h x y = true) (255, 255, 255) im'.
  Proof.
    intros Eh W. unfold border. rewrite (nested_puts (zrange 0 h) (zrange 0 5) (fun y x => n0 * cs + x) (fun y x => y)).
    match goal with |- context [puts ?ps ?c im] => destruct (puts_ok c ps im) as (im' & E & P) end.
    - intros [x y] Hp. apply in_flat_map in Hp as (y' & Hy & Hx). apply in_map_iff in Hx as (x' & E & Hx). injection E as <- <-. apply zrange_In in Hy, Hx. split; cbn [fst snd]; nia.
    - exists im'. split; auto. eapply painted_iff; [|exact P]. intros x y. rewrite in_flat_map. unfold inside. rewrite !Bool.andb_true_iff, !Z.leb_le, !Z.ltb_lt. split.
      + intros (y' & Hy & Hx). apply in_map_iff in Hx as (x' & E' & Hx). injection E' as <- <-. apply zrange_In in Hy, Hx. lia.
      + intros H. exists y. split; [apply zrange_In; lia|]. apply in_map_iff. exists (x - n0 * cs). split; [f_equal; lia|apply zrange_In; lia].
  Qed.

  Definition swatch (acc : picture * Z) (phase : string) : res (picture * Z) :=
    let '(im, count) := acc in
    do color <- dgetE phase lg;
    let p_col_start := n0 * cs + 5 + Z.quot cs 4 in
    let p_row_start := count * cs + Z.quot cs 4 in
    do im <- fill im p_col_start (p_col_start + cs) p_row_start (p_row_start + cs) color;
    let legend_label_loc := (Z.quot (4 * (p_col_start + cs) + cs) 4, Z.quot (4 * p_row_start + cs) 4) in
    Ok (draw_text glyphs im legend_label_loc phase, count + 1).
  Let col := n0 * cs + 5 + cs / 4.
  Lemma swatch_stage l : forall im count, 0 <= count -> (forall p, In p l -> dget p lg <> None) -> col + cs <= im_w im -> (count + Z.of_nat (length l)) * cs + cs / 4 <= im_h im ->
    exists im' c', foldM swatch l (im, count) = Ok (im', c') /\ im_w im' = im_w im /\ im_h im' = im_h im /\
      (forall k p c x y, nth_error l k = Some p -> dget p lg = Some c -> inside col (col + cs) ((count + Z.of_nat k) * cs + cs / 4) ((count + Z.of_nat k) * cs + cs / 4 + cs) x y = true -> im_px im' x y = c) /\
      (forall x y, x < col + cs -> (x < col \/ y < count * cs + cs / 4) -> im_px im' x y = im_px im x y).
  Proof.
    assert (Q4 : Z.quot cs 4 = cs / 4) by (apply Z.quot_div_nonneg; lia). assert (B4 : 0 <= cs / 4 < cs) by (split; [apply Z.div_pos; lia|apply Z.div_lt; lia]).
    induction l as [|p l IH]; intros im count C0 HL W Hh.
    - exists im, count. split; [reflexivity|]. repeat split; auto. intros [|k]; discriminate.
    - cbn [foldM]. unfold swatch at 1. destruct (dget p lg) as [c|] eqn:Ep; [|exfalso; apply (HL p); simpl; auto]. unfold dgetE. rewrite Ep. cbn [bind]. rewrite Q4. fold col.
      cbn [length] in Hh. rewrite Nat2Z.inj_succ in Hh.
      destruct (fill_ok im col (col + cs) (count * cs + cs / 4) (count * cs + cs / 4 + cs) c) as (im1 & E1 & W1 & H1 & P1 & P2); [unfold col; nia|exact W|nia|nia|]. rewrite E1. cbn [bind].
      set (q := (Z.quot (4 * (col + cs) + cs) 4, Z.quot (4 * (count * cs + cs / 4) + cs) 4)).
      destruct (text_frame glyphs im1 q p) as (W2 & H2 & T1 & _). set (im2 := draw_text glyphs im1 q p) in *.
      assert (T : forall x y, x < col + cs -> im_px im2 x y = im_px im1 x y).
      { intros x y Hx. apply T1. intros c' Hc. unfold q in Hc. apply RW in Hc. rewrite Z.quot_div_nonneg in Hc by (unfold col; nia).
        assert (col + cs <= (4 * (col + cs) + cs) / 4); [|lia]. apply Z.div_le_lower_bound; lia. }
      destruct (IH im2 (count + 1)) as (im' & c' & E & W' & H' & S1 & S2); [lia|intros; apply HL; simpl; auto|lia|nia|]. exists im', c'. split; [exact E|]. split; [congruence|]. split; [congruence|]. split.
      + intros [|k] p' c2 x y Hk Hp Hi.
        * cbn in Hk. injection Hk as <-. assert (c2 = c) by congruence. subst c2. change (Z.of_nat 0) with 0 in Hi. rewrite Z.add_0_r in Hi. pose proof Hi as Hi'. unfold inside in Hi'. rewrite !Bool.andb_true_iff, !Z.leb_le, !Z.ltb_lt in Hi'.
          rewrite S2; [|lia|nia]. rewrite T by lia. apply P1. exact Hi.
        * apply (S1 k p' c2 x y Hk Hp). rewrite Nat2Z.inj_succ in Hi. replace (count + 1 + Z.of_nat k) with (count + Z.succ (Z.of_nat k)) by lia. exact Hi.
      + intros x y Hx Hxy. rewrite S2; [|lia|nia]. rewrite T by lia. apply P2. unfold inside. rewrite !Bool.andb_true_iff, !Z.leb_le, !Z.ltb_lt. lia.
  Qed.
End Legends.

Lemma draw_2d_stages {F} (A : arith F) trunc s art st glyphs label cs n0 lg v :
  art_legend art st = Ok lg -> list_getE (vec_lengths A (p_lattice s)) 0 = Ok v -> trunc v = n0 ->
  draw_2d A trunc glyphs s art st label cs =
    (do im <- new_image ((n0 + 6) * cs + 5) (Z.max n0 (Z.of_nat (length lg) + 1) * cs);
     do im <- foldM (draw_site A trunc art st n0 cs) (sites s None) im;
     do im <- border n0 cs (Z.max n0 (Z.of_nat (length lg) + 1) * cs) im;
     do (im, _) <- foldM (swatch glyphs lg n0 cs) (sorted (dkeys lg)) (im, 0);
     match label with Some l => Ok (draw_text glyphs im (5, 5) l) | None => Ok im end).
Proof. intros EL EV ET. unfold draw_2d. rewrite EL. cbn [bind]. rewrite EV. cbn [bind]. rewrite ET. reflexivity. Qed.

Lemma NoDup_sorted l : NoDup l -> NoDup (sorted l).
Proof. apply Permutation_NoDup, sorted_perm. Qed.

(** Everything up to the label, for widths that fit. *)
Lemma draw_all {F} (A : arith F) trunc P s art st colr lg glyphs cs n0 n1 : screen A trunc s n0 n1 cs P -> n1 * cs <= (n0 + 6) * cs + 5 -> 1 <= cs -> paints art s st colr lg -> rightwards glyphs ->
  exists im order, draw_2d A trunc glyphs s art st None cs = Ok im /\
    Permutation order (dkeys lg) /\ Sorted (fun a b => String.leb a b = true) order /\
    im_w im = (n0 + 6) * cs + 5 /\ im_h im = Z.max n0 (Z.of_nat (length lg) + 1) * cs /\
    (forall a b i x y, 0 <= a < n1 -> 0 <= b < n0 -> P a b i ->
       inside (a * cs) ((a + 1) * cs) ((n0 - 1 - b) * cs) ((n0 - b) * cs) x y = true -> x < n0 * cs -> im_px im x y = colr i) /\
    (forall x y, 0 <= x < n0 * cs -> 0 <= y < im_h im -> n1 * cs <= x \/ n0 * cs <= y -> im_px im x y = (0, 0, 0)) /\
    (forall x y, n0 * cs <= x < n0 * cs + 5 -> 0 <= y < im_h im -> im_px im x y = (255, 255, 255)) /\
    (forall k l c x y, nth_error order k = Some l -> dget l lg = Some c ->
       inside (n0 * cs + 5 + cs / 4) (n0 * cs + 5 + cs / 4 + cs) (Z.of_nat k * cs + cs / 4) (Z.of_nat k * cs + cs / 4 + cs) x y = true -> im_px im x y = c).
Proof.
  intros SG W CS (CO & EL & ND) RW. pose proof SG as G. destruct (sc_first _ _ _ _ _ _ _ G) as (v & EV & ET).
  destruct (sc_pos _ _ _ _ _ _ _ G) as [Z0 Z1].
  assert (LL : length (sorted (dkeys lg)) = length lg) by (rewrite <- (Permutation_length (sorted_perm (dkeys lg))); unfold dkeys; apply map_length).
  rewrite (draw_2d_stages _ _ _ _ _ _ _ _ _ _ _ EL EV ET). set (h := Z.max n0 (Z.of_nat (length lg) + 1) * cs). unfold new_image.
  assert (B4 : 0 <= cs / 4 < cs) by (split; [apply Z.div_pos; lia|apply Z.div_lt; lia]).
  assert (Hh : n0 * cs <= h /\ (Z.of_nat (length lg) + 1) * cs <= h) by (unfold h; split; apply Z.mul_le_mono_nonneg_r; lia).
  destruct (Z.ltb_spec ((n0 + 6) * cs + 5) 0); [nia|]. destruct (Z.ltb_spec h 0); [nia|]. cbn [orb bind].
  destruct (grid_stage A trunc s art colr st n0 n1 cs P G CO CS (mkImage ((n0 + 6) * cs + 5) h (fun _ _ => (0, 0, 0)))) as (im1 & E1 & W1 & H1 & Q1 & Q2); [exact W|apply Hh|]. rewrite E1. cbn [bind]. cbn [im_w im_h im_px] in *.
  destruct (border_stage n0 cs CS Z0 im1 h H1) as (im2 & E2 & W2 & H2 & R1 & R2); [rewrite W1; nia|]. rewrite E2. cbn [bind].
  destruct (swatch_stage glyphs lg n0 cs RW CS Z0 (sorted (dkeys lg)) im2 0) as (im3 & c3 & E3 & W3 & H3 & S1 & S2); [lia| |rewrite W2, W1; nia|rewrite LL, H2, H1; nia|].
  { intros p Hp. apply (Permutation_in p (Permutation_sym (sorted_perm _))) in Hp. apply dget_key_Some in Hp as [c ->]. discriminate. }
  rewrite E3. cbn [bind]. exists im3, (sorted (dkeys lg)). split; [reflexivity|]. split; [symmetry; apply sorted_perm|]. split; [apply sorted_sorted|].
  split; [congruence|]. split; [fold h; congruence|]. assert (EH : im_h im3 = h) by congruence. rewrite EH.
  assert (LEFT : forall x y, x < n0 * cs -> im_px im3 x y = im_px im1 x y).
  { intros x y Hx. rewrite S2 by nia. apply R2. unfold inside. rewrite !Bool.andb_true_iff, !Z.leb_le, !Z.ltb_lt. lia. }
  split; [|split; [|split]].
  - intros a b i x y Ba Bb Ci Hi Hx. rewrite LEFT by exact Hx.
    destruct (sc_site _ _ _ _ _ _ _ G a b Ba Bb) as (z & Hz & Cz). rewrite <- (sc_fun _ _ _ _ _ _ _ G a b _ _ Ba Bb Cz Ci) in *.
    rewrite (Q1 z a b x y).
    + reflexivity.
    + repeat (split; auto).
    + unfold block. unfold inside in *. rewrite !Bool.andb_true_iff, !Z.leb_le, !Z.ltb_lt in *. lia.
  - intros x y Hx Hy Hxy. rewrite LEFT by lia. rewrite Q2; [reflexivity|]. intros z a b (_ & Ba & Bb & _) B. unfold block, inside in B. rewrite !Bool.andb_true_iff, !Z.leb_le, !Z.ltb_lt in B. nia.
  - intros x y Hx Hy. rewrite S2 by nia. apply R1. unfold inside. rewrite !Bool.andb_true_iff, !Z.leb_le, !Z.ltb_lt. lia.
  - intros k p c x y Hk Ec Hi. rewrite (S1 k p c x y Hk Ec); [reflexivity|]. exact Hi.
Qed.

Lemma art_gen : forall {F} (A : arith F) trunc P s art st colr lg glyphs cs n0 n1, screen A trunc s n0 n1 cs P -> n1 <= n0 -> 1 <= cs -> paints art s st colr lg -> rightwards glyphs ->
  exists im order, draw_2d A trunc glyphs s art st None cs = Ok im /\
    Permutation order (dkeys lg) /\ Sorted (fun a b => String.leb a b = true) order /\
    im_w im = (n0 + 6) * cs + 5 /\ im_h im = Z.max n0 (Z.of_nat (length lg) + 1) * cs /\
    (forall a b i x y, 0 <= a < n1 -> 0 <= b < n0 -> P a b i ->
       inside (a * cs) ((a + 1) * cs) ((n0 - 1 - b) * cs) ((n0 - b) * cs) x y = true -> im_px im x y = colr i) /\
    (forall x y, 0 <= x < n0 * cs -> 0 <= y < im_h im -> n1 * cs <= x \/ n0 * cs <= y -> im_px im x y = (0, 0, 0)) /\
    (forall x y, n0 * cs <= x < n0 * cs + 5 -> 0 <= y < im_h im -> im_px im x y = (255, 255, 255)) /\
    (forall k l c x y, nth_error order k = Some l -> dget l lg = Some c ->
       inside (n0 * cs + 5 + cs / 4) (n0 * cs + 5 + cs / 4 + cs) (Z.of_nat k * cs + cs / 4) (Z.of_nat k * cs + cs / 4 + cs) x y = true -> im_px im x y = c).
Proof.
  intros F A trunc P s art st colr lg glyphs cs n0 n1 SG N CS PA RW. destruct (draw_all A trunc P s art st colr lg glyphs cs n0 n1 SG) as (im & order & E & A1 & A2 & A4 & A5 & A6 & A7 & A8 & A9); auto; [nia|].
  exists im, order. repeat (split; [assumption|]). split; [|auto]. intros a b i x y Ba Bb C Hi. apply (A6 a b i); auto. unfold inside in Hi. rewrite !Bool.andb_true_iff, !Z.leb_le, !Z.ltb_lt in Hi. nia.
Qed.

(** What a discrete artist paints. *)
Lemma discrete_paints {F} (s : structure F) str_ ca cm st : valued (ca_state_key ca) st -> ca_color_map ca = Some cm -> (forall i x, get_site s i = Some x -> In (KInt i) (site_ids st)) ->
  forall lg, get_legend str_ ca st = Ok lg -> NoDup (dkeys lg) -> paints (as_artist str_ ca) s st (fun i => shade cm (value_of (ca_state_key ca) st (KInt i))) lg.
Proof. intros DI CM SI lg EL ND. split; [|split; auto]. intros i x Gx. apply (colour_site st ca cm DI CM). eauto. Qed.

Lemma drawing_gen : forall {F} (A : arith F) trunc P s ca cm st str_ glyphs cs n0 n1, screen A trunc s n0 n1 cs P -> n1 <= n0 -> 1 <= cs -> valued (ca_state_key ca) st -> colours_by ca cm ->
  (forall i x, get_site s i = Some x -> In (KInt i) (site_ids st)) -> rightwards glyphs ->
  exists im order, draw_2d A trunc glyphs s (as_artist str_ ca) st None cs = Ok im /\
    NoDup order /\ Sorted (fun a b => String.leb a b = true) order /\ (forall l, In l order <-> exists v, held (ca_state_key ca) st v /\ str_ v = l) /\
    im_w im = (n0 + 6) * cs + 5 /\ im_h im = Z.max n0 (Z.of_nat (length order) + 1) * cs /\
    (forall a b i v x y, 0 <= a < n1 -> 0 <= b < n0 -> P a b i -> site_entry st (KInt i) (ca_state_key ca) = Some v ->
       inside (a * cs) ((a + 1) * cs) ((n0 - 1 - b) * cs) ((n0 - b) * cs) x y = true -> im_px im x y = shade cm v) /\
    (forall x y, 0 <= x < n0 * cs -> 0 <= y < im_h im -> n1 * cs <= x \/ n0 * cs <= y -> im_px im x y = (0, 0, 0)) /\
    (forall x y, n0 * cs <= x < n0 * cs + 5 -> 0 <= y < im_h im -> im_px im x y = (255, 255, 255)) /\
    (forall k l, nth_error order k = Some l -> exists v, held (ca_state_key ca) st v /\ str_ v = l /\
       forall x y, inside (n0 * cs + 5 + cs / 4) (n0 * cs + 5 + cs / 4 + cs) (Z.of_nat k * cs + cs / 4) (Z.of_nat k * cs + cs / 4 + cs) x y = true -> im_px im x y = shade cm v).
Proof.
  intros F A trunc P s ca cm st str_ glyphs cs n0 n1 SG N CS DI [CM CL] SI RW. destruct (legend_lemma st str_ ca cm DI CM CL) as (lg & EL & ND & IP & HC).
  destruct (art_gen A trunc P s (as_artist str_ ca) st _ lg glyphs cs n0 n1 SG N CS (discrete_paints s str_ ca cm st DI CM SI lg EL ND) RW) as (im & order & E & A1 & A2 & A4 & A5 & A6 & A7 & A8 & A9).
  exists im, order. split; auto. split; [eapply Permutation_NoDup; [symmetry; exact A1|exact ND]|]. split; auto.
  assert (IO : forall l, In l order <-> In l (dkeys lg)) by (intros l; split; apply Permutation_in; [|symmetry]; exact A1).
  split; [intros l; now rewrite IO|]. split; auto. split; [rewrite (Permutation_length A1); unfold dkeys; now rewrite map_length|]. split; [|split; [auto|split; [auto|]]].
  - intros a b i v x y Ba Bb C Ev Hi. rewrite (A6 a b i x y Ba Bb C Hi). unfold value_of. now rewrite Ev.
  - intros k l Hk. assert (Hl : In l (dkeys lg)) by (apply IO; eapply nth_error_In; eauto). apply dget_key_Some in Hl as [c Ec]. destruct (HC l c Ec) as (v & Hv & Es & ->). exists v. split; auto. split; auto.
    intros x y Hi. exact (A9 k l _ x y Hk Ec Hi).
Qed.

Lemma wide_gen : forall {F} (A : arith F) trunc P s art st colr lg glyphs cs n0 n1, screen A trunc s n0 n1 cs P -> n0 < n1 -> 1 <= cs -> paints art s st colr lg -> rightwards glyphs ->
  ((n0 + 6) * cs + 5 < n1 * cs -> draw_2d A trunc glyphs s art st None cs = Err IndexError) /\
  (n1 * cs <= (n0 + 6) * cs + 5 -> exists im, draw_2d A trunc glyphs s art st None cs = Ok im /\
     forall b, 0 <= b < n0 -> inside (n0 * cs) ((n0 + 1) * cs) ((n0 - 1 - b) * cs) ((n0 - b) * cs) (n0 * cs) ((n0 - 1 - b) * cs) = true /\ im_px im (n0 * cs) ((n0 - 1 - b) * cs) = (255, 255, 255)).
Proof.
  intros F A trunc P s art st colr lg glyphs cs n0 n1 SG N CS PA RW. split.
  - intros W. pose proof SG as G. destruct (sc_first _ _ _ _ _ _ _ G) as (v & EV & ET).
    destruct (sc_pos _ _ _ _ _ _ _ G) as [Z0 Z1]. destruct PA as (CO & EL & ND).
    rewrite (draw_2d_stages _ _ _ _ _ _ _ _ _ _ _ EL EV ET). set (h := Z.max n0 (Z.of_nat (length lg) + 1) * cs). unfold new_image.
    assert (Hh : n0 * cs <= h) by (unfold h; apply Z.mul_le_mono_nonneg_r; lia).
    destruct (Z.ltb_spec ((n0 + 6) * cs + 5) 0); [nia|]. destruct (Z.ltb_spec h 0); [nia|]. cbn [orb bind].
    rewrite (grid_stage_out A trunc s art colr st n0 n1 cs P G CO CS); [reflexivity|exact W|exact Hh].
  - intros W. destruct (draw_all A trunc P s art st colr lg glyphs cs n0 n1 SG) as (im & order & E & _ & _ & _ & A5 & _ & _ & A8 & _); auto.
    exists im. split; auto. intros b Hb. split; [unfold inside; rewrite !Bool.andb_true_iff, !Z.leb_le, !Z.ltb_lt; nia|]. apply A8; [lia|]. rewrite A5. split; [nia|].
    apply Z.lt_le_trans with (n0 * cs); [nia|]. apply Z.mul_le_mono_nonneg_r; lia.
Qed.

Lemma label_gen : forall {F} (A : arith F) trunc P s art st colr lg glyphs cs n0 n1 t, screen A trunc s n0 n1 cs P -> n1 <= n0 -> 1 <= cs -> paints art s st colr lg -> rightwards glyphs ->
  exists im im', draw_2d A trunc glyphs s art st None cs = Ok im /\ draw_2d A trunc glyphs s art st (Some t) cs = Ok im' /\ im_w im' = im_w im /\ im_h im' = im_h im /\
    (forall x y, (forall c, ~ In (x, y, c) (glyphs (5, 5) t)) -> im_px im' x y = im_px im x y) /\
    (forall x y c, In (x, y, c) (glyphs (5, 5) t) -> (forall c', In (x, y, c') (glyphs (5, 5) t) -> c' = c) -> 0 <= x < im_w im -> 0 <= y < im_h im -> im_px im' x y = c).
Proof.
  intros F A trunc P s art st colr lg glyphs cs n0 n1 t SG N CS PA RW. destruct (draw_all A trunc P s art st colr lg glyphs cs n0 n1 SG) as (im & order & E & _); auto; [nia|].
  exists im, (draw_text glyphs im (5, 5) t). split; auto. destruct (text_frame glyphs im (5, 5) t) as (W & H & T1 & T2 & T3). split; [|split; [auto|split; [auto|split; [auto|]]]].
  - destruct (sc_first _ _ _ _ _ _ _ SG) as (v & EV & ET). destruct PA as (CO & EL & ND).
    rewrite (draw_2d_stages _ _ _ _ _ _ None _ _ _ _ EL EV ET) in E. rewrite (draw_2d_stages _ _ _ _ _ _ (Some t) _ _ _ _ EL EV ET). destruct (new_image _ _) as [i0|e]; [|discriminate]. cbn [bind] in *. destruct (foldM (draw_site _ _ _ _ _ _) _ _) as [i1|e]; [|discriminate]. cbn [bind] in *.
    destruct (border _ _ _ _) as [i2|e]; [|discriminate]. cbn [bind] in *. destruct (foldM (swatch _ _ _ _) _ _) as [[i3 c3]|e]; [|discriminate]. cbn [bind] in *. congruence.
  - intros x y c Hin U Hx Hy. destruct (T3 x y c) as (c' & Hc & ->); [split; auto|auto|]. now apply U.
Qed.

(** ** Grids over the reals *)
Lemma screen_real s n0 n1 cs : square_grid [n0; n1] s -> screen RA real_int s n0 n1 cs (fun a b i => cell s [a; b] i).
Proof.
  intros SG. destruct (square_facts _ _ SG) as [L G]. destruct (square_first _ _ n0 [n1] SG eq_refl) as [EV _].
  pose proof (gf_pos _ _ _ G) as GP. assert (0 < n0 /\ 0 < n1) as [Z0 Z1] by (inversion GP as [|? ? ? GP']; subst; inversion GP'; auto).
  assert (BX : forall a b, 0 <= a < n1 -> 0 <= b < n0 -> Forall2 (fun a m => 0 <= a < m) [a; b] (extents [n0; n1])) by (intros; cbn [extents]; repeat constructor; lia).
  assert (GX : forall a b, 0 <= a < n1 -> 0 <= b < n0 -> exists z, In z (sites s None) /\ cell s [a; b] (s_id z)).
  { intros a b Ba Bb. pose proof (gf_cell _ _ _ G [a; b] eq_refl) as C. set (i := rank [n0; n1] (wrap_to [n0; n1] (extents [a; b]))) in *.
    assert (E : exists z, get_site s i = Some z) by (unfold i; eexists; apply (gf_site _ _ _ G); apply wrap_cells; auto). destruct E as [z Gz]. exists z.
    apply (built_get L s (gf_built _ _ _ G)) in Gz as [Hz Ei]. split; auto. rewrite Ei. exact C. }
  assert (LOC : forall x a b, In x (sites s None) -> 0 <= a < n1 -> 0 <= b < n0 -> cell s [a; b] (s_id x) -> s_loc x = [IZR a; IZR b]).
  { intros x a b Hx Ba Bb C. assert (Gx : get_site s (s_id x) = Some x) by (apply (built_get L s (gf_built _ _ _ G)); auto). rewrite (cell_own _ _ _ _ _ _ G Gx C eq_refl (BX a b Ba Bb)). reflexivity. }
  constructor; auto.
  - exists (IZR n0). split; auto. apply real_int_IZR.
  - intros x Hx. apply (built_get L s (gf_built _ _ _ G)). auto.
  - intros x Hx. destruct (site_cell _ _ _ (s_id x) x G) as (p & Lp & B & El & C & _).
    { apply (built_get L s (gf_built _ _ _ G)). auto. }
    cbn [extents length] in *. inversion B as [|a ? p1 ? Ba B1]; subst. inversion B1 as [|b ? p2 ? Bb B2]; subst. inversion B2; subst. exists a, b. auto.
  - intros x a b Hx Ba Bb C. exists (IZR a), (IZR b). split; [now apply LOC|]. cbn [a_mul a_sub a_ofZ RA]. rewrite <- minus_IZR, <- !mult_IZR, !real_int_IZR. auto.
  - unfold cell. intros. congruence.
  - intros a b a' b' i Ba Bb Ba' Bb' C C'. destruct (GX a b Ba Bb) as (z & Hz & Cz). assert (Ei : s_id z = i) by (unfold cell in *; congruence). subst i.
    pose proof (LOC z a b Hz Ba Bb C) as E1. rewrite (LOC z a' b' Hz Ba' Bb' C') in E1. injection E1 as H1 H2. apply eq_IZR in H1, H2. auto.
Qed.
Lemma C63_lemma : forall s ca cm st str_ glyphs cs n0 n1, square_grid [n0; n1] s -> n1 <= n0 -> 1 <= cs -> valued (ca_state_key ca) st -> colours_by ca cm ->
  (forall i x, get_site s i = Some x -> In (KInt i) (site_ids st)) -> rightwards glyphs ->
  exists im order, draw_2d RA real_int glyphs s (as_artist str_ ca) st None cs = Ok im /\
    NoDup order /\ Sorted (fun a b => String.leb a b = true) order /\ (forall l, In l order <-> exists v, held (ca_state_key ca) st v /\ str_ v = l) /\
    im_w im = (n0 + 6) * cs + 5 /\ im_h im = Z.max n0 (Z.of_nat (length order) + 1) * cs /\
    (forall a b i v x y, 0 <= a < n1 -> 0 <= b < n0 -> cell s [a; b] i -> site_entry st (KInt i) (ca_state_key ca) = Some v ->
       inside (a * cs) ((a + 1) * cs) ((n0 - 1 - b) * cs) ((n0 - b) * cs) x y = true -> im_px im x y = shade cm v) /\
    (forall x y, 0 <= x < n0 * cs -> 0 <= y < im_h im -> n1 * cs <= x \/ n0 * cs <= y -> im_px im x y = (0, 0, 0)) /\
    (forall x y, n0 * cs <= x < n0 * cs + 5 -> 0 <= y < im_h im -> im_px im x y = (255, 255, 255)) /\
    (forall k l, nth_error order k = Some l -> exists v, held (ca_state_key ca) st v /\ str_ v = l /\
       forall x y, inside (n0 * cs + 5 + cs / 4) (n0 * cs + 5 + cs / 4 + cs) (Z.of_nat k * cs + cs / 4) (Z.of_nat k * cs + cs / 4 + cs) x y = true -> im_px im x y = shade cm v).
Proof. intros s ca cm st str_ glyphs cs n0 n1 SG. exact (drawing_gen RA real_int (fun a b i => cell s [a; b] i) s ca cm st str_ glyphs cs n0 n1 (screen_real s n0 n1 cs SG)). Qed.
Lemma C63_wide_lemma : forall s art st colr lg glyphs cs n0 n1, square_grid [n0; n1] s -> n0 < n1 -> 1 <= cs -> paints art s st colr lg -> rightwards glyphs ->
  ((n0 + 6) * cs + 5 < n1 * cs -> draw_2d RA real_int glyphs s art st None cs = Err IndexError) /\
  (n1 * cs <= (n0 + 6) * cs + 5 -> exists im, draw_2d RA real_int glyphs s art st None cs = Ok im /\
     forall b, 0 <= b < n0 -> inside (n0 * cs) ((n0 + 1) * cs) ((n0 - 1 - b) * cs) ((n0 - b) * cs) (n0 * cs) ((n0 - 1 - b) * cs) = true /\ im_px im (n0 * cs) ((n0 - 1 - b) * cs) = (255, 255, 255)).
Proof. intros s art st colr lg glyphs cs n0 n1 SG. exact (wide_gen RA real_int (fun a b i => cell s [a; b] i) s art st colr lg glyphs cs n0 n1 (screen_real s n0 n1 cs SG)). Qed.
Lemma C63_label_lemma : forall s art st colr lg glyphs cs n0 n1 t, square_grid [n0; n1] s -> n1 <= n0 -> 1 <= cs -> paints art s st colr lg -> rightwards glyphs ->
  exists im im', draw_2d RA real_int glyphs s art st None cs = Ok im /\ draw_2d RA real_int glyphs s art st (Some t) cs = Ok im' /\ im_w im' = im_w im /\ im_h im' = im_h im /\
    (forall x y, (forall c, ~ In (x, y, c) (glyphs (5, 5) t)) -> im_px im' x y = im_px im x y) /\
    (forall x y c, In (x, y, c) (glyphs (5, 5) t) -> (forall c', In (x, y, c') (glyphs (5, 5) t) -> c' = c) -> 0 <= x < im_w im -> 0 <= y < im_h im -> im_px im' x y = c).
Proof. intros s art st colr lg glyphs cs n0 n1 t SG. exact (label_gen RA real_int (fun a b i => cell s [a; b] i) s art st colr lg glyphs cs n0 n1 t (screen_real s n0 n1 cs SG)). Qed.

(** ** Artists of every kind *)
Lemma C104_lemma : forall s art st colr lg glyphs cs n0 n1, square_grid [n0; n1] s -> n1 <= n0 -> 1 <= cs -> paints art s st colr lg -> rightwards glyphs ->
  exists im order, draw_2d RA real_int glyphs s art st None cs = Ok im /\
    Permutation order (dkeys lg) /\ Sorted (fun a b => String.leb a b = true) order /\
    im_w im = (n0 + 6) * cs + 5 /\ im_h im = Z.max n0 (Z.of_nat (length lg) + 1) * cs /\
    (forall a b i x y, 0 <= a < n1 -> 0 <= b < n0 -> cell s [a; b] i ->
       inside (a * cs) ((a + 1) * cs) ((n0 - 1 - b) * cs) ((n0 - b) * cs) x y = true -> im_px im x y = colr i) /\
    (forall x y, 0 <= x < n0 * cs -> 0 <= y < im_h im -> n1 * cs <= x \/ n0 * cs <= y -> im_px im x y = (0, 0, 0)) /\
    (forall x y, n0 * cs <= x < n0 * cs + 5 -> 0 <= y < im_h im -> im_px im x y = (255, 255, 255)) /\
    (forall k l c x y, nth_error order k = Some l -> dget l lg = Some c ->
       inside (n0 * cs + 5 + cs / 4) (n0 * cs + 5 + cs / 4 + cs) (Z.of_nat k * cs + cs / 4) (Z.of_nat k * cs + cs / 4 + cs) x y = true -> im_px im x y = c).
Proof. intros s art st colr lg glyphs cs n0 n1 SG. exact (art_gen RA real_int (fun a b i => cell s [a; b] i) s art st colr lg glyphs cs n0 n1 (screen_real s n0 n1 cs SG)). Qed.
Lemma C104_discrete_lemma : forall F (s : structure F) str_ ca cm st, valued (ca_state_key ca) st -> ca_color_map ca = Some cm ->
  (forall i x, get_site s i = Some x -> In (KInt i) (site_ids st)) ->
  exists colr, colours (as_artist str_ ca) s st colr /\ (forall i v, site_entry st (KInt i) (ca_state_key ca) = Some v -> colr i = shade cm v) /\
    forall lg, ca_legend ca = Some lg -> NoDup (dkeys lg) -> paints (as_artist str_ ca) s st colr lg.
Proof.
  intros F s str_ ca cm st DI CM SI. exists (fun i => shade cm (value_of (ca_state_key ca) st (KInt i))).
  split; [intros i x Gx; apply (colour_site st ca cm DI CM); eauto|]. split; [intros i v E; unfold value_of; now rewrite E|].
  intros lg CL ND. apply (discrete_paints s str_ ca cm st DI CM SI lg); auto. cbn. unfold get_legend. now rewrite CL.
Qed.
Lemma C104_legend_lemma : forall st color label (colr : key -> colour) (lab : key -> string), ided st ->
  (forall k, In k (site_ids st) -> color (get_site_state st k) = Ok (colr k) /\ exists d, get_site_state st k = Some d /\ label d = Ok (lab k)) ->
  exists lg, art_legend (plain_artist color label) st = Ok lg /\ NoDup (dkeys lg) /\ (forall l, In l (dkeys lg) <-> exists k, In k (site_ids st) /\ lab k = l) /\
    (forall l c, dget l lg = Some c -> exists pre k post, site_ids st = pre ++ k :: post /\ lab k = l /\ (forall k', In k' pre -> lab k' <> l) /\ c = colr k).
Proof. exact base_lemma. Qed.
