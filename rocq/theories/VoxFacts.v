(** Voxels of 3D grids. *)
From Coq Require Import Reals Lra Permutation.
From Verif Require Import Prelude Dict Val Arith RVec RealArith LatticeModel StructModel StateModel ResultModel NbModel GridModel SetupModel AnalyzerModel VizModel
  SpecState SpecGeom SpecNb SpecGrid SpecAnalyze SpecViz StateFacts LatticeFacts StructFacts NbFacts NbMore GridFacts GridMore SpecSetup SetupFacts AnalyzerFacts AnalyzerMore VizFacts DrawFacts StructBuild.
Local Open Scope Z_scope.

#[export] Instance EqbOk_colour : EqbOk colour.
Proof.
  intros [[r g] b] [[r' g'] b']. unfold eqb, Eqb_colour. destruct (Z.eqb_spec r r'), (Z.eqb_spec g g'), (Z.eqb_spec b b'); cbn; constructor; congruence.
Qed.
Lemma real_eq_IZR a z : real_eq (IZR a) z = (a =? z).
Proof. unfold real_eq. destruct (Req_EM_T (IZR a) (IZR z)) as [E|N]; destruct (Z.eqb_spec a z) as [H|H]; auto; [apply eq_IZR in E; contradiction|subst; now contradict N]. Qed.

(** What the drawing needs to know about a grid: [P a b c i] says that site [i] is
    at the integer point [(a, b, c)]. *)
Record screen3 {F} (trunc : F -> Z) (eq_loc : F -> Z -> bool) (s : structure F) (n0 n1 n2 : Z) (P : Z -> Z -> Z -> Z -> Prop) : Prop := {
  s3_dim : p_dim s = 3%nat;
  s3_get : forall x, In x (sites s None) -> get_site s (s_id x) = Some x;
  s3_all : forall x, In x (sites s None) -> exists a b c, 0 <= a < n1 /\ 0 <= b < n0 /\ 0 <= c < n2 /\ P a b c (s_id x);
  s3_loc : forall x a b c, In x (sites s None) -> 0 <= a < n1 -> 0 <= b < n0 -> 0 <= c < n2 -> P a b c (s_id x) -> exists l0 l1 l2, s_loc x = [l0; l1; l2] /\
    trunc l0 = a /\ trunc l1 = b /\ trunc l2 = c /\ forall z, eq_loc l0 z = (a =? z) /\ eq_loc l1 z = (b =? z) /\ eq_loc l2 z = (c =? z);
  s3_fun : forall a b c i j, 0 <= a < n1 -> 0 <= b < n0 -> 0 <= c < n2 -> P a b c i -> P a b c j -> i = j;
  s3_inj : forall a b c a' b' c' i, 0 <= a < n1 -> 0 <= b < n0 -> 0 <= c < n2 -> 0 <= a' < n1 -> 0 <= b' < n0 -> 0 <= c' < n2 ->
    P a b c i -> P a' b' c' i -> a' = a /\ b' = b /\ c' = c;
  s3_site : forall a b c, 0 <= a < n1 -> 0 <= b < n0 -> 0 <= c < n2 -> exists x, In x (sites s None) /\ P a b c (s_id x) }.

Section Voxels.
  Context {FF : Type} (trunc : FF -> Z) (eq_loc : FF -> Z -> bool).
  Variables (s : structure FF) (art : cell_artist) (colr : Z -> colour) (st : sstate) (n0 n1 n2 sz : Z) (P : Z -> Z -> Z -> Z -> Prop) (shell : bool).
  Hypothesis G : screen3 trunc eq_loc s n0 n1 n2 P.
  Hypothesis CO : colours art s st colr.

  Definition put_voxel (dataset : dict colour (list (list Z))) (site : site FF) : res (dict colour (list (list Z))) :=
    let loc := s_loc site in
    do shown <- (if negb shell then Ok true
                 else do l1 <- list_getE loc 1;
                      if eq_loc l1 0 then Ok true
                      else do l0 <- list_getE loc 0;
                           if eq_loc l0 sz then Ok true else do l2 <- list_getE loc 2; Ok (eq_loc l2 sz));
    if negb shown then Ok dataset
    else
      do color <- art_color art (get_site_state st (KInt (s_id site)));
      let shifted_loc := map trunc loc in
      if negb (Nat.leb (length shifted_loc) (p_dim s)) then Err IndexError
      else if forallb (fun i => (- sz <=? i) && (i <? sz)) shifted_loc
      then Ok (dset color (match dget color dataset with Some l => l | None => [] end ++ [map (fun i => if i <? 0 then i + sz else i) shifted_loc]) dataset)
      else Err IndexError.
  Definition stands (x : site FF) (a b c : Z) : Prop := In x (sites s None) /\ 0 <= a < n1 /\ 0 <= b < n0 /\ 0 <= c < n2 /\ P a b c (s_id x).
  Lemma stands_all x : In x (sites s None) -> exists a b c, stands x a b c.
  Proof. intros Hx. destruct (s3_all _ _ _ _ _ _ _ G x Hx) as (a & b & c & H). exists a, b, c. unfold stands. tauto. Qed.
  Lemma stands_cell a b c i : 0 <= a < n1 -> 0 <= b < n0 -> 0 <= c < n2 -> P a b c i -> exists x, s_id x = i /\ stands x a b c.
  Proof.
    intros Ba Bb Bc Ci. destruct (s3_site _ _ _ _ _ _ _ G a b c Ba Bb Bc) as (x & Hx & Cx). exists x. split; [|unfold stands; auto 10]. eapply (s3_fun _ _ _ _ _ _ _ G a b c); eauto.
  Qed.
  Definition seen (a b c : Z) : bool := negb shell || (b =? 0) || (a =? sz) || (c =? sz).
  Definition fits (a b c : Z) : bool := (a <? sz) && (b <? sz) && (c <? sz).
  Lemma put_voxel_at ds x a b c : stands x a b c ->
    put_voxel ds x = if negb (seen a b c) then Ok ds else if fits a b c then
       let col := colr (s_id x) in Ok (dset col (match dget col ds with Some l => l | None => [] end ++ [[a; b; c]]) ds) else Err IndexError.
  Proof.
    intros (Hx & Ba & Bb & Bc & Cx). destruct (s3_loc _ _ _ _ _ _ _ G x a b c Hx Ba Bb Bc Cx) as (l0 & l1 & l2 & El & T0 & T1 & T2 & EQ). unfold put_voxel. rewrite El. cbn [map].
    change (list_getE [l0; l1; l2] 0) with (Ok l0). change (list_getE [l0; l1; l2] 1) with (Ok l1). change (list_getE [l0; l1; l2] 2) with (Ok l2). cbn [bind]. rewrite T0, T1, T2, (proj1 (EQ sz)), (proj1 (proj2 (EQ 0))), (proj2 (proj2 (EQ sz))).
    unfold seen.
    rewrite (CO (s_id x) x) by (apply (s3_get _ _ _ _ _ _ _ G); auto).
    assert (X : (if negb shell then Ok true else if b =? 0 then Ok true else if a =? sz then Ok true else Ok (c =? sz)) = Ok (negb shell || (b =? 0) || (a =? sz) || (c =? sz))) by (destruct shell, (b =? 0), (a =? sz), (c =? sz); reflexivity).
    rewrite X. cbn [bind]. destruct (negb shell || (b =? 0) || (a =? sz) || (c =? sz)); cbn [negb]; [|reflexivity]. rewrite (s3_dim _ _ _ _ _ _ _ G). cbn [length Nat.leb negb forallb]. unfold fits.
    replace (- sz <=? a) with ((a <? sz) || (- sz <=? a)) by lia. 
    assert (Y : ((a <? sz) || (- sz <=? a)) && (a <? sz) && ((- sz <=? b) && (b <? sz) && ((- sz <=? c) && (c <? sz) && true)) = (a <? sz) && (b <? sz) && (c <? sz)) by lia. rewrite Y.
    destruct ((a <? sz) && (b <? sz) && (c <? sz)); [|reflexivity]. cbn [map]. repeat (match goal with |- context [?z <? 0] => destruct (Z.ltb_spec z 0); [lia|] end). reflexivity.
  Qed.
  Lemma voxel_dset ds c v c' v' : voxel (dset c (match dget c ds with Some l => l | None => [] end ++ [v]) ds) c' v' <-> voxel ds c' v' \/ (c' = c /\ v' = v).
  Proof.
    unfold voxel. rewrite dget_dset. destruct (eqb_spec c' c) as [->|D].
    - split.
      + intros (l & E & H). injection E as <-. apply in_app_or in H as [H|[<-|[]]]; [left|right; auto]. destruct (dget c ds) as [l|]; [eauto|destruct H].
      + intros [(l & E & H)|[_ ->]]; eexists; (split; [reflexivity|]); apply in_or_app; [left; rewrite E; auto|right; simpl; auto].
    - split; [intros H; left; exact H|intros [H|[H _]]; [exact H|contradiction]].
  Qed.
  Lemma voxels_stage l : forall ds, (forall x, In x l -> In x (sites s None)) ->
    (exists ds', foldM put_voxel l ds = Ok ds' /\ (forall x a b c, In x l -> stands x a b c -> seen a b c = true -> fits a b c = true) /\
       forall col v, voxel ds' col v <-> voxel ds col v \/ exists x a b c, In x l /\ stands x a b c /\ seen a b c = true /\ v = [a; b; c] /\ col = colr (s_id x)) \/
    (foldM put_voxel l ds = Err IndexError /\ exists x a b c, In x l /\ stands x a b c /\ seen a b c = true /\ fits a b c = false).
  Proof.
    induction l as [|z l IH]; intros ds HL.
    - left. exists ds. split; [reflexivity|]. split; [intros ? ? ? ? []|]. intros col v. split; auto. intros [H|(x & ? & ? & ? & [] & _)]; auto.
    - destruct (stands_all z) as (a & b & c & Sz); [apply HL; simpl; auto|]. cbn [foldM]. rewrite (put_voxel_at ds z a b c Sz).
      assert (U : forall a' b' c', stands z a' b' c' -> a' = a /\ b' = b /\ c' = c).
      { intros a' b' c' (_ & Ba & Bb & Bc & C'). destruct Sz as (_ & Ba0 & Bb0 & Bc0 & C0). eapply (s3_inj _ _ _ _ _ _ _ G); eauto. }
      destruct (seen a b c) eqn:Es; cbn [negb bind].
      + destruct (fits a b c) eqn:Ef; cbn [bind].
        * cbn zeta. match goal with |- context [foldM put_voxel l ?d] => destruct (IH d) as [(ds' & E & F & V)|(E & x & a' & b' & c' & Hx & S')] end; [intros; apply HL; simpl; auto| |].
          -- left. exists ds'. split; [exact E|]. split.
             ++ intros x a' b' c' [<-|Hx] S'; [destruct (U _ _ _ S') as (-> & -> & ->); auto|now apply F with x].
             ++ intros col v. rewrite V, voxel_dset. split.
                ** intros [[H|[-> ->]]|(x & a' & b' & c' & Hx & R)]; [auto| |right; exists x, a', b', c'; simpl; intuition]. right. exists z, a, b, c. simpl; auto 10.
                ** intros [H|(x & a' & b' & c' & [<-|Hx] & S' & Se & -> & ->)]; [auto| |right; exists x, a', b', c'; auto]. destruct (U _ _ _ S') as (-> & -> & ->). auto.
          -- right. split; auto. exists x, a', b', c'. simpl. intuition.
        * right. split; auto. exists z, a, b, c. simpl; auto.
      + destruct (IH ds) as [(ds' & E & F & V)|(E & x & a' & b' & c' & Hx & S')]; [intros; apply HL; simpl; auto| |].
        * left. exists ds'. split; auto. split.
          -- intros x a' b' c' [<-|Hx] S'; [destruct (U _ _ _ S') as (-> & -> & ->); congruence|now apply F with x].
          -- intros col v. rewrite V. split.
             ++ intros [H|(x & a' & b' & c' & Hx & R)]; [auto|right; exists x, a', b', c'; simpl; intuition].
             ++ intros [H|(x & a' & b' & c' & [<-|Hx] & S' & Se & -> & ->)]; [auto| |right; exists x, a', b', c'; auto]. destruct (U _ _ _ S') as (-> & -> & ->). congruence.
        * right. split; auto. exists x, a', b', c'. simpl. intuition.
  Qed.
End Voxels.

(** The whole picture for arrays large enough. *)
Lemma draw_3d_all {FF} (trunc : FF -> Z) eq_loc P s art st colr n0 n1 n2 cube_root shell : screen3 trunc eq_loc s n0 n1 n2 P -> colours art s st colr -> n0 <= cube_root (size st) -> n1 <= cube_root (size st) -> n2 <= cube_root (size st) ->
  exists ds, draw_3d trunc eq_loc cube_root s art st shell = Ok (cube_root (size st), ds) /\
    forall col v, voxel ds col v <-> exists a b c i, v = [a; b; c] /\ 0 <= a < n1 /\ 0 <= b < n0 /\ 0 <= c < n2 /\ P a b c i /\ col = colr i /\ (shell = true -> b = 0).
Proof.
  intros SG CO B0 B1 B2. pose proof SG as G.
  set (sz := cube_root (size st)) in *.
  destruct (voxels_stage trunc eq_loc s art colr st n0 n1 n2 sz P shell G CO (sites s None) []) as [(ds & E & _ & V)|(E & x & a & b & c & Hx & S' & _ & F)]; [auto| |].
  - exists ds. split.
    + unfold draw_3d. change (foldM _ (sites s None) []) with (foldM (put_voxel trunc eq_loc s art st sz shell) (sites s None) []). rewrite E. reflexivity.
    + intros col v. rewrite V. split.
      * intros [(l & El & _)|(x & a & b & c & Hx & S' & Se & -> & ->)]; [discriminate|]. pose proof S' as (_ & Ba & Bb & Bc & Ci).
        exists a, b, c, (s_id x). repeat (split; [solve [auto|lia]|]).
        intros ->. unfold seen in Se. lia.
      * intros (a & b & c & i & -> & Ba & Bb & Bc & Ci & -> & Hs). right. destruct (stands_cell trunc eq_loc s n0 n1 n2 P G a b c i) as (x & <- & S'); auto. exists x, a, b, c.
        split; [apply S'|]. split; auto. split; [|split; reflexivity]. unfold seen. destruct shell; [|reflexivity]. rewrite Hs by auto. reflexivity.
  - destruct S' as (_ & Ba & Bb & Bc & _). unfold fits in F. lia.
Qed.

Lemma voxels_lemma : forall {FF} (trunc : FF -> Z) eq_loc P s art st colr n cube_root, screen3 trunc eq_loc s n n n P -> colours art s st colr -> cube_root (size st) = n ->
  exists ds, draw_3d trunc eq_loc cube_root s art st false = Ok (n, ds) /\
    (forall x y z i, 0 <= x < n -> 0 <= y < n -> 0 <= z < n -> P x y z i ->
       forall c, voxel ds c [x; y; z] <-> c = colr i) /\
    (forall c v, voxel ds c v -> exists x y z, v = [x; y; z] /\ 0 <= x < n /\ 0 <= y < n /\ 0 <= z < n).
Proof.
  intros FF trunc eq_loc P s art st colr n cube_root SG CO CR. destruct (draw_3d_all trunc eq_loc P s art st colr n n n cube_root false SG CO) as (ds & E & V); [lia..|]. rewrite CR in E. exists ds. split; auto. split.
  - intros x y z i Bx By Bz Ci c. rewrite V. split.
    + intros (a & b & c' & i' & Ev & _ & _ & _ & Ci' & -> & _). injection Ev as <- <- <-. assert (i' = i) by (apply (s3_fun _ _ _ _ _ _ _ SG x y z); auto). subst i'. congruence.
    + intros ->. exists x, y, z, i. repeat (split; auto). discriminate.
  - intros c v Hv. apply V in Hv as (a & b & c' & _ & -> & H1 & H2 & H3 & _). exists a, b, c'. auto.
Qed.
Lemma voxels_shell_lemma : forall {FF} (trunc : FF -> Z) eq_loc P s art st colr n cube_root, screen3 trunc eq_loc s n n n P -> colours art s st colr -> cube_root (size st) = n ->
  exists ds, draw_3d trunc eq_loc cube_root s art st true = Ok (n, ds) /\
    (forall x y z i, 0 <= x < n -> 0 <= y < n -> 0 <= z < n -> P x y z i ->
       forall c, voxel ds c [x; y; z] <-> y = 0 /\ c = colr i).
Proof.
  intros FF trunc eq_loc P s art st colr n cube_root SG CO CR. destruct (draw_3d_all trunc eq_loc P s art st colr n n n cube_root true SG CO) as (ds & E & V); [lia..|]. rewrite CR in E. exists ds. split; auto.
  intros x y z i Bx By Bz Ci c. rewrite V. split.
  - intros (a & b & c' & i' & Ev & _ & _ & _ & Ci' & -> & Hs). injection Ev as <- <- <-. assert (i' = i) by (apply (s3_fun _ _ _ _ _ _ _ SG x y z); auto). subst i'. split; [auto|congruence].
  - intros [-> ->]. exists x, 0, z, i. repeat (split; auto).
Qed.
Lemma voxels_box_lemma : forall {FF} (trunc : FF -> Z) eq_loc P s art st colr n0 n1 n2 cube_root, screen3 trunc eq_loc s n0 n1 n2 P -> 0 < n0 /\ 0 < n1 /\ 0 < n2 -> colours art s st colr -> cube_root (size st) < n0 \/ cube_root (size st) < n1 \/ cube_root (size st) < n2 ->
  draw_3d trunc eq_loc cube_root s art st false = Err IndexError.
Proof.
  intros FF trunc eq_loc P s art st colr n0 n1 n2 cube_root SG (Z0 & Z1 & Z2) CO H. pose proof SG as G.
  set (sz := cube_root (size st)) in *. unfold draw_3d. fold sz. change (foldM _ (sites s None) []) with (foldM (put_voxel trunc eq_loc s art st sz false) (sites s None) []).
  destruct (voxels_stage trunc eq_loc s art colr st n0 n1 n2 sz P false G CO (sites s None) []) as [(ds & E & F & V)|(E & _)]; [auto| |rewrite E; reflexivity]. exfalso.
  assert (X : exists a b c, 0 <= a < n1 /\ 0 <= b < n0 /\ 0 <= c < n2 /\ fits sz a b c = false).
  { exists (n1 - 1), (n0 - 1), (n2 - 1). unfold fits. lia. }
  destruct X as (a & b & c & Ba & Bb & Bc & N). destruct (s3_site _ _ _ _ _ _ _ G a b c Ba Bb Bc) as (x0 & _ & C).
  destruct (stands_cell trunc eq_loc s n0 n1 n2 P G a b c _ Ba Bb Bc C) as (x & _ & S'). rewrite (F x a b c) in N; [discriminate|apply S'|exact S'|reflexivity].
Qed.

(** ** The calls of voxels *)
Lemma put_nodup {FF} (trunc : FF -> Z) eq_loc s art st sz shell l : forall ds ds', NoDup (dkeys ds) -> foldM (put_voxel trunc eq_loc s art st sz shell) l ds = Ok ds' -> NoDup (dkeys ds').
Proof.
  induction l as [|x l IH]; intros ds ds' N E; cbn [foldM] in E; [injection E as <-; auto|].
  destruct (put_voxel trunc eq_loc s art st sz shell ds x) as [d|e] eqn:Ed; [|discriminate]. cbn [bind] in E. apply (IH d ds'); auto. clear IH E. unfold put_voxel in Ed. cbv zeta in Ed.
  match type of Ed with (do _ <- ?m; _) = _ => destruct m as [b|e]; [|discriminate] end. cbn [bind] in Ed. destruct (negb b); [injection Ed as <-; auto|].
  destruct (art_color art _) as [c|e]; [|discriminate]. cbn [bind] in Ed. destruct (negb _); [discriminate|]. destruct (forallb _ _); [|discriminate]. injection Ed as <-. now apply NoDup_dset.
Qed.
Lemma calls_lemma : forall {FF} (trunc : FF -> Z) eq_loc P s art st colr n cube_root shell, screen3 trunc eq_loc s n n n P -> colours art s st colr -> cube_root (size st) = n ->
  let hue := fun y i => if shell && negb (y =? 0) then Grey else Face (colr i) in
  exists calls, image_3d trunc eq_loc cube_root s art st shell = Ok calls /\ NoDup (map v_face calls) /\ hd_error (map v_face calls) = Some Grey /\
    (forall x y z i, 0 <= x < n -> 0 <= y < n -> 0 <= z < n -> P x y z i -> exists call, In call calls /\ v_face call = hue y i /\ In [x; y; z] (v_cells call)) /\
    (forall call v, In call calls -> In v (v_cells call) -> exists x y z i, v = [x; y; z] /\ 0 <= x < n /\ 0 <= y < n /\ 0 <= z < n /\ P x y z i /\ v_face call = hue y i).
Proof.
  intros FF trunc eq_loc P s art st colr n cube_root shell SG CO CR hue. destruct (draw_3d_all trunc eq_loc P s art st colr n n n cube_root shell SG CO) as (ds & E & V); [lia..|]. rewrite CR in E.
  assert (ND : NoDup (dkeys ds)).
  { unfold draw_3d in E. rewrite CR in E. change (foldM _ (sites s None) []) with (foldM (put_voxel trunc eq_loc s art st n shell) (sites s None) []) in E. destruct (foldM _ _ _) as [d|e] eqn:Ed; [|discriminate]. cbn [bind] in E. injection E as <-. eapply put_nodup; [|exact Ed]. constructor. }
  assert (VX : forall c v, voxel ds c v <-> exists l, In (c, l) ds /\ In v l).
  { intros c v. split; intros (l & H & Hv); exists l; (split; [|auto]); [now apply dget_In|now apply In_dget]. }
  assert (SP : forall x y z i, 0 <= x < n -> 0 <= y < n -> 0 <= z < n -> P x y z i -> (exists c, voxel ds c [x; y; z]) -> shell && negb (y =? 0) = false).
  { intros x y z i _ _ _ _ (c & H). apply V in H as (a & b & c' & i' & Ev & _ & _ & _ & _ & _ & Hs). injection Ev as <- <- <-. destruct shell; [|reflexivity]. rewrite Hs; auto. }
  unfold image_3d. rewrite E. cbn [bind]. rewrite (s3_dim _ _ _ _ _ _ _ SG). cbn [Nat.eqb negb]. eexists. split; [reflexivity|]. split; [|split; [reflexivity|split]].
  - cbn [map v_face]. rewrite map_map. cbn [v_face]. constructor.
    + intros H. apply in_map_iff in H as (d & H & _). discriminate.
    + rewrite <- (map_map fst Face). apply FinFun.Injective_map_NoDup; [|exact ND]. intros a b X. now injection X.
  - intros x y z i Bx By Bz C. unfold hue. destruct (shell && negb (y =? 0)) eqn:H.
    + eexists. split; [left; reflexivity|]. split; [reflexivity|]. cbn [v_cells]. apply filter_In. split.
      * apply product_In. cbn [repeat]. repeat constructor; apply zrange_In; lia.
      * apply Bool.negb_true_iff. apply Bool.not_true_is_false. intros X. apply existsb_exists in X as ((c & l) & Hd & X). apply existsb_exists in X as (v & Hv & X). apply (proj1 (eqb_true _ _)) in X. subst v.
        rewrite (SP x y z i) in H; auto; [discriminate|]. exists c. apply VX. exists l. auto.
    + assert (Hv : voxel ds (colr i) [x; y; z]) by (apply V; exists x, y, z, i; repeat (split; auto); intros ->; cbn in H; lia).
      apply VX in Hv as (l & Hl & Hv). exists (mkVoxels (Face (colr i)) l). split; [right; apply in_map_iff; exists (colr i, l); auto|]. split; [reflexivity|exact Hv].
  - intros call v [<-|Hc] Hv.
    + cbn [v_cells v_face] in *. apply filter_In in Hv as [Hp He]. apply product_In in Hp. cbn [repeat] in Hp. inversion Hp as [|x ? p1 ? Bx H1]; subst. inversion H1 as [|y ? p2 ? By H2]; subst. inversion H2 as [|z ? p3 ? Bz H3]; subst. inversion H3; subst.
      apply zrange_In in Bx, By, Bz. destruct (s3_site _ _ _ _ _ _ _ SG x y z) as (q & _ & Cq); auto. exists x, y, z, (s_id q). repeat (split; auto). unfold hue. destruct (shell && negb (y =? 0)) eqn:H; [reflexivity|]. exfalso.
      assert (Hv : voxel ds (colr (s_id q)) [x; y; z]) by (apply V; exists x, y, z, (s_id q); repeat (split; auto); intros ->; cbn in H; lia). apply VX in Hv as (l & Hl & Hv).
      apply Bool.negb_true_iff in He. assert (X : existsb (fun data => existsb (eqb [x; y; z]) (snd data)) ds = true); [|congruence]. apply existsb_exists. exists (colr (s_id q), l). split; auto. apply existsb_exists. exists [x; y; z]. split; auto. apply eqb_refl.
    + apply in_map_iff in Hc as ((c & l) & <- & Hd). cbn [v_cells v_face fst snd] in *. assert (H : voxel ds c v) by (apply VX; eauto). pose proof H as H'. apply V in H as (a & b & c' & i & -> & Ba & Bb & Bc & C & -> & Hs).
      exists a, b, c', i. repeat (split; auto). unfold hue. rewrite (SP a b c' i); eauto.
Qed.

(** ** Grids over the reals *)
Lemma screen3_real s n0 n1 n2 : square_grid [n0; n1; n2] s -> screen3 real_int real_eq s n0 n1 n2 (fun a b c i => cell s [a; b; c] i).
Proof.
  intros SG. destruct (square_facts _ _ SG) as [L G]. destruct (square_first _ _ n0 [n1; n2] SG eq_refl) as [_ PD].
  pose proof (gf_pos _ _ _ G) as GP.
  assert (BX : forall a b c, 0 <= a < n1 -> 0 <= b < n0 -> 0 <= c < n2 -> Forall2 (fun a m => 0 <= a < m) [a; b; c] (extents [n0; n1; n2])) by (intros; cbn [extents]; repeat constructor; lia).
  assert (GX : forall a b c, 0 <= a < n1 -> 0 <= b < n0 -> 0 <= c < n2 -> exists z, In z (sites s None) /\ cell s [a; b; c] (s_id z)).
  { intros a b c Ba Bb Bc. pose proof (gf_cell _ _ _ G [a; b; c] eq_refl) as C. set (i := rank [n0; n1; n2] (wrap_to [n0; n1; n2] (extents [a; b; c]))) in *.
    assert (E : exists z, get_site s i = Some z) by (unfold i; eexists; apply (gf_site _ _ _ G); apply wrap_cells; auto). destruct E as [z Gz]. exists z.
    apply (built_get L s (gf_built _ _ _ G)) in Gz as [Hz Ei]. split; auto. rewrite Ei. exact C. }
  assert (LOC : forall x a b c, In x (sites s None) -> 0 <= a < n1 -> 0 <= b < n0 -> 0 <= c < n2 -> cell s [a; b; c] (s_id x) -> s_loc x = [IZR a; IZR b; IZR c]).
  { intros x a b c Hx Ba Bb Bc C. assert (Gx : get_site s (s_id x) = Some x) by (apply (built_get L s (gf_built _ _ _ G)); auto). rewrite (cell_own _ _ _ _ _ _ G Gx C eq_refl (BX a b c Ba Bb Bc)). reflexivity. }
  constructor; auto.
  - intros x Hx. apply (built_get L s (gf_built _ _ _ G)). auto.
  - intros x Hx. destruct (site_cell _ _ _ (s_id x) x G) as (p & Lp & B & El & C & _).
    { apply (built_get L s (gf_built _ _ _ G)). auto. }
    cbn [extents length] in *. inversion B as [|a ? p1 ? Ba B1]; subst. inversion B1 as [|b ? p2 ? Bb B2]; subst. inversion B2 as [|c ? p3 ? Bc B3]; subst. inversion B3; subst. exists a, b, c. auto.
  - intros x a b c Hx Ba Bb Bc C. exists (IZR a), (IZR b), (IZR c). split; [now apply LOC|]. rewrite !real_int_IZR. repeat (split; auto); apply real_eq_IZR.
  - unfold cell. intros. congruence.
  - intros a b c a' b' c' i Ba Bb Bc Ba' Bb' Bc' C C'. destruct (GX a b c Ba Bb Bc) as (z & Hz & Cz). assert (Ei : s_id z = i) by (unfold cell in *; congruence). subst i.
    pose proof (LOC z a b c Hz Ba Bb Bc C) as E1. rewrite (LOC z a' b' c' Hz Ba' Bb' Bc' C') in E1. injection E1 as H1 H2 H3. apply eq_IZR in H1, H2, H3. auto.
Qed.
Lemma C71_lemma : forall s art st colr n cube_root, square_grid [n; n; n] s -> colours art s st colr -> cube_root (size st) = n ->
  exists ds, draw_3d real_int real_eq cube_root s art st false = Ok (n, ds) /\
    (forall x y z i, 0 <= x < n -> 0 <= y < n -> 0 <= z < n -> cell s [x; y; z] i ->
       forall c, voxel ds c [x; y; z] <-> c = colr i) /\
    (forall c v, voxel ds c v -> exists x y z, v = [x; y; z] /\ 0 <= x < n /\ 0 <= y < n /\ 0 <= z < n).
Proof. intros s art st colr n cube_root SG. exact (voxels_lemma real_int real_eq (fun a b c i => cell s [a; b; c] i) s art st colr n cube_root (screen3_real s n n n SG)). Qed.
Lemma C71_shell_lemma : forall s art st colr n cube_root, square_grid [n; n; n] s -> colours art s st colr -> cube_root (size st) = n ->
  exists ds, draw_3d real_int real_eq cube_root s art st true = Ok (n, ds) /\
    (forall x y z i, 0 <= x < n -> 0 <= y < n -> 0 <= z < n -> cell s [x; y; z] i ->
       forall c, voxel ds c [x; y; z] <-> y = 0 /\ c = colr i).
Proof. intros s art st colr n cube_root SG. exact (voxels_shell_lemma real_int real_eq (fun a b c i => cell s [a; b; c] i) s art st colr n cube_root (screen3_real s n n n SG)). Qed.
Lemma C71_box_lemma : forall s art st colr n0 n1 n2 cube_root, square_grid [n0; n1; n2] s -> colours art s st colr -> cube_root (size st) < n0 \/ cube_root (size st) < n1 \/ cube_root (size st) < n2 ->
  draw_3d real_int real_eq cube_root s art st false = Err IndexError.
Proof. intros s art st colr n0 n1 n2 cube_root SG. destruct (square_facts _ _ SG) as [L G]. pose proof (gf_pos _ _ _ G) as GP. assert (Z : 0 < n0 /\ 0 < n1 /\ 0 < n2) by (inversion GP as [|? ? ? GP']; subst; inversion GP' as [|? ? ? GP'']; subst; inversion GP''; auto).
  exact (voxels_box_lemma real_int real_eq (fun a b c i => cell s [a; b; c] i) s art st colr n0 n1 n2 cube_root (screen3_real s n0 n1 n2 SG) Z). Qed.
Lemma C71_calls_lemma : forall s art st colr n cube_root shell, square_grid [n; n; n] s -> colours art s st colr -> cube_root (size st) = n ->
  let hue := fun y i => if shell && negb (y =? 0) then Grey else Face (colr i) in
  exists calls, image_3d real_int real_eq cube_root s art st shell = Ok calls /\ NoDup (map v_face calls) /\ hd_error (map v_face calls) = Some Grey /\
    (forall x y z i, 0 <= x < n -> 0 <= y < n -> 0 <= z < n -> cell s [x; y; z] i -> exists call, In call calls /\ v_face call = hue y i /\ In [x; y; z] (v_cells call)) /\
    (forall call v, In call calls -> In v (v_cells call) -> exists x y z i, v = [x; y; z] /\ 0 <= x < n /\ 0 <= y < n /\ 0 <= z < n /\ cell s [x; y; z] i /\ v_face call = hue y i).
Proof. intros s art st colr n cube_root shell SG. exact (calls_lemma real_int real_eq (fun a b c i => cell s [a; b; c] i) s art st colr n cube_root shell (screen3_real s n n n SG)). Qed.
