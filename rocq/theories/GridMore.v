(** Square grids: geometry, Moore and von Neumann neighbourhoods. *)
From Coq Require Import Reals Lra Permutation.
From Verif Require Import Prelude Dict Arith RVec RealArith LatticeModel JsonModel StructModel NbModel GridModel
  SpecGeom SpecNb SpecGrid LatticeFacts LatticeMore StructFacts StructMore StructBuild NbFacts NbMore NbDemo GridFacts.
Local Open Scope Z_scope.

Lemma nth_error_ext {B} (l m : list B) : (forall k, nth_error l k = nth_error m k) -> l = m.
Proof.
  revert m; induction l as [|a l IH]; destruct m as [|b m]; intros H; auto; try (specialize (H 0%nat); discriminate).
  pose proof (H 0%nat) as E. injection E as ->. f_equal. apply IH. intros k. apply (H (S k)).
Qed.
Lemma extents_length p : length (extents p) = length p.
Proof. destruct p as [|a [|b p]]; auto. Qed.
Lemma extents_twice p : extents (extents p) = p.
Proof. destruct p as [|a [|b p]]; auto. Qed.

Definition sq2 : list vec := [[0; 1]; [1; 0]]%R.
Definition sq3 : list vec := [[0; 1; 0]; [1; 0; 0]; [0; 0; 1]]%R.
Lemma sq2_basis : basis 2 sq2.
Proof. apply basis_2. lra. Qed.
Lemma sq3_basis : basis 3 sq3.
Proof.
  split; [reflexivity|]. split; [repeat constructor|]. intros c Lc E. destruct c as [|x [|y [|z [|]]]]; try discriminate.
  unfold sq3, lincomb, vplus, vscale, vzero in E. simpl in E. injection E as E1 E2 E3. unfold vzero; simpl. repeat (f_equal; try lra).
Qed.
Lemma sq2_sym : symmetric 2 sq2.
Proof.
  intros [|x [|y [|]]] H; try discriminate. unfold sq2, lincomb, vplus, vscale, vzero, vdot; simpl. repeat (f_equal; try ring).
Qed.
Lemma sq3_sym : symmetric 3 sq3.
Proof.
  intros [|x [|y [|z [|]]]] H; try discriminate. unfold sq3, lincomb, vplus, vscale, vzero, vdot; simpl. repeat (f_equal; try ring).
Qed.

Lemma square_exists size : Forall (fun a => 0 < a) size -> length size = 2%nat ->
  exists b s L, SimpleSquare2DStructureBuilder RA = Ok b /\ build RA b (SzTuple size) = Ok s /\ grid_facts size s L.
Proof.
  intros Pk D. unfold SimpleSquare2DStructureBuilder, SquareGridLattice2D.
  change (map (nums RA) [[0; 1]; [1; 0]]) with sq2.
  destruct (C23_exists_lemma 2 sq2 (PBool true) ltac:(lia) sq2_basis eq_refl) as (L & EL & HL & _). rewrite EL. cbn [bind].
  set (b := mkBuilder L _ _). exists b.
  destruct (grid_from size sq2 L Pk (or_introl D)) as (s & L' & EB & GF).
  - rewrite D. exact HL.
  - rewrite D. exact sq2_sym.
  - rewrite D. intros [|x [|y [|]]] H; try discriminate. unfold sq2, lincomb, vplus, vscale, vzero, at_; simpl. repeat (f_equal; try ring).
  - destruct size as [|m [|k [|]]]; try discriminate. intros c Hc. apply cells_In in Hc.
    inversion Hc as [|x ? cx ? Hx Hc']; subst. inversion Hc' as [|y ? cy ? Hy Hc'']; subst. inversion Hc''; subst. cbn [length repeat].
    apply Forall_inv in Pk as P1. apply Forall_inv_tail, Forall_inv in Pk as P2.
    assert (0 < IZR m)%R by (apply IZR_lt; auto). assert (0 < IZR k)%R by (apply IZR_lt; auto).
    exists [(IZR x / IZR m)%R; (IZR y / IZR k)%R]. split.
    + split; auto. unfold sq2, scaled, lincomb, vplus, vscale, vzero, at_; simpl. f_equal; [field; lra|f_equal; field; lra].
    + assert (U : forall u w, 0 <= u < w -> (0 < IZR w)%R -> (0 <= IZR u / IZR w < 1)%R).
      { intros u w [U1 U2] U3. apply IZR_le in U1. apply IZR_lt in U2. split; [apply Rmult_le_pos; auto; left; now apply Rinv_0_lt_compat|].
        apply (Rmult_lt_reg_r (IZR w)); auto. unfold Rdiv. rewrite Rmult_assoc, Rinv_l by lra. lra. }
      constructor; [intros _; apply U; auto|constructor; [intros _; apply U; auto|constructor]].
  - destruct size as [|m [|k [|]]]; try discriminate. intros [|x [|y [|]]] H; try discriminate. cbn [length repeat].
    unfold wrap_to. simpl. exists [y / m; x / k]. split; [repeat constructor; discriminate|].
    apply Forall_inv in Pk as P1. apply Forall_inv_tail, Forall_inv in Pk as P2.
    unfold sq2, scaled, lincomb, vplus, vscale, vzero, at_; simpl.
    rewrite (Z.div_mod x k) at 1 by lia. rewrite (Z.div_mod y m) at 1 by lia. rewrite !plus_IZR, !mult_IZR. repeat (f_equal; try ring).
  - exists s, L'. split; auto. split; auto. unfold build. change (b_lattice b) with L. rewrite (on_dim _ _ _ _ HL), D. simpl.
    rewrite D in EB. exact EB.
Qed.

Lemma cube_exists size : Forall (fun a => 0 < a) size -> length size = 3%nat ->
  exists b s L, SimpleSquare3DStructureBuilder RA = Ok b /\ build RA b (SzTuple size) = Ok s /\ grid_facts size s L.
Proof.
  intros Pk D. unfold SimpleSquare3DStructureBuilder, SquareGridLattice3D.
  change (map (nums RA) [[0; 1; 0]; [1; 0; 0]; [0; 0; 1]]) with sq3.
  destruct (C23_exists_lemma 3 sq3 (PBool true) ltac:(lia) sq3_basis eq_refl) as (L & EL & HL & _). rewrite EL. cbn [bind].
  set (b := mkBuilder L _ _). exists b.
  destruct (grid_from size sq3 L Pk (or_intror D)) as (s & L' & EB & GF).
  - rewrite D. exact HL.
  - rewrite D. exact sq3_sym.
  - rewrite D. intros [|x [|y [|z [|]]]] H; try discriminate. unfold sq3, lincomb, vplus, vscale, vzero, at_; simpl. repeat (f_equal; try ring).
  - destruct size as [|m [|k [|h [|]]]]; try discriminate. intros c Hc. apply cells_In in Hc.
    inversion Hc as [|x ? cx ? Hx Hc']; subst. inversion Hc' as [|y ? cy ? Hy Hc'']; subst. inversion Hc'' as [|z ? cz ? Hz Hc3]; subst.
    inversion Hc3; subst. cbn [length repeat].
    apply Forall_inv in Pk as P1. apply Forall_inv_tail in Pk as Pk'. apply Forall_inv in Pk' as P2. apply Forall_inv_tail, Forall_inv in Pk' as P3.
    assert (0 < IZR m)%R by (apply IZR_lt; auto). assert (0 < IZR k)%R by (apply IZR_lt; auto). assert (0 < IZR h)%R by (apply IZR_lt; auto).
    exists [(IZR x / IZR m)%R; (IZR y / IZR k)%R; (IZR z / IZR h)%R]. split.
    + split; auto. unfold sq3, scaled, lincomb, vplus, vscale, vzero, at_; simpl. f_equal; [field; lra|f_equal; [field; lra|f_equal; field; lra]].
    + assert (U : forall u w, 0 <= u < w -> (0 < IZR w)%R -> (0 <= IZR u / IZR w < 1)%R).
      { intros u w [U1 U2] U3. apply IZR_le in U1. apply IZR_lt in U2. split; [apply Rmult_le_pos; auto; left; now apply Rinv_0_lt_compat|].
        apply (Rmult_lt_reg_r (IZR w)); auto. unfold Rdiv. rewrite Rmult_assoc, Rinv_l by lra. lra. }
      constructor; [intros _; apply U; auto|constructor; [intros _; apply U; auto|constructor; [intros _; apply U; auto|constructor]]].
  - destruct size as [|m [|k [|h [|]]]]; try discriminate. intros [|x [|y [|z [|]]]] H; try discriminate. cbn [length repeat].
    unfold wrap_to. simpl. exists [y / m; x / k; z / h]. split; [repeat constructor; discriminate|].
    apply Forall_inv in Pk as P1. apply Forall_inv_tail in Pk as Pk'. apply Forall_inv in Pk' as P2. apply Forall_inv_tail, Forall_inv in Pk' as P3.
    unfold sq3, scaled, lincomb, vplus, vscale, vzero, at_; simpl.
    rewrite (Z.div_mod x k) at 1 by lia. rewrite (Z.div_mod y m) at 1 by lia. rewrite (Z.div_mod z h) at 1 by lia.
    rewrite !plus_IZR, !mult_IZR. repeat (f_equal; try ring).
  - exists s, L'. split; auto. split; auto. unfold build. change (b_lattice b) with L. rewrite (on_dim _ _ _ _ HL), D. simpl.
    rewrite D in EB. exact EB.
Qed.

Lemma square_facts size s : square_grid size s -> exists L, grid_facts size s L.
Proof.
  intros [P [[D (b & E & B)]|[D (b & E & B)]]].
  - destruct (square_exists size P D) as (b' & s' & L & E' & B' & G). assert (b = b') by congruence. subst b'. assert (s = s') by congruence. subst. eauto.
  - destruct (cube_exists size P D) as (b' & s' & L & E' & B' & G). assert (b = b') by congruence. subst b'. assert (s = s') by congruence. subst. eauto.
Qed.

(* ---------------------------------------------------------------- geometry of grids *)
Lemma same_extents size p q : length p = length size -> length q = length size ->
  (same_cell size (extents p) (extents q) <-> same_cell (extents size) p q).
Proof.
  intros Lp Lq. assert (G : forall size p q, same_cell size (extents p) (extents q) -> same_cell (extents size) p q).
  { clear. intros size p q (L1 & L2 & H). rewrite extents_length in L1, L2. split; [now rewrite extents_length|]. split; [now rewrite extents_length|].
    destruct size as [|m [|k size]], p as [|a [|b p]], q as [|c [|d q]]; simpl in *; try discriminate; auto.
    intros [|[|i]] m' a' b' H1 H2 H3; simpl in *.
    - apply (H 1%nat m' a' b'); auto.
    - apply (H 0%nat m' a' b'); auto.
    - apply (H (S (S i)) m' a' b'); auto. }
  split; [apply G|]. intros H. rewrite <- (extents_twice size). apply G. now rewrite !extents_twice.
Qed.

Lemma cell_iff size s L p q i j : grid_facts size s L -> length p = length size -> length q = length size ->
  cell s p i -> cell s q j -> (i = j <-> same_cell (extents size) p q).
Proof.
  intros G Lp Lq Hp Hq. pose proof (gf_cell _ _ _ G p Lp) as Hp'. pose proof (gf_cell _ _ _ G q Lq) as Hq'.
  unfold cell in *. rewrite Hp in Hp'. rewrite Hq in Hq'. injection Hp' as ->. injection Hq' as ->.
  pose proof (gf_pos _ _ _ G) as P. rewrite <- same_extents, <- wrap_eq by (rewrite ?extents_length; auto). split; [|now intros ->].
  apply rank_inj; auto; apply wrap_cells; auto; now rewrite extents_length.
Qed.
Lemma same_cell_refl w p : length p = length w -> same_cell w p p.
Proof. intros L. split; auto. split; auto. intros k m a b _ Ha Hb. rewrite Ha in Hb. injection Hb as <-. exists 0. lia. Qed.
Lemma same_cell_sym w p q : same_cell w p q -> same_cell w q p.
Proof. intros (A & B & H). split; auto. split; auto. intros k m a b Hm Ha Hb. destruct (H k m b a Hm Hb Ha) as [z E]. exists (- z). lia. Qed.

Lemma shift_length p d : length d = length p -> length (shift p d) = length p.
Proof. unfold shift. revert d; induction p; destruct d; simpl; intros; try discriminate; auto. Qed.
Lemma shift_nth p d k x : nth_error (shift p d) k = Some x <-> exists a b, nth_error p k = Some a /\ nth_error d k = Some b /\ x = a + b.
Proof.
  unfold shift. revert d k; induction p as [|a p IH]; intros [|b d] [|k]; simpl; try apply IH;
    (split; [intros E; try discriminate; injection E as <-; eauto|intros (u & v & E1 & E2 & ->); congruence]).
Qed.
Lemma same_shift w p q d : length d = length w -> same_cell w p q -> same_cell w (shift p d) (shift q d).
Proof.
  intros Ld (Lp & Lq & H). split; [rewrite shift_length; congruence|]. split; [rewrite shift_length; congruence|].
  intros k m a b Hm Ha Hb. apply shift_nth in Ha as (a1 & a2 & Ha1 & Ha2 & ->). apply shift_nth in Hb as (b1 & b2 & Hb1 & Hb2 & ->).
  rewrite Ha2 in Hb2. injection Hb2 as <-. destruct (H k m a1 b1 Hm Ha1 Hb1) as [z E]. exists z. lia.
Qed.
Lemma cell_same size s L p q i : grid_facts size s L -> length p = length size -> same_cell (extents size) p q -> cell s p i -> cell s q i.
Proof.
  intros G Lp SC Hp. assert (Lq : length q = length size) by (destruct SC as (_ & Lq & _); now rewrite extents_length in Lq).
  pose proof (gf_cell _ _ _ G q Lq) as Hq. apply (cell_iff size s L p q _ _ G Lp Lq Hp Hq) in SC. rewrite <- SC in Hq. exact Hq.
Qed.

Lemma site_cell size s L i x : grid_facts size s L -> get_site s i = Some x ->
  exists p, length p = length size /\ Forall2 (fun a m => 0 <= a < m) p (extents size) /\ s_loc x = at_ p /\ cell s p i /\ s_class x = "_A"%string.
Proof.
  intros G Gx. pose proof (gf_built _ _ _ G) as HB. pose proof (gf_pos _ _ _ G) as P.
  pose proof (proj1 (built_get L s HB i x) Gx) as [Hx Ei]. pose proof (built_dense RA L s HB) as D.
  pose proof (dense_id s x D Hx) as B. rewrite Ei in B. rewrite (gf_count _ _ _ G) in B.
  assert (LC : (Z.to_nat i < length (cells size))%nat) by (pose proof (cells_count size P); lia).
  destruct (nth_error (cells size) (Z.to_nat i)) as [c|] eqn:Ec; [|apply nth_error_None in Ec; lia].
  pose proof (nth_error_In _ _ Ec) as Hc. pose proof (cells_nth size c P Hc) as Ec'.
  assert (Er : i = rank size c).
  { pose proof (rank_bound _ _ Hc). enough (Z.to_nat i = Z.to_nat (rank size c)) by lia.
    eapply NoDup_nth_error; [apply (cells_NoDup size)|auto|congruence]. }
  rewrite Er in Gx. rewrite (gf_site _ _ _ G c Hc) in Gx. injection Gx as <-.
  pose proof (cells_length _ _ Hc) as Lc. exists (extents c). rewrite extents_length. split; auto. split.
  - apply cells_In in Hc. destruct size as [|m [|k t]], c as [|a [|b c]]; simpl in *; try discriminate; auto.
    inversion Hc as [|? ? ? ? H1 H2]; subst. inversion H2; subst. auto.
  - split; auto. split; auto. pose proof (gf_cell _ _ _ G (extents c)) as GC. rewrite extents_twice, wrap_fix in GC by auto.
    rewrite Er. apply GC. now rewrite extents_length.
Qed.

(* ---------------------------------------------------------------- integer motifs *)
Lemma at_shift p d : length d = length p -> vplus (at_ p) (map IZR d) = at_ (shift p d).
Proof.
  unfold vplus, at_, shift. revert d; induction p; destruct d; simpl; intros; try discriminate; auto. rewrite plus_IZR. f_equal. auto.
Qed.
Lemma grid_motif size s L D : grid_facts size s L -> Forall (fun d => length d = length size) D ->
  exists b N, motif_builder RA (map (nums RA) D) = Ok b /\ nb_get RA b s None = Ok N /\
    forall x i, length x = length size -> cell s x i ->
      neighbours N i (fun j => j <> i /\ exists d, In d D /\ cell s (shift x d) j).
Proof.
  intros G FD. pose proof (gf_built _ _ _ G) as HB. destruct (gf_on _ _ _ G) as [vs HL]. rewrite Forall_forall in FD.
  assert (FM : Forall (fun v => length v = length size) (map (nums RA) D)).
  { rewrite Forall_map. apply Forall_forall. intros d Hd. unfold nums. rewrite map_length. auto. }
  destruct (C39_lemma _ _ _ L s (map (nums RA) D) None HL HB FM) as (b & N & Eb & EN & H).
  { intros i x v Gx _ Hv. apply in_map_iff in Hv as (d & <- & Hd). destruct (site_cell _ _ _ _ _ G Gx) as (p & Lp & _ & -> & _).
    change (nums RA d) with (map IZR d). rewrite at_shift by (rewrite FD; auto).
    pose proof (gf_cell _ _ _ G (shift p d)) as C. unfold cell in C. rewrite C; [discriminate|]. rewrite shift_length; auto. rewrite FD; auto. }
  exists b, N. split; auto. split; auto. intros x i Lx Cx.
  assert (exists y, get_site s i = Some y) as [y Gy].
  { pose proof (gf_cell _ _ _ G x Lx) as C. unfold cell in *. rewrite Cx in C. injection C as ->. eexists. apply (gf_site _ _ _ G).
    apply wrap_cells; [apply (gf_pos _ _ _ G)|now rewrite extents_length]. }
  destruct (H i y Gy I) as [Hn _]. intros o Lo. destruct (Hn o Lo) as (l & El & ND & IN). exists l. split; auto. split; auto.
  intros j. rewrite IN. destruct (site_cell _ _ _ _ _ G Gy) as (p & Lp & _ & -> & Cp & _).
  assert (SC : same_cell (extents size) p x) by (apply (cell_iff size s L p x i i G Lp Lx Cp Cx); auto).
  split; intros (Nj & v & Hv & C); (split; [auto|]).
  - apply in_map_iff in Hv as (d & <- & Hd). exists d. split; auto. change (nums RA d) with (map IZR d) in C.
    rewrite at_shift in C by (rewrite FD; auto). apply (cell_same size s L (shift p d)); auto.
    + rewrite shift_length; auto. rewrite FD; auto.
    + apply same_shift; auto. rewrite extents_length. auto.
  - exists (nums RA v). split; [now apply in_map|]. change (nums RA v) with (map IZR v). rewrite at_shift by (rewrite FD; auto).
    apply (cell_same size s L (shift x v)); auto.
    + rewrite shift_length; auto. rewrite FD; auto.
    + apply same_shift; [rewrite extents_length; auto|]. now apply same_cell_sym.
Qed.

(** The number of neighbours given by an integer motif without repetitions. *)
Lemma grid_motif_count size s L D (N : nbhood R) r x i (o : @nb_oracle R) l : grid_facts size s L -> Forall (fun d => length d = length size) D -> NoDup D ->
  Forall (fun d => Forall (fun a => Z.abs a <= r) d) D -> Forall (fun m => 2 * r + 1 <= m) size ->
  length x = length size -> cell s x i -> neighbours N i (fun j => j <> i /\ exists d, In d D /\ cell s (shift x d) j) ->
  legal o -> neighbors_of o N i = Ok l ->
  length l = length (filter (fun d => negb (forallb (Z.eqb 0) d)) D).
Proof.
  intros G FD ND BD BS Lx Cx HN Lo El. destruct (HN o Lo) as (l' & El' & NDl & IN). rewrite El in El'. injection El' as <-.
  rewrite Forall_forall in FD, BD.
  set (D' := filter _ D). set (f := fun d => rank size (wrap_to size (extents (shift x d)))).
  assert (LS : forall d, In d D -> length (shift x d) = length size) by (intros; rewrite shift_length; auto; rewrite FD; auto).
  assert (FC : forall d, In d D -> cell s (shift x d) (f d)) by (intros; apply (gf_cell _ _ _ G); auto).
  assert (SM : forall d e, length d = length size -> length e = length size -> Forall (fun a => Z.abs a <= r) d -> Forall (fun a => Z.abs a <= r) e ->
     same_cell (extents size) (shift x d) (shift x e) -> d = e).
  { intros d e Ld Le Bd Be (_ & _ & H). apply nth_error_ext. intros k.
    destruct (nth_error d k) as [a|] eqn:Ea.
    2:{ apply nth_error_None in Ea. symmetry. apply nth_error_None. lia. }
    assert (k < length size)%nat by (rewrite <- Ld; apply nth_error_Some; congruence).
    destruct (nth_error e k) as [b|] eqn:Eb; [|apply nth_error_None in Eb; lia].
    destruct (nth_error x k) as [u|] eqn:Eu; [|apply nth_error_None in Eu; lia].
    destruct (nth_error (extents size) k) as [m|] eqn:Em; [|apply nth_error_None in Em; rewrite extents_length in Em; lia].
    assert (2 * r + 1 <= m).
    { assert (FE : Forall (fun m => 2 * r + 1 <= m) (extents size)).
      { destruct size as [|m0 [|m1 t]]; simpl; auto. inversion BS as [|? ? B1 B2]; subst. inversion B2; subst. auto. }
      rewrite Forall_forall in FE. apply FE. eapply nth_error_In; eauto. }
    destruct (H k m (u + a) (u + b) Em) as [z E]; [apply shift_nth; eauto|apply shift_nth; eauto|].
    rewrite Forall_forall in Bd, Be. apply nth_error_In in Ea, Eb. specialize (Bd a Ea). specialize (Be b Eb).
    assert (z = 0) by nia. f_equal. lia. }
  assert (P : Permutation l (map f D')).
  { apply NoDup_Permutation; auto.
    - assert (NDD : NoDup D') by now apply NoDup_filter.
      assert (SUB : forall d, In d D' -> In d D) by (intros d Hd; apply filter_In in Hd; tauto). revert NDD SUB. generalize D' as E.
      induction E as [|d E IH]; intros NE SUB; simpl; constructor; inversion NE; subst.
      + intros Hd. apply in_map_iff in Hd as (e & Ee & He). assert (d = e); [|subst; contradiction].
        assert (In d D) by (apply SUB; simpl; auto). assert (In e D) by (apply SUB; simpl; auto).
        apply SM; auto. apply (cell_iff size s L _ _ (f d) (f e) G); auto.
      + apply IH; auto. intros; apply SUB; simpl; auto.
    - intros j. rewrite IN, in_map_iff. assert (Z0 : length (map (fun _ => 0) x) = length size) by now rewrite map_length.
      assert (X0 : shift x (map (fun _ => 0) x) = x) by (unfold shift; clear; induction x; simpl; auto; f_equal; auto; lia).
      split.
      + intros (Nj & d & Hd & C). exists d. pose proof (FC d Hd) as C'. unfold cell in C, C'. rewrite C in C'. injection C' as <-. split; auto.
        apply filter_In. split; auto. destruct (forallb (Z.eqb 0) d) eqn:F0; auto. exfalso. apply Nj.
        assert (d = map (fun _ => 0) x) as ->.
        { clear -F0 Lx FD Hd. specialize (FD d Hd). rewrite <- Lx in FD. clear Lx Hd. revert x FD. induction d as [|a d IH]; destruct x; simpl; intros FD; try discriminate; auto.
          cbn [forallb] in F0. apply andb_prop in F0 as [F1 F2]. apply Z.eqb_eq in F1. f_equal; auto. }
        rewrite X0 in C. unfold cell in Cx. congruence.
      + intros (d & <- & Hd). apply filter_In in Hd as [Hd F0]. split; [|exists d; auto].
        intros E. assert (d = map (fun _ => 0) x).
        { apply SM; auto.
          - destruct size as [|m t]; [destruct (gf_dim _ _ _ G); discriminate|]. specialize (BD d Hd). specialize (FD d Hd).
            destruct d as [|a d]; [discriminate|]. apply Forall_inv in BD. rewrite Forall_map. apply Forall_forall. intros. simpl. lia.
          - rewrite X0. apply (cell_iff size s L _ _ (f d) i G); auto. }
        subst d. assert (forallb (Z.eqb 0) (map (fun _ => 0) x) = true) as Y by (clear; induction x; simpl; auto).
        rewrite Y in F0. discriminate. }
  rewrite (Permutation_length P). apply map_length.
Qed.
