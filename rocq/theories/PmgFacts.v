(** Facts about the pymatgen converter (C66, C73). *)
From Coq Require Import Reals Lra Permutation.
From Verif Require Import Prelude Dict Val ValFacts Arith RVec RealArith LatticeModel JsonModel StructModel StateModel NbModel GridModel SimModel SetupModel
  SpecState SpecGeom SpecNb SpecGrid SpecSetup LatticeFacts LatticeMore StructFacts StructMore StructBuild NbFacts NbMore GridFacts SetupFacts PmgModel SpecPmg.
Local Open Scope Z_scope.

(** * The motif lists every atom once *)
Definition spread {B C} (g : B -> C) (m : dict string (list B)) : list (string * C) :=
  flat_map (fun cv => map (fun v => (fst cv, g v)) (snd cv)) m.

Lemma motif_step {B C} (g : B -> C) (m : dict string (list B)) c v :
  Permutation (spread g match dget c m with Some fs => dset c (fs ++ [v]) m | None => dset c [v] m end)
              (spread g m ++ [(c, g v)]).
Proof.
  destruct (dget c m) as [fs|] eqn:G.
  - induction m as [|[c' l] m IH]; [discriminate|]. cbn [dget dset] in *. destruct (eqb_spec c c') as [<-|D].
    + injection G as ->. cbn [spread flat_map fst snd]. rewrite map_app. cbn [map]. rewrite <- !app_assoc. apply Permutation_app_head.
      apply Permutation_app_comm.
    + cbn [spread flat_map fst snd]. rewrite <- app_assoc. apply Permutation_app_head. exact (IH G).
  - rewrite dset_None by auto. unfold spread. rewrite flat_map_app. cbn [flat_map map fst snd app]. reflexivity.
Qed.

Lemma motif_all {B} (g : list B -> vec) l : Permutation (spread g (struct_motif l)) (map (fun a => (fst a, g (snd a))) l).
Proof.
  unfold struct_motif. enough (G : forall m, Permutation (spread g (fold_left (fun m site =>
      match dget (fst site) m with
      | Some fs => dset (fst site) (fs ++ [snd site]) m
      | None => dset (fst site) [snd site] m
      end) l m)) (spread g m ++ map (fun a => (fst a, g (snd a))) l)) by exact (G []).
  induction l as [|[c v] l IH]; intros m; cbn [fold_left]; [rewrite app_nil_r; auto|].
  etransitivity; [apply IH|]. cbn [map fst snd]. rewrite (motif_step g m c v), <- app_assoc. reflexivity.
Qed.

(** * Collisions do not depend on the order *)
Lemma same_place_sym n vs per p q : same_place n vs per p q -> same_place n vs per q p.
Proof. intros (p' & q' & H1 & H2 & E). exists q', p'. auto. Qed.

Lemma no_collision_pairs n vs per l : no_collision n vs per l <->
  ForallOrdPairs (fun a b => ~ same_place n vs per (snd a) (snd b)) l.
Proof.
  split.
  - induction l as [|[c p] l IH]; intros H; constructor.
    + apply Forall_forall. intros [d q] I. apply In_nth_error in I as [j Hj].
      apply (H 0%nat (Datatypes.S j) c d p q); auto.
    + apply IH. intros i j a b x y N Hi Hj. apply (H (Datatypes.S i) (Datatypes.S j) a b x y); auto.
  - induction 1 as [|[c p] l F _ IH]; intros i j a b x y N Hi Hj SP; [destruct i; discriminate|].
    destruct i as [|i], j as [|j]; cbn in Hi, Hj; [now apply N| | |].
    + injection Hi as <- <-. apply nth_error_In in Hj. exact (proj1 (Forall_forall _ _) F _ Hj SP).
    + injection Hj as <- <-. apply nth_error_In in Hi. apply (proj1 (Forall_forall _ _) F _ Hi). now apply same_place_sym.
    + apply (IH i j a b x y); auto.
Qed.

Lemma pairs_perm {B} (Q : B -> B -> Prop) l m : (forall x y, Q x y -> Q y x) -> Permutation l m ->
  ForallOrdPairs Q l -> ForallOrdPairs Q m.
Proof.
  intros SY PM. induction PM; intros H; auto.
  - inversion H; subst. constructor; auto. eapply Permutation_Forall; eauto.
  - inversion H as [|? ? F1 H1]; subst. inversion H1 as [|? ? F2 H2]; subst. inversion F1; subst.
    constructor; [constructor; auto|]. constructor; auto.
Qed.

Lemma no_collision_perm n vs per l m : Permutation l m -> no_collision n vs per l -> no_collision n vs per m.
Proof.
  rewrite !no_collision_pairs. intros P. apply pairs_perm; auto. intros x y N H. apply N. now apply same_place_sym.
Qed.

(** * One cell *)
Lemma tiling_perm l k vs : length k = 3%nat -> Forall (fun a => length (snd a) = 3%nat) l -> widths 3 vs -> length vs = 3%nat ->
  Permutation (tiling k (struct_motif l) (frac_place 3 vs))
    (flat_map (fun c => map (fun a => (fst a, vplus (lincomb 3 (map IZR c) vs) (lincomb 3 (snd a) vs))) l) (cells k)).
Proof.
  intros Lk FL W Lv. unfold tiling. assert (HC : forall c, In c (cells k) -> length c = 3%nat) by (intros c H; apply cells_length in H; lia).
  induction (cells k) as [|c cs IH]; cbn [flat_map]; auto. apply Permutation_app; [|apply IH; intros; apply HC; simpl; auto].
  etransitivity; [exact (motif_all (frac_place 3 vs c) l)|]. erewrite map_ext_in; [reflexivity|].
  intros [sp f] I. cbn [fst snd]. f_equal. unfold frac_place. apply (proj1 (Forall_forall _ _) FL) in I. cbn [snd] in I.
  rewrite lincomb_plus; auto. rewrite map_length, I. apply HC. simpl; auto.
Qed.

Lemma In_dset_inv {B} (k k' : string) (v v' : B) d : In (k', v') (dset k v d) -> (k', v') = (k, v) \/ In (k', v') d.
Proof.
  induction d as [|[a b] d IH]; cbn [dset]; [intros [E|[]]; auto|].
  destruct (eqb_spec k a) as [->|D]; intros [E|I]; auto; [right; right; auto|right; left; auto|].
  destruct (IH I); auto. right; right; auto.
Qed.

Lemma motif_in {B} (l : list (string * list B)) : forall c fs v, In (c, fs) (struct_motif l) -> In v fs -> In v (map snd l).
Proof.
  unfold struct_motif. enough (G : forall m c fs v, In (c, fs) (fold_left (fun m site =>
      match dget (fst site) m with
      | Some fs => dset (fst site) (fs ++ [snd site]) m
      | None => dset (fst site) [snd site] m
      end) l m) -> In v fs -> In v (map snd l) \/ exists c' fs', In (c', fs') m /\ In v fs').
  { intros c fs v H I. destruct (G [] c fs v H I) as [?|(? & ? & [] & _)]; auto. }
  induction l as [|[sp f] l IH]; intros m c fs v H I; cbn [fold_left] in H; [right; eauto|].
  destruct (IH _ c fs v H I) as [?|(c' & fs' & H' & I')]; [left; simpl; auto|]. cbn [fst snd] in H'.
  destruct (dget sp m) as [gs|] eqn:G.
  - apply In_dset_inv in H' as [[= -> ->]|H']; [|eauto]. apply in_app_or in I' as [I'|[<-|[]]]; [|left; simpl; auto].
    right. exists sp, gs. split; auto. now apply dget_In.
  - apply In_dset_inv in H' as [[= -> ->]|H']; [|eauto]. destruct I' as [<-|[]]. left; simpl; auto.
Qed.

Lemma motif_good l : Forall (fun a => length (snd a) = 3%nat) l -> motif_ok 3 (MDict (struct_motif l)).
Proof.
  intros FL c fs v H I. cbn [motif_dict] in H. apply (motif_in l c fs v H) in I. apply in_map_iff in I as (a & <- & I).
  exact (proj1 (Forall_forall _ _) FL _ I).
Qed.

Lemma crystal_lattice P : crystal P ->
  exists L, to_pylattica_lattice P = Ok L /\ lattice_on 3 (g_matrix P) everywhere L.
Proof.
  intros [HB _]. pose proof (lattice_init_flags 3 (g_matrix P) (PBool true) ltac:(lia) HB) as E.
  exists (mkLattice (g_matrix P) everywhere (g_matrix P) 3). split; [exact E|].
  split; auto. split; auto. exists (PBool true). auto.
Qed.

Lemma C66_supercell_lemma : forall P, crystal P ->
  exists b, to_pylattica_structure_builder P = Ok b /\
  forall k, length k = 3%nat -> Forall (fun a => 0 < a) k ->
  let all := flat_map (fun c => map (fun a => (fst a, vplus (lincomb 3 (map IZR c) (g_matrix P)) (snd a))) (atoms P)) (cells k) in
  (no_collision 3 (scaled k (g_matrix P)) everywhere all ->
     exists s l, build RA b (SzTuple k) = Ok s /\ Permutation l all /\ holds_sites 3 (scaled k (g_matrix P)) everywhere s l) /\
  (~ no_collision 3 (scaled k (g_matrix P)) everywhere all -> build RA b (SzTuple k) = Err AssertionError).
Proof.
  intros P C. destruct (crystal_lattice P C) as (L & EL & HL). destruct C as [HB FL].
  eexists. split; [unfold to_pylattica_structure_builder; rewrite EL; reflexivity|].
  intros k Lk Pk all. unfold build. cbn [b_lattice b_motif b_frac].
  rewrite (on_dim _ _ _ _ HL), Lk. cbn [Nat.eqb negb].
  pose proof (C33_fractional_lemma 3 (g_matrix P) everywhere L k (MDict (struct_motif (g_sites P))) HL Lk Pk (motif_good _ FL)) as [G1 G2].
  cbn [motif_dict] in *.
  assert (PM : Permutation (tiling k (struct_motif (g_sites P)) (frac_place 3 (g_matrix P))) all).
  { etransitivity; [apply tiling_perm; auto; [apply (on_widths _ _ _ _ HL)|apply (on_length _ _ _ _ HL)]|].
    unfold all, atoms. apply Permutation_refl', flat_map_ext. intros c. rewrite map_map. reflexivity. }
  split.
  - intros NC. destruct G1 as (s & E & HS & _).
    + eapply no_collision_perm; [symmetry; exact PM|exact NC].
    + exists s, (tiling k (struct_motif (g_sites P)) (frac_place 3 (g_matrix P))). auto.
  - intros NC. apply G2. intros NC'. apply NC. eapply no_collision_perm; eauto.
Qed.

(** * The structure and its state *)
Lemma scaled_ones vs : length vs = 3%nat -> scaled [1; 1; 1] vs = vs.
Proof.
  intros L. destruct vs as [|a [|b [|c [|]]]]; try discriminate. unfold scaled, zipwith. now rewrite !vscale_one.
Qed.

Lemma frac_loc n vs per L k m c v : lattice_on n vs per L -> length k = n -> motif_ok n m -> In c (cells k) ->
  In v (concat (map snd (motif_dict m))) ->
  motif_loc RA L true c v = Ok (frac_place n vs c v) /\ length (frac_place n vs c v) = n.
Proof.
  intros HL Lk MO Hc Hv. assert (Lc : length c = n) by (apply cells_length in Hc; lia).
  apply motif_vec_in in Hv as (cl & l & Hl & Hv). pose proof (MO _ _ _ Hl Hv) as Lv.
  assert (LS : length (vplus (map IZR c) v) = n) by (rewrite vplus_length; rewrite map_length; congruence).
  unfold motif_loc, frac_place. cbn [bind]. change (map (a_ofZ RA) c) with (map IZR c).
  rewrite bcast_eq by (rewrite map_length; congruence). cbn [bind]. change (zipwith (a_add RA) (map IZR c) v) with (vplus (map IZR c) v).
  rewrite (cart_ok n vs per L HL) by auto. split; auto. apply lincomb_length.
  apply (on_widths n vs per L HL).
Qed.

Lemma one_cell_perm P : crystal P -> Permutation (tiling [1; 1; 1] (struct_motif (g_sites P)) (frac_place 3 (g_matrix P))) (atoms P).
Proof.
  intros [HB FL]. etransitivity; [apply tiling_perm; auto; apply HB|].
  change (cells [1; 1; 1]) with [[0; 0; 0]]. cbn [flat_map]. rewrite app_nil_r. apply Permutation_refl'. apply map_ext_in.
  intros a I. f_equal. change (map IZR [0; 0; 0]) with (vzero 3). rewrite lincomb_vzero by apply HB. apply vplus_zero_l.
  apply lincomb_length. apply HB.
Qed.

(** The build as a history of calls, one per atom. *)
Lemma one_cell P : crystal P ->
  exists b L, to_pylattica_structure_builder P = Ok b /\ lattice_on 3 (g_matrix P) everywhere L /\
  (no_collision 3 (g_matrix P) everywhere (atoms P) ->
     exists s outs l, build RA b (SzInt 1) = Ok s /\ Permutation l (atoms P) /\ holds_sites 3 (g_matrix P) everywhere s l /\
       adds RA (struct_init L) l = (s, outs) /\ accepted l outs = l) /\
  (~ no_collision 3 (g_matrix P) everywhere (atoms P) -> build RA b (SzInt 1) = Err AssertionError).
Proof.
  intros C. destruct (crystal_lattice P C) as (L & EL & HL). pose proof C as [HB FL].
  assert (P1 : Forall (fun a => 0 < a) [1; 1; 1]) by (repeat constructor; lia).
  pose proof (motif_good _ FL) as MO.
  destruct (build_tiling 3 (g_matrix P) everywhere L [1; 1; 1] (MDict (struct_motif (g_sites P))) true (frac_place 3 (g_matrix P)) HL eq_refl P1)
    as (L' & HL' & EB).
  { intros c v Hc Hv. exact (proj1 (frac_loc 3 _ everywhere L [1; 1; 1] _ c v HL eq_refl MO Hc Hv)). }
  destruct (C33_fractional_lemma 3 (g_matrix P) everywhere L [1; 1; 1] (MDict (struct_motif (g_sites P))) HL eq_refl P1 MO) as [G1 G2].
  rewrite scaled_ones in * by apply HB. cbn [motif_dict] in *. pose proof (one_cell_perm P C) as PM.
  eexists _, L'. split; [unfold to_pylattica_structure_builder; rewrite EL; reflexivity|]. split; auto.
  unfold build. cbn [b_lattice b_motif b_frac]. rewrite (on_dim _ _ _ _ HL). cbn [repeat]. split.
  - intros NC. destruct G1 as (s & E & HS & _); [eapply no_collision_perm; [symmetry; exact PM|exact NC]|].
    pose proof E as E'. rewrite EB in E'. apply foldM_adds in E' as (outs & EA & AC). eauto 10.
  - intros NC. apply G2. intros NC'. apply NC. eapply no_collision_perm; eauto.
Qed.

(** States whose sites carry their id and perhaps a phase. *)
Definition lay (ids : list Z) (g : Z -> option val) : sstate :=
  mkS (map (fun i => (KInt i, (SITE_ID, VInt i) :: match g i with Some v => [(KStr "DISCRETE_OCCUPANCY", v)] | None => [] end)) ids) [].
Definition gput (g : Z -> option val) (i : Z) (v : val) (j : Z) : option val := if j =? i then Some v else g j.

Lemma lay_get ids g i : In i ids ->
  dget (KInt i) (s_sites (lay ids g)) = Some ((SITE_ID, VInt i) :: match g i with Some v => [(KStr "DISCRETE_OCCUPANCY", v)] | None => [] end).
Proof.
  induction ids as [|j ids IH]; [intros []|]. cbn [lay s_sites map dget]. intros I.
  destruct (eqb_spec (KInt i) (KInt j)) as [E|D]; [injection E as ->; auto|]. apply IH. destruct I; auto. congruence.
Qed.

Lemma lay_set ids g i v : NoDup ids -> In i ids ->
  set_site_state (lay ids g) (KInt i) [(KStr "DISCRETE_OCCUPANCY", v)] = lay ids (gput g i v).
Proof.
  intros ND I. unfold set_site_state. rewrite (lay_get _ _ _ I). unfold lay at 2 3. cbn [s_general]. f_equal.
  replace (dmerge _ _) with [(SITE_ID, VInt i); (KStr "DISCRETE_OCCUPANCY", v)] by (destruct (g i); reflexivity).
  unfold lay. cbn [s_sites]. induction ids as [|j ids IH]; [destruct I|]. inversion ND; subst. cbn [map dset].
  destruct (eqb_spec (KInt i) (KInt j)) as [E|D].
  - injection E as ->. f_equal; [unfold gput; now rewrite Z.eqb_refl|]. apply map_ext_in. intros x Hx. unfold gput.
    destruct (Z.eqb_spec x j) as [->|]; auto. contradiction.
  - f_equal; [unfold gput; destruct (Z.eqb_spec j i); congruence|]. apply IH; auto. destruct I; auto. congruence.
Qed.

Lemma lay_start ids : NoDup ids -> from_struct ids = lay ids (fun _ => None).
Proof.
  intros ND. unfold from_struct.
  enough (G : forall done, NoDup (done ++ ids) -> fold_left (fun s i => set_site_state s (KInt i) []) ids (lay done (fun _ => None)) = lay (done ++ ids) (fun _ => None))
    by exact (G [] ND).
  clear ND. induction ids as [|i ids IH]; intros done ND; cbn [fold_left]; [now rewrite app_nil_r|].
  replace (done ++ i :: ids) with ((done ++ [i]) ++ ids) in * by (now rewrite <- app_assoc). rewrite <- IH by auto. f_equal.
  assert (NI : ~ In (KInt i) (dkeys (s_sites (lay done (fun _ => None))))).
  { unfold lay, dkeys. cbn [s_sites]. rewrite map_map. cbn [fst]. intros H. apply in_map_iff in H as (j & [= ->] & I).
    rewrite <- app_assoc in ND. apply NoDup_remove_2 in ND. apply ND, in_or_app. auto. }
  unfold set_site_state. rewrite (proj2 (dget_None _ _) NI). unfold lay at 2. cbn [s_general]. f_equal.
  rewrite dset_snoc by auto. unfold lay. cbn [s_sites]. rewrite map_app. reflexivity.
Qed.

Lemma holds_length n vs per s l : holds_sites n vs per s l -> length (sites s None) = length l.
Proof.
  intros H. unfold holds_sites in H. assert (E : length (enumerate l) = length l) by (unfold enumerate; apply enumerate_from_length).
  rewrite <- E. clear E. induction H; simpl; auto.
Qed.

Lemma C66_to_pylattica_lemma : forall P, crystal P ->
  (no_collision 3 (g_matrix P) everywhere (atoms P) ->
     exists s st l, to_pylattica_structure_and_state RA P = Ok (s, st) /\
       Permutation l (atoms P) /\ holds_sites 3 (g_matrix P) everywhere s l /\
       configuration s st (fun i p => exists x, get_site s i = Some x /\ s_class x = p) /\
       forall sp p, In (sp, p) (atoms P) -> exists x, site_at RA s p = Ok (Some x) /\ s_class x = sp) /\
  (~ no_collision 3 (g_matrix P) everywhere (atoms P) ->
     to_pylattica_structure_and_state RA P = Err AssertionError).
Proof.
  intros P C. destruct (one_cell P C) as (b & L & EB & HL & G1 & G2). unfold to_pylattica_structure_and_state. rewrite EB. cbn [bind].
  split; [|intros NC; now rewrite G2].
  intros NC. destruct (G1 NC) as (s & outs & l & Es & PM & HS & EA & AC). rewrite Es. cbn [bind].
  assert (BT : built RA L s) by (exists l; now rewrite EA).
  pose proof (built_dense RA L s BT) as DS.
  pose proof (C28_lemma 3 (g_matrix P) everywhere L l s outs HL EA) as (_ & IDS & _). rewrite AC in IDS.
  pose proof (proj1 (C29_lemma 3 (g_matrix P) everywhere L l s outs HL EA)) as LK. rewrite AC in LK.
  pose proof (holds_length _ _ _ _ _ HS) as LN.
  assert (AT : forall sp p, In (sp, p) (atoms P) -> exists x, site_at RA s p = Ok (Some x) /\ s_class x = sp /\ get_site s (s_id x) = Some x).
  { intros sp p I. apply (Permutation_in _ (Permutation_sym PM)) in I. apply In_nth_error in I as [i Hi].
    destruct (LK i sp p p Hi) as (x & Gx & Cx & Ix & Sx & _).
    - apply (image_refl _ _ _ L HL). destruct C as [HB FL].
      apply nth_error_In in Hi. apply (Permutation_in _ PM) in Hi. apply in_map_iff in Hi as (a & [= <- <-] & _).
      apply lincomb_length, HB.
    - exists x. rewrite Ix. auto. }
  set (ids := zrange 0 (Z.of_nat (length l))) in *. rewrite IDS.
  assert (ND : NoDup ids) by apply zrange_NoDup. rewrite (lay_start ids ND).
  assert (IN : forall i x, get_site s i = Some x -> In i ids /\ s_id x = i).
  { intros i x Gx. apply (built_get L s BT) in Gx as [Hx <-]. split; auto. pose proof (dense_id s x DS Hx). rewrite LN in *. apply zrange_In. lia. }
  (* the loop *)
  assert (LOOP : forall rest g, incl rest (g_sites P) ->
    (forall i x v, get_site s i = Some x -> g i = Some v -> v = VStr (s_class x)) ->
    exists g', foldM (fun st site =>
               do c <- pmg_coords RA P (snd site);
               do x <- site_at RA s c;
               match x with
               | None => Err TypeError
               | Some x => Ok (set_site_state st (KInt (s_id x)) [(KStr "DISCRETE_OCCUPANCY", VStr (fst site))])
               end) rest (lay ids g) = Ok (lay ids g') /\
      (forall i x v, get_site s i = Some x -> g' i = Some v -> v = VStr (s_class x)) /\
      (forall i, g i <> None -> g' i <> None) /\
      (forall sp f x, In (sp, f) rest -> site_at RA s (lincomb 3 f (g_matrix P)) = Ok (Some x) -> g' (s_id x) <> None)).
  { destruct C as [HB FL]. induction rest as [|[sp f] rest IH]; intros g IC OKg; cbn [foldM fst snd].
    - exists g. split; auto.
    - assert (I : In (sp, f) (g_sites P)) by (apply IC; left; auto).
      assert (Lf : length f = 3%nat) by (exact (proj1 (Forall_forall _ _) FL _ I)).
      destruct (AT sp (lincomb 3 f (g_matrix P))) as (x & Sx & Cx & Gx).
      { unfold atoms. apply in_map_iff. exists (sp, f). auto. }
      assert (EC : pmg_coords RA P f = Ok (lincomb 3 f (g_matrix P))).
      { pose proof (cart_ok 3 (g_matrix P) everywhere L HL f Lf) as E. unfold get_cartesian_coords in E. rewrite (on_matrix _ _ _ _ HL) in E. exact E. }
      rewrite EC. cbn [bind]. rewrite Sx. cbn [bind]. destruct (IN _ _ Gx) as [Ix _]. rewrite lay_set by auto.
      destruct (IH (gput g (s_id x) (VStr sp))) as (g' & E & OKg' & KE & DO).
      + intros a Ha. apply IC. right; auto.
      + intros i y v Gy Ev. unfold gput in Ev. destruct (Z.eqb_spec i (s_id x)) as [->|].
        * injection Ev as <-. rewrite Gx in Gy. injection Gy as <-. now rewrite Cx.
        * eauto.
      + exists g'. split; [exact E|]. split; auto. split.
        * intros i Hi. apply KE. unfold gput. destruct (i =? s_id x); [discriminate|auto].
        * intros sp' f' x' [[= <- <-]|Hr] Sx'; [|eauto]. rewrite Sx in Sx'. injection Sx' as <-. apply KE. unfold gput. now rewrite Z.eqb_refl. }
  destruct (LOOP (g_sites P) (fun _ => None) (incl_refl _) ltac:(discriminate)) as (g & -> & OKg & _ & DO). cbn [bind].
  exists s, (lay ids g), l. split; auto. split; auto. split; auto. split.
  - split; [|split; [reflexivity|]].
    + unfold site_ids, lay, dkeys. cbn [s_sites]. rewrite map_map. cbn [fst]. rewrite <- (map_map s_id KInt). f_equal.
      unfold dense in DS. rewrite DS, LN. reflexivity.
    + intros i x Gx. exists (s_class x). split; [|exists x; auto]. destruct (IN _ _ Gx) as [Ii Ei].
      unfold get_site_state. rewrite (lay_get ids g i Ii).
      assert (SOME : g i <> None).
      { assert (exists a, nth_error l (Z.to_nat i) = Some a) as [[sp p] Ha].
        { apply zrange_In in Ii. destruct (nth_error l (Z.to_nat i)) eqn:N; eauto. apply nth_error_None in N. lia. }
        assert (IA : In (sp, p) (atoms P)) by (apply (Permutation_in _ PM); eapply nth_error_In; eauto).
        unfold atoms in IA. apply in_map_iff in IA as ([sp' f] & [= -> <-] & If). cbn [fst snd] in *.
        destruct (LK _ _ _ (lincomb 3 f (g_matrix P)) Ha) as (y & Gy & _ & Iy & Sy & _).
        { apply (image_refl _ _ _ L HL). apply lincomb_length, C. }
        apply zrange_In in Ii. rewrite Z2Nat.id in * by lia. rewrite <- Iy. eapply DO; eauto. }
      destruct (g i) as [v|] eqn:Eg; [|contradiction]. rewrite (OKg i x v Gx Eg). reflexivity.
  - intros sp p I. destruct (AT sp p I) as (x & Sx & Cx & _). eauto.
Qed.

(** * Back to pymatgen *)
Lemma pmg_lattice_basis vs : basis 3 vs -> pmg_lattice vs = Ok vs.
Proof.
  intros HB. unfold pmg_lattice. assert (W : widths 3 vs) by apply HB. assert (Lv : length vs = 3%nat) by apply HB.
  rewrite (concat_width 3) by exact W. rewrite Lv. cbn [Nat.mul Nat.add Nat.eqb]. rewrite <- Lv at 1.
  pose proof (chunks_concat 3 vs W) as E. rewrite Lv in *. now rewrite E.
Qed.

Lemma mapM_Forall2 {B C} (f : B -> res C) (Q : B -> C -> Prop) l :
  (forall x, In x l -> exists y, f x = Ok y /\ Q x y) -> exists m, mapM f l = Ok m /\ Forall2 Q l m.
Proof.
  induction l as [|x l IH]; intros H; [exists []; split; auto; constructor|].
  destruct (H x) as (y & E & Qy); [left; auto|]. destruct IH as (m & Em & Fm); [intros; apply H; right; auto|].
  exists (y :: m). cbn [mapM]. rewrite E. cbn [bind]. rewrite Em. split; auto.
Qed.

Lemma C66_to_pymatgen_lemma : forall vs per L s species, lattice_on 3 vs per L -> built RA L s ->
  (forall x, In x (sites s None) -> species (s_class x) = Ok (s_class x)) ->
  exists P, to_pymatgen_structure RA species s = Ok P /\ g_matrix P = vs /\ g_pbc P = everywhere /\
    Forall2 (fun x a => fst a = s_class x /\ coords 3 vs (snd a) (s_loc x)) (sites s None) (g_sites P).
Proof.
  intros vs per L s species HL BT SP. unfold to_pymatgen_structure, to_pymatgen_lattice.
  rewrite (built_lattice L s BT), (on_vecs _ _ _ _ HL), pmg_lattice_basis by apply HL. cbn [bind].
  pose proof (built_dense RA L s BT) as DS. destruct (built_inv RA L s BT) as [h I]. pose proof I as (_ & _ & ES & EI & _).
  assert (EI' : p_ids s = map s_id (sites s None)).
  { unfold dense in DS. rewrite DS, EI. f_equal. f_equal. pose proof (sites_length RA L h s I) as Ln. unfold sites, dvals. rewrite map_length. lia. }
  rewrite EI'.
  destruct (mapM_Forall2 (fun sid =>
              do c <- site_class s sid;
              do loc <- site_location s sid;
              do f <- get_fractional_coords RA L loc;
              Ok (c, f)) (fun i a => exists x, get_site s i = Some x /\ fst a = s_class x /\ coords 3 vs (snd a) (s_loc x)) (map s_id (sites s None)))
    as (m & Em & Fm).
  { intros i Hi. apply in_map_iff in Hi as (x & <- & Hx). assert (Gx : get_site s (s_id x) = Some x) by (apply (built_get L s BT); auto).
    unfold site_class, site_location. rewrite Gx. cbn [bind].
    destruct (frac_ok 3 vs per L HL (s_loc x)) as (f & -> & Cf); [apply (built_loc 3 vs per L HL s BT); auto|]. cbn [bind].
    eexists. split; [reflexivity|]. exists x. auto. }
  rewrite Em. cbn [bind]. unfold pmg_new.
  assert (Fm' : Forall2 (fun x a => fst a = s_class x /\ coords 3 vs (snd a) (s_loc x)) (sites s None) m).
  { clear Em. assert (G : forall xs, (forall x, In x xs -> get_site s (s_id x) = Some x) -> forall m,
      Forall2 (fun i a => exists x, get_site s i = Some x /\ fst a = s_class x /\ coords 3 vs (snd a) (s_loc x)) (map s_id xs) m ->
      Forall2 (fun x a => fst a = s_class x /\ coords 3 vs (snd a) (s_loc x)) xs m).
    { induction xs as [|x xs IH]; intros HX m' F; cbn [map] in F; inversion F; subst; constructor.
      - destruct H1 as (z & Gy & E1 & E2). rewrite (HX x) in Gy by (left; auto). injection Gy as <-. auto.
      - apply IH; auto. intros; apply HX; right; auto. }
    apply G; auto. intros x Hx. apply (built_get L s BT). auto. }
  assert (EM : mapM (fun x => do c <- species (fst x); Ok (c, snd x)) m = Ok m).
  { clear Em Fm. revert SP Fm'. generalize (sites s None) as xs. intros xs SP F. induction F as [|x [c f] xs m [E1 E2] F IH]; auto.
    cbn [mapM fst snd] in *. subst c. rewrite (SP x) by (left; auto). cbn [bind]. rewrite IH; auto. intros; apply SP; right; auto. }
  rewrite EM. cbn [bind]. eexists. split; [reflexivity|]. auto.
Qed.

Lemma near_round q : near q (map round3 q).
Proof. induction q; cbn [map]; constructor; auto. apply round3_bound. Qed.

Lemma C66_round_trip_lemma : forall P species, crystal P -> no_collision 3 (g_matrix P) everywhere (atoms P) ->
  (forall sp f, In (sp, f) (g_sites P) -> species sp = Ok sp) ->
  exists s st Q l, to_pylattica_structure_and_state RA P = Ok (s, st) /\ to_pymatgen_structure RA species s = Ok Q /\
    g_matrix Q = g_matrix P /\ g_pbc Q = everywhere /\ Permutation l (atoms P) /\
    Forall2 (fun a b => fst b = fst a /\ exists q, periodised 3 (g_matrix P) everywhere (snd a) q /\ near q (snd b)) l (atoms Q).
Proof.
  intros P species C NC SP. destruct (one_cell P C) as (b & L & EB & HL & G1 & _).
  destruct (proj1 (C66_to_pylattica_lemma P C) NC) as (s & st & l' & E & _).
  destruct (G1 NC) as (s' & outs & l & Es & PM & HS & EA & AC).
  assert (s' = s) as ->.
  { unfold to_pylattica_structure_and_state in E. rewrite EB in E. cbn [bind] in E. rewrite Es in E. cbn [bind] in E.
    apply bind_Ok in E as (st' & _ & E). now injection E as -> _. }
  assert (BT : built RA L s) by (exists l; now rewrite EA).
  destruct (C66_to_pymatgen_lemma (g_matrix P) everywhere L s species HL BT) as (Q & EQ & MQ & BQ & FQ).
  { intros x Hx. unfold holds_sites in HS. clear -HS SP PM Hx.
    assert (exists a, In a l /\ s_class x = fst a) as ([sp p] & Ia & ->).
    { unfold enumerate in HS. revert HS Hx. generalize 0 as k. generalize (sites s None) as xs. clear PM. induction l as [|a l IH]; intros xs k F Hx; inversion F; subst; [destruct Hx|].
      destruct Hx as [<-|Hx]; [destruct H1 as (q & _ & ->); exists a; split; [left|]; auto|].
      destruct (IH _ _ H3 Hx) as (a' & I & E). exists a'. split; [right|]; auto. }
    apply (Permutation_in _ PM) in Ia. apply in_map_iff in Ia as ([sp' f] & [= -> <-] & If). cbn [fst] in *. eapply SP; eauto. }
  exists s, st, Q, l. split; auto. split; auto. split; auto. split; auto. split; auto.
  unfold atoms. rewrite MQ. clear -HS FQ. unfold holds_sites, enumerate in HS. revert HS FQ.
  generalize 0 as k. generalize (sites s None) as xs. generalize (g_sites Q) as m.
  induction l as [|[c p] l IH]; intros m xs k F1 F2; cbn [enumerate_from] in F1; inversion F1; subst; inversion F2; subst; constructor.
  - destruct H1 as (q & Pq & ->). destruct H2 as [E1 [_ E2]]. cbn [fst snd s_class s_loc] in *. split; auto. exists q. split; auto.
    rewrite E2. apply near_round.
  - eapply IH; eauto.
Qed.

(** * Lattices *)
Lemma C73_lattice_lemma : forall vs per L, lattice_on 3 vs per L ->
  exists M L', to_pymatgen_lattice L = Ok M /\ to_pylattica_lattice (mkPmg M everywhere []) = Ok L' /\
    l_vecs L' = vs /\ l_matrix L' = vs /\ l_periodic L' = everywhere /\ (per = everywhere -> L' = L).
Proof.
  intros vs per L HL. exists vs, (mkLattice vs everywhere vs 3). unfold to_pymatgen_lattice. rewrite (on_vecs _ _ _ _ HL).
  split; [apply pmg_lattice_basis, HL|]. split; [apply (lattice_init_flags 3 vs (PBool true)); [lia|apply HL]|].
  repeat split; auto. intros ->. destruct (lattice_on_fields _ _ _ _ HL) as [-> _]. reflexivity.
Qed.

Lemma C73_refuted_lemma : exists vs per L M L', lattice_on 3 vs per L /\ to_pymatgen_lattice L = Ok M /\
  to_pylattica_lattice (mkPmg M everywhere []) = Ok L' /\ l_periodic L' <> l_periodic L.
Proof.
  set (vs := idmat 3). assert (HB : basis 3 vs).
  { eapply inverse_basis. exact (conj (idmat_length 3) (conj (idmat_widths 3) (conj (idmat_length 3) (conj (idmat_widths 3) (conj (fun v H => eq_trans (f_equal (fun w => lincomb 3 w (idmat 3)) (lincomb_id 3 v H)) (lincomb_id 3 v H)) (fun v H => eq_trans (f_equal (fun w => lincomb 3 w (idmat 3)) (lincomb_id 3 v H)) (lincomb_id 3 v H))))))). }
  assert (HL : lattice_on 3 vs [true; true; false] (mkLattice vs [true; true; false] vs 3)).
  { split; auto. split; auto. exists (PFlags [true; true; false]). split; auto. }
  destruct (C73_lattice_lemma _ _ _ HL) as (M & L' & E1 & E2 & _ & _ & E3 & _).
  exists vs, [true; true; false], (mkLattice vs [true; true; false] vs 3), M, L'. split; auto. split; auto. split; auto.
  rewrite E3. discriminate.
Qed.

Lemma C73_dimension_lemma : forall n vs per L s species, n <> 3%nat -> lattice_on n vs per L -> built RA L s ->
  to_pymatgen_structure RA species s = Err ValueError.
Proof.
  intros n vs per L s species D HL BT. unfold to_pymatgen_structure, to_pymatgen_lattice.
  rewrite (built_lattice L s BT), (on_vecs _ _ _ _ HL). unfold pmg_lattice.
  rewrite (concat_width n) by apply (on_widths _ _ _ _ HL). rewrite (on_length _ _ _ _ HL).
  destruct (Nat.eqb_spec (n * n) 9) as [E|]; auto. exfalso. apply D. nia.
Qed.
