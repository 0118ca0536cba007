(** Structures survive as_dict and from_dict in binary64 (C100). *)
From Coq Require Import Reals Lra Psatz.
From Flocq Require Import Core BinarySingleNaN.
From Verif Require Import Prelude Dict Val Arith RealArith FloatArith LatticeModel JsonModel StructModel StateModel ResultModel RunnerModel NbModel GridModel SimModel SetupModel
  SpecState SpecResult SpecGeom SpecNb SpecGrid SpecSetup SpecFloat64 SpecNuc StateFacts JsonFacts StructFacts StructMore StructBuild
  LatticeFacts NbFacts NbMore GridFacts GridMore GridNb GridOpen SetupFacts FloatFacts FloatCoord FloatGrid FloatMore FloatNb FloatVec FloatAxis FloatBox FloatNorm FloatCut FloatOpen FloatTorus FloatNuc.
Local Open Scope Z_scope.

Lemma place_fits k x z : 1 <= k <= M20 -> 0 <= x < k -> 0 <= z < 1000 -> (Rabs (placeR x z - (IZR x + IZR z / 1000)) <= / 1048576 /\ 0 <= placeR x z)%R.
Proof.
  intros Hk Hx Hz. unfold placeR. assert (E : (IZR (1000 * x + z) / 1000 = IZR x + IZR z / 1000)%R) by (rewrite plus_IZR, mult_IZR; field). rewrite E.
  pose proof (milli_bound z Hz) as MB. assert (BI : (0 <= IZR x <= 1048576)%R) by (split; [apply (IZR_le 0); lia|change 1048576%R with (IZR M20); apply IZR_le; lia]). split.
  - assert (B : (Rabs (IZR x + IZR z / 1000) <= 1048577)%R) by (apply Rabs_le; lra). apply (rnd_close _ _ _ B); [simpl; lra|unfold ulp_; simpl; lra].
  - rewrite <- rnd_0. apply rnd_le. lra.
Qed.

(** Comparison only looks at the numbers. *)
Lemma eqb_same v a b x : denotes a x -> denotes b x -> f_eqb v a = f_eqb v b.
Proof.
  intros [Fa Ea] [Fb Eb]. unfold f_eqb. destruct (is_finite v) eqn:Fv.
  - rewrite !Beqb_correct by auto. now rewrite Ea, Eb.
  - destruct v as [sv|[]| |]; try discriminate; destruct a, b; try discriminate; reflexivity.
Qed.
Lemma vec_eqb_same n ks ks' x : dens n ks x -> dens n ks' x -> forall v, vec_eqb FA v ks = vec_eqb FA v ks'.
Proof.
  intros [L1 D1] [L2 D2]. assert (H : Forall2 (fun a b => exists r, denotes a r /\ denotes b r) ks ks').
  { apply (Forall2_nth _ (f_ofZ 0) (f_ofZ 0)); [congruence|]. intros a Ha. rewrite L1 in Ha. eauto. }
  clear -H. unfold vec_eqb. induction H as [|a b ks ks' (r & Da & Db) H IH]; intros [|v w]; cbn [list_eqb]; auto.
  rewrite IH. f_equal. change (f_eqb v a = f_eqb v b). now apply (eqb_same v a b r).
Qed.

Lemma pairs {B C} (P : B -> C -> Prop) a b l m : Forall2 P (a :: l) (b :: m) -> P a b /\ Forall2 P l m.
Proof. intros H. inversion H; auto. Qed.
Lemma Forall2_len {B C} (P : B -> C -> Prop) l m : Forall2 P l m -> length l = length m.
Proof. induction 1; simpl; auto. Qed.

Section Reload.
  Variables (n : nat) (s : nat -> nat) (N : nat -> Z) (per : list bool) (L : lattice b64) (z : nat -> Z) (k : list Z) (cls : string).
  Hypothesis Hs : forall a, (a < n)%nat -> (s a < n)%nat /\ s (s a) = a.
  Hypothesis HN : forall a, (a < n)%nat -> (1 <= N a <= M20)%Z.
  Hypothesis HL : axis_lattice n s N per L.
  Hypothesis Hz : forall a, (a < n)%nat -> (0 <= z a < 1000)%Z.
  Hypothesis Lk : length k = n.
  Hypothesis HNk : forall a, (a < n)%nat -> N a = nth (s a) k 0%Z.

  Lemma readd_axis : forall cs h done h0 i S, Forall2 (goodc n s z cls) cs h -> Inv FA L h0 S -> Forall2 (goodc n s z cls) done h0 -> NoDup (done ++ cs) -> Forall (incell n k) (done ++ cs) ->
    exists S' h', foldM (fun S kv => add_site_or_raise FA S (s_class (snd kv), s_loc (snd kv))) (map (mk FA) (enumerate_from i h)) S = Ok S' /\
      Inv FA L h' S' /\ Forall2 (goodc n s z cls) (done ++ cs) h'.
  Proof.
    induction cs as [|c cs IH]; intros h done h0 i S G I G0 ND IN.
    - destruct h; [|inversion G]. exists S, h0. rewrite app_nil_r. auto.
    - destruct h as [|e h1]; [inversion G|]. destruct (pairs _ _ _ _ _ G) as [Gc G1]. assert (Hc : incell n k c) by (rewrite Forall_forall in IN; apply IN; apply in_or_app; simpl; auto).
      assert (NI : ~ In c done) by (apply NoDup_remove_2 in ND; intros X; apply ND; apply in_or_app; auto).
      pose proof Gc as (u & ks & -> & Du & _).
      assert (FT : fits n s z (get_rounded_coords FA u) c).
      { exists (fun a => placeR (nth (s a) c 0) (z a)). split; auto. intros a Ha. apply (place_fits (N a)); auto. rewrite HNk by auto. apply Hc. now apply Hs. }
      destruct (add_axis n s N per L Hs HN HL z Hz k Lk HNk cls h0 S done c _ I G0 (proj1 (proj1 (Forall_app _ _ _) IN)) NI Hc FT) as (S' & e & EA & I' & Ge).
      replace (done ++ c :: cs) with ((done ++ [c]) ++ cs) in * by (now rewrite <- app_assoc).
      destruct (IH h1 (done ++ [c]) (h0 ++ [e]) (i + 1) S' G1 I') as (S'' & h'' & EF & I'' & G''); auto; [apply Forall2_app; auto|].
      exists S'', h''. cbn [enumerate_from map foldM]. change (add_site_or_raise FA S (s_class (snd (mk FA (i, (cls, u, ks)))), s_loc (snd (mk FA (i, (cls, u, ks)))))) with (add_site_or_raise FA S (cls, get_rounded_coords FA u)). rewrite EA. cbn [bind]. auto.
  Qed.

  Lemma lookup_same cs h h' : Forall2 (goodc n s z cls) cs h -> Forall2 (goodc n s z cls) cs h' -> forall key i,
    @dget _ _ (Eqb_vec FA) key (map (fun x : Z * (string * list b64 * list b64) => (snd (snd x), fst x)) (enumerate_from i h)) =
    @dget _ _ (Eqb_vec FA) key (map (fun x : Z * (string * list b64 * list b64) => (snd (snd x), fst x)) (enumerate_from i h')).
  Proof.
    intros G. revert h'. induction G as [|c e cs h Gc G IH]; intros h' G' key i; [destruct h'; [auto|inversion G']|].
    destruct h' as [|e' h1]; [inversion G'|]. destruct (pairs _ _ _ _ _ G') as [Gc' G1]. destruct Gc as (u & ks & -> & _ & K), Gc' as (u' & ks' & -> & _ & K'). cbn [enumerate_from map dget fst snd].
    change (@eqb (list b64) (Eqb_vec FA) key ks) with (vec_eqb FA key ks). change (@eqb (list b64) (Eqb_vec FA) key ks') with (vec_eqb FA key ks').
    rewrite (vec_eqb_same n ks ks' _ K K'). destruct (vec_eqb FA key ks'); auto.
  Qed.

  Lemma reload S : lattice_from_dict (lattice_as_dict L) = Ok L -> fl_box n s N per L z k cls S -> exists S', struct_from_dict FA (struct_json S) = Ok S' /\ reloaded S S'.
  Proof.
    intros EL FB. destruct (fb_hist _ _ _ _ _ _ _ _ _ FB) as (h & I & G). pose proof I as (E1 & E2 & E3 & E4 & E5).
    destruct (readd_axis (cells k) h [] [] 0 (struct_init L) G (Inv_init FA L) (Forall2_nil _) (cells_NoDup k)) as (S' & h' & EF & I' & G').
    { apply Forall_forall. intros c Hc. now apply (cells_incell n k Lk). }
    exists S'. split.
    - unfold struct_from_dict. unfold struct_json at 1. cbn [fst]. rewrite E1, EL. cbn [bind]. pose proof (json_items b64 S L h FA I) as J.
      destruct (mapM _ (snd (struct_json S))) as [items|] eqn:EM; [|discriminate]. cbn [bind] in *. injection J as J. rewrite J, E3. exact EF.
    - pose proof I' as (E1' & E2' & E3' & E4' & E5'). cbn [app] in G'.
      assert (LH : length h = length h') by (clear -G G'; apply Forall2_len in G; apply Forall2_len in G'; congruence).
      split; [congruence|]. split; [congruence|]. split; [|split].
      + rewrite (sites_list FA L h S I), (sites_list FA L h' S' I'), !map_map. cbn [s_id].
        unfold enumerate. clear -LH. revert LH. generalize 0 as i. revert h'. induction h as [|e h IH]; intros [|e' h'] i E; try discriminate; cbn [enumerate_from map]; auto.
        f_equal. apply IH. simpl in E. lia.
      + intros i x Gx. pose proof (dense_id S x (inv_dense FA L h S I) (proj1 (proj1 (inv_get_site FA L h S i x I) Gx))) as RB.
        assert (Ei : s_id x = i) by (apply (inv_get_site FA L h S i x I) in Gx; apply Gx). rewrite Ei in RB.
        assert (LT : (Z.to_nat i < length h)%nat). { rewrite (sites_list FA L h S I), map_length in RB. unfold enumerate in RB. rewrite enumerate_from_length in RB. lia. }
        pose proof (get_site_nth FA L h S (Z.to_nat i) I) as GN. pose proof (get_site_nth FA L h' S' (Z.to_nat i) I') as GN'. rewrite Z2Nat.id in GN, GN' by lia.
        destruct (nth_error h (Z.to_nat i)) as [e|] eqn:Ee; [|apply nth_error_None in Ee; lia].
        destruct (nth_error h' (Z.to_nat i)) as [e'|] eqn:Ee'; [|apply nth_error_None in Ee'; lia]. cbn [option_map] in GN, GN'. rewrite GN in Gx. injection Gx as <-.
        eexists. split; [exact GN'|]. cbn [s_class s_loc].
        assert (GG : exists c, goodc n s z cls c e /\ goodc n s z cls c e').
        { clear -G G' Ee Ee'. revert h' G' Ee'. revert Ee. generalize (Z.to_nat i) as p. induction G as [|c a cs h Gc G IH]; intros p Ee h' G' Ee'; [destruct p; discriminate|].
          destruct h' as [|a' h1]; [inversion G'|]. destruct (pairs _ _ _ _ _ G') as [Gc' G1]. destruct p as [|p]; cbn [nth_error] in *; [injection Ee as <-; injection Ee' as <-; eauto|]. eapply IH; eauto. }
        destruct GG as (c & (u & ks & -> & [L1 D1] & _) & (u' & ks' & -> & [L2 D2] & _)). cbn [fst snd]. split; auto.
        apply (Forall2_nth _ (f_ofZ 0) (f_ofZ 0)); [congruence|]. intros a Ha. rewrite L1 in Ha. eauto.
      + intros v. unfold id_at, site_at. assert (ET : transformed_coords FA S' v = transformed_coords FA S v) by (unfold transformed_coords, coords_with_offset, offset_vector; now rewrite E1, E1', E2, E2').
        rewrite ET. destruct (transformed_coords FA S v) as [key|]; cbn [bind]; auto. rewrite E5, E5'. unfold enumerate. rewrite (lookup_same (cells k) h h' G G' key 0).
        destruct (@dget _ _ (Eqb_vec FA) key _) as [i|]; auto. unfold get_site. rewrite E3, E3'. unfold enumerate. f_equal. clear -LH. revert LH. generalize 0 as j. revert h'.
        induction h as [|e h IH]; intros [|e' h'] j E; try discriminate; cbn [enumerate_from map dget]; auto. unfold mk at 1 3. cbn [fst snd]. destruct (eqb i j); auto.
  Qed.
End Reload.

Lemma flags_back (vs : list (list b64)) per L : lattice_init vs (PFlags per) = Ok L -> lattice_from_dict (lattice_as_dict L) = Ok L.
Proof.
  intros E. unfold lattice_from_dict, lattice_as_dict. cbn [fst snd]. assert (H : l_vecs L = vs /\ l_periodic L = per); [|destruct H as [-> ->]; exact E].
  revert E. unfold lattice_init. destruct (negb _); [discriminate|]. destruct (negb _); [discriminate|]. destruct vs; [discriminate|]. intros H. injection H as <-. auto.
Qed.

Lemma C100_lemma : forall n per L k z p s st, fl_axes n per L -> length k = n -> Forall (fun m => 1 <= m <= 2 ^ 20) k -> cell_position n z p ->
  build_from FA L k (MList [p]) false = Ok s -> json_state st ->
  exists s', struct_from_dict FA (struct_json s) = Ok s' /\ reloaded s s' /\ sim_from_dict FA (sim_json (mkSim st s)) = Ok (mkSim st s').
Proof.
  intros n per L k z p s st HA Lk Hk HP E HJ. destruct (axes_box n per L k z p HA Lk Hk HP) as (Hn & Lp & s0 & L' & E0 & AL & FB). assert (s0 = s) by congruence. subst s0.
  assert (BZ : forall a, (a < n)%nat -> 0 <= nth a z 0 < 1000) by (destruct HP as (Lz & Bz & _); intros a Ha; rewrite Forall_forall in Bz; apply Bz, nth_In; lia).
  destruct (reload n (fun a => a) (fun a => nth a k 0) per L' (fun a => nth a z 0) k DEFAULT_SITE_CLASS) with (S := s) as (s' & ES & RL); auto.
  - intros a Ha. rewrite Forall_forall in Hk. apply Hk, nth_In. lia.
  - pose proof (fb_lat _ _ _ _ _ _ _ _ _ FB) as PL. apply build_from_fixed in E as (L1 & EL & PL' & _). rewrite <- PL, PL'. exact (flags_back _ _ _ EL).
  - exists s'. split; auto. split; auto. unfold sim_from_dict, sim_json. cbn [fst snd sim_state sim_struct]. rewrite (C06_lemma st HJ). cbn [bind]. now rewrite ES.
Qed.
Lemma C100_grids_lemma : forall size s st, Forall (fun m => 1 <= m <= 2 ^ 20) size -> fl_square size s -> json_state st ->
  exists s', struct_from_dict FA (struct_json s) = Ok s' /\ reloaded s s' /\ sim_from_dict FA (sim_json (mkSim st s)) = Ok (mkSim st s').
Proof.
  intros size s st Hk FS HJ. destruct (torus_box size s Hk FS) as (L & AL & FB).
  destruct (reload (length size) sw (fun a => nth (sw a) size 0) (repeat true (length size)) L (fun a => nth a (repeat 0 (length size)) 0) size "_A"%string) with (S := s) as (s' & ES & RL); auto.
  - now apply (torus_sw size s).
  - intros a Ha. rewrite Forall_forall in Hk. apply Hk, nth_In. now apply (torus_sw size s).
  - intros a Ha. rewrite FloatBox.nth_repeat' by auto. lia.
  - pose proof (fb_lat _ _ _ _ _ _ _ _ _ FB) as PL. rewrite <- PL.
    destruct FS as [(E & b & Eb & Es)|(E & b & Eb & Es)]; unfold build in Es; (destruct (negb _) in Es; [discriminate|]); apply build_from_fixed in Es as (L1 & EL & PL' & _); rewrite PL'; exact (flags_back _ _ _ EL).
  - exists s'. split; auto. split; auto. unfold sim_from_dict, sim_json. cbn [fst snd sim_state sim_struct]. rewrite (C06_lemma st HJ). cbn [bind]. now rewrite ES.
Qed.
