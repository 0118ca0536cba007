(** Animations. *)
From Coq Require Import Reals Permutation.
From Verif Require Import Prelude Dict Val Arith LatticeModel StructModel StateModel ResultModel JsonModel FileModel SetupModel AnalyzerModel VizModel
  SpecState SpecResult SpecFile SpecAnalyze SpecViz StateFacts JsonFacts FileFacts ResultFacts AnalyzerFacts AnalyzerMore.
Local Open Scope Z_scope.

Lemma mapM_map {X Y} (f : X -> res Y) (g : X -> Y) l : (forall x, In x l -> f x = Ok (g x)) -> mapM f l = Ok (map g l).
Proof. induction l as [|x l IH]; intros H; [reflexivity|]. cbn [mapM map]. rewrite H by (simpl; auto). cbn [bind]. rewrite IH by (intros; apply H; simpl; auto). reflexivity. Qed.
Lemma dget_ddel {V} k n (d : dict string V) : dget n (ddel k d) = if String.eqb n k then None else dget n d.
Proof.
  unfold ddel. induction d as [|[k0 v] d IH]; cbn [filter dget]; [now destruct (String.eqb n k)|]. cbn [fst].
  destruct (String.eqb_spec k0 k) as [->|D]; cbn [negb dget].
  - rewrite IH. destruct (eqb_spec n k) as [->|D]; [now rewrite String.eqb_refl|reflexivity].
  - rewrite IH. destruct (eqb_spec n k0) as [->|D']; [|reflexivity]. destruct (String.eqb_spec k0 k); [contradiction|reflexivity].
Qed.

Lemma tmp_name_inj i j : tmp_name i = tmp_name j -> i = j.
Proof.
  unfold tmp_name. intros E. apply append_inj in E as [_ E]; [|reflexivity]. apply append_inj_r in E as [E _]; [|reflexivity]. now apply str_of_Z_inj.
Qed.

Section Files.
  Context {I : Type}.
  Notation INJ := tmp_name_inj.
  Notation save := (fun (fs : dict string (content I)) (p : Z * I) => dset (tmp_name (fst p)) (CImage (snd p)) fs).

  Lemma saved l : forall i fs, (forall k x, nth_error l k = Some x -> dget (tmp_name (i + Z.of_nat k)) (fold_left save (enumerate_from i l) fs) = Some (CImage x)) /\
    (forall n, (forall k, (k < length l)%nat -> n <> tmp_name (i + Z.of_nat k)) -> dget n (fold_left save (enumerate_from i l) fs) = dget n fs).
  Proof.
    induction l as [|x l IH]; intros i fs; cbn [enumerate_from fold_left length]; [split; [intros [|k]; discriminate|reflexivity]|].
    destruct (IH (i + 1) (save fs (i, x))) as [H1 H2]. cbn [fst snd] in *. split.
    - intros [|k] y E.
      + cbn in E. injection E as <-. rewrite H2.
        * rewrite Z.add_0_r, dget_dset, eqb_refl. reflexivity.
        * intros k _ N. apply INJ in N. lia.
      + cbn in E. specialize (H1 k y E). rewrite <- H1. f_equal. f_equal. lia.
    - intros n N. rewrite H2.
      + rewrite dget_dset. destruct (eqb_spec n (tmp_name i)) as [->|D]; [|reflexivity]. exfalso. apply (N 0%nat); [lia|]. f_equal. lia.
      + intros k Hk E. apply (N (Datatypes.S k)); [lia|]. rewrite E. f_equal. lia.
  Qed.
  Notation remove := (fun (st : dict string (content I) * res unit) name => let '(fs, out) := st in
    match out with Err e => (fs, Err e) | Ok _ => if dmem name fs then (ddel name fs, Ok tt) else (fs, Err ValueError) end).
  Lemma removed names : forall fs, NoDup names -> (forall n, In n names -> dget n fs <> None) ->
    exists fs', fold_left remove names (fs, Ok tt) = (fs', Ok tt) /\ forall n, dget n fs' = if existsb (String.eqb n) names then None else dget n fs.
  Proof.
    induction names as [|m names IH]; intros fs ND H; [exists fs; split; reflexivity|]. cbn [fold_left]. unfold dmem. specialize (H m (or_introl eq_refl)) as Hm. destruct (dget m fs) as [c|]; [|contradiction].
    destruct (IH (ddel m fs)) as (fs' & E & G).
    - now inversion ND.
    - intros n Hn. rewrite dget_ddel. inversion ND as [|? ? N1 N2]; subst. destruct (String.eqb_spec n m) as [->|D]; [contradiction|]. apply H. simpl; auto.
    - exists fs'. split; [exact E|]. intros n. rewrite G, dget_ddel. cbn [existsb]. destruct (existsb (String.eqb n) names); [now rewrite Bool.orb_true_r|]. now destruct (String.eqb n m).
  Qed.
  Lemma enum_names (l : list I) : forall i, map (fun p => tmp_name (fst p)) (enumerate_from i l) = map (fun k => tmp_name (i + Z.of_nat k)) (seq 0 (length l)).
  Proof.
    induction l as [|x l IH]; intros i; [reflexivity|]. cbn [enumerate_from map length seq fst]. f_equal; [f_equal; lia|]. rewrite IH, <- seq_shift, map_map. apply map_ext. intros k. f_equal. lia.
  Qed.
  Lemma reopened (fs : dict string (content I)) l : forall i, (forall k x, nth_error l k = Some x -> dget (tmp_name (i + Z.of_nat k)) fs = Some (CImage x)) ->
    mapM (fun name => match dget name fs with Some (CImage x) => Ok x | _ => Err ValueError end) (map (fun p => tmp_name (fst p)) (enumerate_from i l)) = Ok l.
  Proof.
    induction l as [|x l IH]; intros i H; [reflexivity|]. cbn [enumerate_from map mapM fst]. specialize (H 0%nat x eq_refl) as H0. rewrite Z.add_0_r in H0. rewrite H0. cbn [bind].
    rewrite IH; [reflexivity|]. intros k y E. specialize (H (Datatypes.S k) y E). rewrite <- H. f_equal. f_equal. lia.
  Qed.
End Files.

Lemma passes_get init h T : visits init (added h) T -> forall n, (n <= length (added h))%nat -> get_step (fold_left apply_rop h (new_result init)) (Z.of_nat n) = Ok (T n).
Proof.
  intros P n H. destruct (hist_inv h init) as (J & E1 & E2). rewrite get_step_replay; auto; [|rewrite E2; auto]. rewrite E1, E2. rewrite <- (P n H). unfold replay. apply fold_foldM.
Qed.
Lemma passes_len init h : rlen (fold_left apply_rop h (new_result init)) = 1 + Z.of_nat (length (added h)).
Proof. now destruct (C07_lemma init h 0) as (E & _). Qed.
Lemma images {I} (get_img : sstate -> kwargs -> res I) init h T frame kw f : visits init (added h) T -> every kw = f -> 1 <= f ->
  (forall n, (n <= length (added h))%nat -> get_img (T n) (titled kw n) = Ok (frame n)) ->
  get_images get_img (fold_left apply_rop h (new_result init)) kw
  = Ok (map (fun i => frame (Z.to_nat i)) (range_step (1 + Z.of_nat (length (added h))) f)).
Proof.
  intros CO KW F HF. unfold get_images, py_range. change (match kw_draw_freq kw with Some f0 => f0 | None => 1 end) with (every kw). rewrite KW. rewrite (passes_len init h). destruct (Z.eqb_spec f 0); [lia|]. destruct (Z.ltb_spec 0 f); [|lia]. cbn [bind].
  set (ix := range_step _ f). assert (HI : forall i, In i ix -> i = Z.of_nat (Z.to_nat i) /\ (Z.to_nat i <= length (added h))%nat).
  { intros i Hi. apply range_step_In in Hi as (j & J1 & -> & J2); auto. nia. }
  rewrite (mapM_map _ (fun i => (T (Z.to_nat i), titled kw (Z.to_nat i)))).
  - cbn [bind]. rewrite (mapM_map _ (fun p => match get_img (fst p) (snd p) with Ok x => x | Err _ => frame 0%nat end)).
    + rewrite map_map. f_equal. apply map_ext_in. intros i Hi. cbn [fst snd]. destruct (HI i Hi) as [E L]. now rewrite HF.
    + intros [t l] Hp. apply in_map_iff in Hp as (i & E & Hi). injection E as <- <-. cbn [fst snd]. destruct (HI i Hi) as [E L]. rewrite HF by auto. reflexivity.
  - intros i Hi. destruct (HI i Hi) as [E L]. rewrite E at 1. rewrite (passes_get init h T CO) by auto. cbn [bind]. unfold titled, step_label. now rewrite <- E.
Qed.

Lemma C64_lemma : forall I (get_img : sstate -> kwargs -> res I) init h T frame kw f fs filename,
  visits init (added h) T -> every kw = f -> 1 <= f ->
  (forall n, (n <= length (added h))%nat -> get_img (T n) (titled kw n) = Ok (frame n)) ->
  (forall k, k * f <= Z.of_nat (length (added h)) -> filename <> temporary k) ->
  exists fs' frames, to_gif get_img fs (fold_left apply_rop h (new_result init)) filename kw = (fs', Ok tt) /\
    dget filename fs' = Some (CFrames frames) /\
    (forall k, nth_error frames k = if Z.of_nat k * f <=? Z.of_nat (length (added h)) then Some (frame (k * Z.to_nat f)%nat) else None) /\
    (forall k, (k < length frames)%nat -> dget (temporary (Z.of_nat k)) fs' = None) /\
    (forall n, n <> filename -> (forall k, (k < length frames)%nat -> n <> temporary (Z.of_nat k)) -> dget n fs' = dget n fs).
Proof.
  intros I get_img init h T frame kw f fs filename CO KW F HF NF. unfold to_gif. change temporary with tmp_name in *. rewrite (images get_img init h T frame kw f CO KW F HF).
  set (imgs := map _ _). 
  assert (NT : forall k, nth_error imgs k = if Z.of_nat k * f <=? Z.of_nat (length (added h)) then Some (frame (k * Z.to_nat f)%nat) else None).
  { intros k. unfold imgs. rewrite nth_error_map. rewrite <- (Nat2Z.id k) at 1. rewrite range_step_nth by lia. destruct (Z.ltb_spec (Z.of_nat k * f) (1 + Z.of_nat (length (added h)))); destruct (Z.leb_spec (Z.of_nat k * f) (Z.of_nat (length (added h)))); try lia; cbn [option_map]; [|reflexivity].
    f_equal. f_equal. lia. }
  assert (NE : imgs <> []) by (specialize (NT 0%nat); destruct imgs; [destruct (Z.leb_spec (Z.of_nat 0 * f) (Z.of_nat (length (added h)))); [discriminate|lia]|discriminate]).
  assert (KB : forall k, (k < length imgs)%nat -> Z.of_nat k * f <= Z.of_nat (length (added h))).
  { intros k Hk. apply nth_error_Some in Hk. rewrite NT in Hk. destruct (Z.leb_spec (Z.of_nat k * f) (Z.of_nat (length (added h)))); auto; congruence. }
  clearbody imgs. unfold enumerate. set (fs1 := fold_left _ (enumerate_from 0 imgs) fs). destruct (saved imgs 0 fs) as [S1 S2]. fold fs1 in S1, S2. clearbody fs1.
  rewrite (reopened fs1 imgs 0 S1). destruct imgs as [|x imgs]; [contradiction|]. set (l := x :: imgs) in *. rewrite (enum_names l 0).
  set (names := map _ (seq 0 (length l))).
  assert (IN : forall n, In n names <-> exists k, (k < length l)%nat /\ n = tmp_name (Z.of_nat k)).
  { intros n. unfold names. rewrite in_map_iff. split.
    - intros (k & <- & Hk). apply in_seq in Hk. exists k. split; [lia|reflexivity].
    - intros (k & Hk & ->). exists k. split; [reflexivity|]. apply in_seq. lia. }
  destruct (removed (I := I) names (dset filename (CFrames l) fs1)) as (fs' & E & G).
  { unfold names. apply FinFun.Injective_map_NoDup; [|apply seq_NoDup]. intros a b E. apply tmp_name_inj in E. lia. }
  { intros n Hn. apply IN in Hn as (k & Hk & ->). rewrite dget_dset. destruct (eqb_spec (tmp_name (Z.of_nat k)) filename) as [E|_]; [exfalso; symmetry in E; revert E; apply NF, KB; exact Hk|].
    destruct (nth_error l k) as [y|] eqn:Ey; [|apply nth_error_None in Ey; lia]. specialize (S1 k y Ey). rewrite Z.add_0_l in S1. rewrite S1. discriminate. }
  assert (EX : forall n, existsb (String.eqb n) names = true <-> In n names).
  { intros n. rewrite existsb_exists. split; [intros (m & Hm & Em); apply String.eqb_eq in Em; now subst|]. intros Hn. exists n. split; auto. apply String.eqb_refl. }
  exists fs', l. split; [exact E|]. split; [|split; [exact NT|split]].
  - rewrite G. destruct (existsb (String.eqb filename) names) eqn:Ex.
    + apply EX, IN in Ex as (k & Hk & Ek). exfalso; revert Ek; apply NF, KB; exact Hk.
    + rewrite dget_dset, eqb_refl. reflexivity.
  - intros k Hk. rewrite G. rewrite (proj2 (EX _)); [reflexivity|]. apply IN. eauto.
  - intros n N1 N2. rewrite G. destruct (existsb (String.eqb n) names) eqn:Ex.
    + apply EX, IN in Ex as (k & Hk & Ek). now apply N2 in Ek.
    + rewrite dget_dset. destruct (eqb_spec n filename); [contradiction|]. apply S2. intros k Hk. rewrite Z.add_0_l. now apply N2.
Qed.
(** The starting step and a file of the same name. *)
Lemma C64_refuted_lemma : forall I (get_img : sstate -> kwargs -> res I) init h T frame kw f fs filename c,
  visits init (added h) T -> every kw = f -> 1 <= f ->
  (forall n, (n <= length (added h))%nat -> get_img (T n) (titled kw n) = Ok (frame n)) ->
  (forall k, k * f <= Z.of_nat (length (added h)) -> filename <> temporary k) ->
  dget (temporary 0) fs = Some c ->
  exists fs', to_gif get_img fs (fold_left apply_rop h (new_result init)) filename kw = (fs', Ok tt) /\ dget (temporary 0) fs' = None.
Proof.
  intros I get_img init h T frame kw f fs filename c CO KW F HF NF _. destruct (C64_lemma I get_img init h T frame kw f fs filename CO KW F HF NF) as (fs' & fr & E & _ & NT & H & _).
  exists fs'. split; auto. apply (H 0%nat). apply nth_error_Some. rewrite NT. destruct (Z.leb_spec (Z.of_nat 0 * f) (Z.of_nat (length (added h)))); [discriminate|lia].
Qed.
Lemma C64_freq_lemma : forall I (get_img : sstate -> kwargs -> res I) r fs filename kw, every kw <= 0 ->
  to_gif get_img fs r filename kw = (fs, Err (if every kw =? 0 then ValueError else IndexError)).
Proof.
  intros. unfold to_gif, get_images, py_range. change (match kw_draw_freq kw with Some f0 => f0 | None => 1 end) with (every kw). destruct (Z.eqb_spec (every kw) 0); [reflexivity|]. destruct (Z.ltb_spec 0 (every kw)); [lia|]. reflexivity.
Qed.
(** Failures: no temporary file is left when drawing a step fails. *)
Lemma C64_fail_lemma : forall I (get_img : sstate -> kwargs -> res I) init h T kw n e fs filename,
  visits init (added h) T -> 1 <= every kw -> (n <= length (added h))%nat -> Z.of_nat n mod every kw = 0 ->
  (forall m, (m < n)%nat -> exists i, get_img (T m) (titled kw m) = Ok i) -> get_img (T n) (titled kw n) = Err e ->
  to_gif get_img fs (fold_left apply_rop h (new_result init)) filename kw = (fs, Err e).
Proof.
  intros I get_img init h T kw n e fs filename CO F HN HM HB HE. unfold to_gif. assert (E : get_images get_img (fold_left apply_rop h (new_result init)) kw = Err e); [|now rewrite E].
  unfold get_images, py_range. change (match kw_draw_freq kw with Some f0 => f0 | None => 1 end) with (every kw). set (f := every kw) in *. rewrite (passes_len init h).
  destruct (Z.eqb_spec f 0); [lia|]. destruct (Z.ltb_spec 0 f); [|lia]. cbn [bind]. pose proof (range_step_nth (1 + Z.of_nat (length (added h))) f) as RN.
  set (ix := range_step _ f) in *. assert (HI : forall i, In i ix -> i = Z.of_nat (Z.to_nat i) /\ (Z.to_nat i <= length (added h))%nat).
  { intros i Hi. apply range_step_In in Hi as (j & J1 & -> & J2); auto. nia. }
  rewrite (mapM_map _ (fun i => (T (Z.to_nat i), titled kw (Z.to_nat i)))).
  2: { intros i Hi. destruct (HI i Hi) as [E L]. rewrite E at 1. rewrite (passes_get init h T CO) by auto. cbn [bind]. unfold titled, step_label. now rewrite <- E. }
  cbn [bind]. set (q := Z.of_nat n / f). assert (Eq : q * f = Z.of_nat n) by (unfold q; pose proof (Z.div_mod (Z.of_nat n) f); lia). assert (Q0 : 0 <= q) by (unfold q; apply Z.div_pos; lia).
  assert (SP : exists a b, ix = a ++ Z.of_nat n :: b /\ length a = Z.to_nat q).
  { specialize (RN q F Q0). rewrite Eq in RN. destruct (Z.ltb_spec (Z.of_nat n) (1 + Z.of_nat (length (added h)))); [|lia]. apply nth_error_split in RN as (a & b & Ei & La). eauto. }
  destruct SP as (a & b & Ei & La).
  assert (HA : forall i, In i a -> exists m, (m < n)%nat /\ i = Z.of_nat m).
  { intros i Hi. apply In_nth_error in Hi as (j & Hj). assert (Lj : (j < Z.to_nat q)%nat) by (rewrite <- La; apply nth_error_Some; congruence).
    specialize (RN (Z.of_nat j) F ltac:(lia)). rewrite Nat2Z.id, Ei, nth_error_app1, Hj in RN by lia. destruct (_ <? _); [|discriminate]. injection RN as ->. exists (Z.to_nat (Z.of_nat j * f)). nia. }
  rewrite Ei, map_app. clear - HA HB HE. induction a as [|i a IH]; cbn [map app mapM fst snd] in *.
  - rewrite Nat2Z.id, HE. reflexivity.
  - destruct (HA i (or_introl eq_refl)) as (m & Hm & ->). rewrite Nat2Z.id. destruct (HB m Hm) as (x & ->). cbn [bind]. cbn [map] in IH. rewrite IH; [reflexivity|]. intros j Hj. apply HA. now right.
Qed.

(** ** Notebooks (C101) *)
Lemma played {I} (imgs : list I) wait : forall out, fold_left (fun out img => out ++ [Clear; Display img; Sleep wait]) imgs out = out ++ concat (map (fun img => [Clear; Display img; Sleep wait]) imgs).
Proof. induction imgs as [|x l IH]; intros out; cbn [fold_left map concat]; [now rewrite app_nil_r|]. rewrite IH, <- app_assoc. reflexivity. Qed.
Lemma range_all n : 0 <= n -> range_step n 1 = zrange 0 n.
Proof. intros H. unfold range_step. replace ((n + 1 - 1) / 1) with n by (rewrite Z.div_1_r; lia). rewrite <- (map_id (zrange 0 n)) at 2. apply map_ext. intros; lia. Qed.

Lemma C101_play_lemma : forall I (get_img : sstate -> kwargs -> res I) init h T frame cell_size wait, visits init (added h) T ->
  (forall n, (n <= length (added h))%nat -> get_img (T n) (titled (mkKw None (Some cell_size) None) n) = Ok (frame n)) ->
  jupyter_play get_img (fold_left apply_rop h (new_result init)) cell_size wait
    = Ok (concat (map (fun n => [Clear; Display (frame n); Sleep wait]) (seq 0 (Datatypes.S (length (added h)))))) /\
  (forall n, (n <= length (added h))%nat -> jupyter_show_step get_img (fold_left apply_rop h (new_result init)) (Z.of_nat n) cell_size = Ok [Display (frame n)]).
Proof.
  intros I get_img init h T frame cell_size wait CO HF. split.
  - unfold jupyter_play. rewrite (images get_img init h T frame (mkKw None (Some cell_size) None) 1 CO eq_refl ltac:(lia) HF). cbn [bind]. rewrite played. cbn [app]. f_equal. f_equal.
    rewrite range_all by lia. unfold zrange. rewrite !map_map. replace (Z.to_nat (1 + Z.of_nat (length (added h)) - 0)) with (Datatypes.S (length (added h))) by lia. apply map_ext. intros n. do 3 f_equal. f_equal. lia.
  - intros n Hn. unfold jupyter_show_step. rewrite (passes_get init h T CO) by auto. cbn [bind]. unfold jupyter_show. change (mkKw (Some (step_label (Z.of_nat n))) (Some cell_size) None) with (titled (mkKw None (Some cell_size) None) n). rewrite HF by auto. reflexivity.
Qed.
