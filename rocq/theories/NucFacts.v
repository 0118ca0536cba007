(** Random nucleation sites. *)
From Coq Require Import Reals Lra Permutation.
From Verif Require Import Prelude Dict Val ValFacts Arith RVec RealArith LatticeModel JsonModel StructModel StateModel NbModel GridModel
  SimModel SetupModel SpecState SpecGeom SpecNb SpecGrid SpecSetup StateFacts LatticeFacts LatticeMore StructFacts StructMore StructBuild
  NbFacts NbMore GridFacts GridMore GridNb SetupFacts.
Local Open Scope Z_scope.

(** * The phases of the nuclei *)
Definition cnt (p : string) (ids : list string) : Z := Z.of_nat (count_occ string_dec ids p).
Lemma cnt_snoc p ids q : cnt p (ids ++ [q]) = cnt p ids + (if string_dec q p then 1 else 0).
Proof. unfold cnt. rewrite count_occ_app. simpl. destruct (string_dec q p); lia. Qed.
Lemma cnt_nonneg p ids : 0 <= cnt p ids. Proof. unfold cnt. lia. Qed.

Lemma indicator_sum (l : list string) q : NoDup l -> In q l -> zsum (map (fun p => if string_dec q p then 1 else 0) l) = 1.
Proof.
  induction l as [|a l IH]; intros ND H; [destruct H|]. inversion ND; subst. simpl. destruct (string_dec q a) as [->|N].
  - assert (zsum (map (fun p => if string_dec a p then 1 else 0) l) = 0); [|unfold zsum in *; lia].
    clear IH H ND. assert (X : forall p, In p l -> a <> p) by (intros p Hp E; subst; contradiction). clear -X. induction l as [|b l IH]; simpl; auto.
    destruct (string_dec a b) as [E|]; [exfalso; apply (X b); simpl; auto|]. rewrite Z.add_0_l. apply IH. intros; apply X; simpl; auto.
  - destruct H as [->|H]; [congruence|]. rewrite Z.add_0_l. apply IH; auto.
Qed.
Lemma cnt_sum species ids : NoDup species -> incl ids species -> zsum (map (fun p => cnt p ids) species) = Z.of_nat (length ids).
Proof.
  intros ND. induction ids as [|q ids IH] using rev_ind; intros H.
  - replace (map (fun p => cnt p []) species) with (map (fun _ : string => 0) species) by reflexivity. simpl. clear. induction species; simpl; auto.
  - rewrite (map_ext _ (fun p => cnt p ids + (if string_dec q p then 1 else 0)) (fun p => cnt_snoc p ids q)).
    assert (S : forall (f g : string -> Z) l, zsum (map (fun p => f p + g p) l) = zsum (map f l) + zsum (map g l)).
    { intros f g l. induction l; simpl; auto. unfold zsum in *. lia. }
    rewrite S, IH, indicator_sum; auto.
    + rewrite app_length. simpl. lia.
    + apply H. apply in_or_app; simpl; auto.
    + intros p Hp. apply H. apply in_or_app; auto.
Qed.
Lemma sum_le (l : list string) (f : string -> Z) (g : string -> R) : (forall p, In p l -> (g p <= IZR (f p))%R) -> (sum (map g l) <= IZR (zsum (map f l)))%R.
Proof.
  induction l as [|p l IH]; intros H; [simpl; lra|]. cbn [map sum zsum fold_right]. fold (sum (map g l)). fold (zsum (map f l)). rewrite plus_IZR.
  pose proof (H p (or_introl eq_refl)). assert (sum (map g l) <= IZR (zsum (map f l)))%R by (apply IH; intros; apply H; simpl; auto). lra.
Qed.

Section Quota.
  Context {F : Type} (A : arith F).
  Variables (n : Z) (species : list string) (ideal : dict string (npnum F)) (quota : string -> R).
  Hypothesis UQ : NoDup species.
  Hypothesis N0 : 0 <= n.
  Hypothesis GET : forall p, In p species -> exists i, dget p ideal = Some i /\ forall k, 0 <= k <= n -> (np_below A k i = true <-> (IZR k < quota p)%R).
  Hypothesis QN : forall p, In p species -> (0 <= quota p)%R.
  Hypothesis QS : (IZR n - 1 < sum (map quota species))%R.

  Record id_inv (real : dict string Z) (ids : list string) : Prop := {
    ii_real : forall p, In p species -> dget p real = Some (cnt p ids);
    ii_in : incl ids species;
    ii_len : Z.of_nat (length ids) <= n;
    ii_cap : forall p, In p species -> (IZR (cnt p ids) < quota p + 1)%R
  }.
  Definition elig (ids : list string) (p : string) : bool := if Rlt_dec (IZR (cnt p ids)) (quota p) then true else false.

  Lemma some_elig ids : incl ids species -> Z.of_nat (length ids) < n -> existsb (elig ids) species = true.
  Proof.
    intros I Ln. destruct (existsb (elig ids) species) eqn:E; auto. exfalso.
    assert (forall p, In p species -> (quota p <= IZR (cnt p ids))%R).
    { intros p Hp. destruct (Rle_dec (quota p) (IZR (cnt p ids))) as [|N]; auto. exfalso.
      assert (existsb (elig ids) species = true); [|congruence]. apply existsb_exists. exists p. split; auto. unfold elig. destruct (Rlt_dec _ _); auto. lra. }
    apply sum_le in H. rewrite cnt_sum in H by auto. assert (IZR (Z.of_nat (length ids)) <= IZR (n - 1))%R by (apply IZR_le; lia).
    rewrite minus_IZR in *. lra.
  Qed.
  Lemma cnt_le p ids : cnt p ids <= Z.of_nat (length ids).
  Proof. unfold cnt. pose proof (count_occ_bound string_dec p ids). lia. Qed.
  Lemma get_cnt p ids : In p species -> Z.of_nat (length ids) <= n -> exists i, dget p ideal = Some i /\ np_below A (cnt p ids) i = elig ids p.
  Proof.
    intros Hp Ln. destruct (GET p Hp) as (i & Ei & B). exists i. split; auto. specialize (B (cnt p ids)). pose proof (cnt_le p ids). pose proof (cnt_nonneg p ids).
    specialize (B ltac:(lia)). unfold elig. destruct (Rlt_dec _ _) as [Y|N]; [now apply B|]. destruct (np_below A (cnt p ids) i); auto. exfalso. apply N, B; auto.
  Qed.

  Lemma identities_run : forall fuel rest real ids, id_inv real ids -> incl rest species ->
    (Z.of_nat (length ids) < n -> Z.of_nat (length rest) + (n - Z.of_nat (length ids)) * Z.of_nat (length species) +
      (if existsb (elig ids) rest then 0 else Z.of_nat (length species)) <= Z.of_nat fuel) ->
    exists ids', nucleus_identities A fuel n species rest ideal real ids = Some (Ok ids') /\
      Z.of_nat (length ids') = n /\ incl ids' species /\ forall p, In p species -> (IZR (cnt p ids') < quota p + 1)%R.
  Proof.
    set (m := Z.of_nat (length species)).
    assert (STEP : forall fuel,
      (forall rest real ids, id_inv real ids -> incl rest species ->
        (Z.of_nat (length ids) < n -> Z.of_nat (length rest) + (n - Z.of_nat (length ids)) * m + (if existsb (elig ids) rest then 0 else m) <= Z.of_nat fuel) ->
        exists ids', nucleus_identities A fuel n species rest ideal real ids = Some (Ok ids') /\
          Z.of_nat (length ids') = n /\ incl ids' species /\ forall p, In p species -> (IZR (cnt p ids') < quota p + 1)%R) ->
      forall p rest real ids, id_inv real ids -> incl (p :: rest) species -> Z.of_nat (length ids) < n ->
        existsb (elig ids) (p :: rest) = true ->
        Z.of_nat (length rest) + (n - Z.of_nat (length ids)) * m <= Z.of_nat fuel ->
        exists ids', (match dget p real, dget p ideal with
            | Some r, Some i =>
                if np_below A r i
                then nucleus_identities A fuel n species rest ideal (dset p (r + 1)%Z real) (ids ++ [p])
                else nucleus_identities A fuel n species rest ideal real ids
            | _, _ => Some (Err TypeError)
            end) = Some (Ok ids') /\
          Z.of_nat (length ids') = n /\ incl ids' species /\ forall p, In p species -> (IZR (cnt p ids') < quota p + 1)%R).
    { intros fuel IH p rest real ids II IR Ln EX B. assert (Hp : In p species) by (apply IR; simpl; auto).
      assert (IR' : incl rest species) by (intros q Hq; apply IR; simpl; auto).
      destruct (get_cnt p ids Hp ltac:(lia)) as (i0 & Ei0 & Eb).
      rewrite (ii_real _ _ II p Hp), Ei0, Eb. unfold elig at 1. destruct (Rlt_dec _ _) as [Y|N].
      - apply IH; auto.
        + constructor.
          * intros q Hq. rewrite dget_dset, cnt_snoc. destruct (eqb_spec q p) as [->|D].
            -- destruct (string_dec p p); [auto|congruence].
            -- rewrite (ii_real _ _ II q Hq). destruct (string_dec p q); [congruence|]. f_equal. lia.
          * intros q Hq. apply in_app_or in Hq as [Hq|[<-|[]]]; auto. now apply (ii_in _ _ II).
          * rewrite app_length. simpl. lia.
          * intros q Hq. rewrite cnt_snoc. destruct (string_dec p q) as [<-|]; rewrite plus_IZR; [lra|]. pose proof (ii_cap _ _ II q Hq). lra.
        + intros _. rewrite app_length. cbn [length]. replace (n - Z.of_nat (length ids + 1)) with (n - Z.of_nat (length ids) - 1) by lia.
          rewrite Z.mul_sub_distr_r. assert (0 <= m) by lia. destruct (existsb _ rest); lia.
      - apply IH; auto. intros _. cbn [existsb] in EX. unfold elig at 1 in EX. destruct (Rlt_dec _ _) as [Y|_]; [contradiction|]. cbn [orb] in EX.
        rewrite EX. lia. }
    induction fuel as [|fuel IH]; intros rest real ids II IR B; cbn [nucleus_identities].
    - destruct (Z.of_nat (length ids) <? n) eqn:E.
      + apply Z.ltb_lt in E. specialize (B E). exfalso.
        pose proof (some_elig ids (ii_in _ _ II) E) as X. assert (0 < m) by (unfold m; destruct species; [discriminate|simpl; lia]).
        destruct (existsb _ rest); nia.
      + exists ids. split; auto. split; [pose proof (ii_len _ _ II); lia|]. split; [apply (ii_in _ _ II)|apply (ii_cap _ _ II)].
    - destruct (Z.of_nat (length ids) <? n) eqn:E.
      2:{ exists ids. split; auto. split; [pose proof (ii_len _ _ II); lia|]. split; [apply (ii_in _ _ II)|apply (ii_cap _ _ II)]. }
      apply Z.ltb_lt in E. specialize (B E). pose proof (some_elig ids (ii_in _ _ II) E) as X.
      assert (m0 : 0 < m) by (unfold m; destruct species; [discriminate|simpl; lia]).
      destruct rest as [|p rest].
      + cbn [existsb length] in B. remember species as sp eqn:Esp in |- *. destruct sp as [|p rest]; [rewrite <- Esp in X; discriminate|]. rewrite Esp.
        apply (STEP fuel IH); auto; rewrite <- ?Esp; auto.
        * rewrite Esp. intros q Hq. rewrite <- Esp in Hq. rewrite <- Esp. auto.
        * rewrite Esp. rewrite <- Esp in X |- *. auto.
        * assert (m = Z.of_nat (S (length rest))) by (unfold m; now rewrite <- Esp). lia.
      + destruct (existsb (elig ids) (p :: rest)) eqn:EX.
        * cbn [length] in B. apply (STEP fuel IH); auto. lia.
        * cbn [existsb] in EX. apply orb_false_elim in EX as [E1 E2]. assert (Hp : In p species) by (apply IR; simpl; auto).
          destruct (get_cnt p ids Hp ltac:(lia)) as (i0 & Ei0 & Eb). rewrite (ii_real _ _ II p Hp), Ei0, Eb, E1.
          apply IH; auto; [intros q Hq; apply IR; simpl; auto|]. intros _. rewrite E2. cbn [length] in B. lia.
  Qed.

  Lemma quota_start : forall fuel, (n + 1) * Z.of_nat (length species) <= Z.of_nat fuel ->
    exists ids, nucleus_identities A fuel n species species ideal (dict_of (map (fun p => (p, 0)) species)) [] = Some (Ok ids) /\
      Z.of_nat (length ids) = n /\ incl ids species /\ forall p, In p species -> (IZR (cnt p ids) < quota p + 1)%R.
  Proof.
    intros fuel HF. apply identities_run.
    - constructor.
      + intros p Hp. rewrite dget_dict_of.
        * apply In_dget; [unfold uniq, dkeys; rewrite map_map; cbn [fst]; rewrite map_id; exact UQ|]. change (cnt p []) with 0.
          apply in_map_iff. exists p. auto.
        * rewrite map_map. cbn [fst]. rewrite map_id. exact UQ.
      + intros p [].
      + simpl. lia.
      + intros p Hp. change (cnt p []) with 0. pose proof (QN p Hp). lra.
    - intros p Hp. exact Hp.
    - intros Ln. rewrite (some_elig [] ltac:(intros p []) Ln). cbn [length]. lia.
  Qed.
End Quota.

Lemma sum_perm l l' : Permutation l l' -> sum l = sum l'.
Proof. intros P. unfold sum. induction P; cbn [fold_right]; lra. Qed.
Lemma sum_app l l' : sum (l ++ l') = (sum l + sum l')%R.
Proof. unfold sum. induction l as [|a l IH]; cbn [fold_right app]; [lra|]. rewrite IH. lra. Qed.
Lemma adds_up_RA l x : adds_up RA l x -> x = sum l.
Proof.
  intros H. induction H as [|x|l1 l2 l x y _ IH1 _ IH2 P]; cbn; [auto|lra|]. rewrite <- (sum_perm _ _ P), sum_app, IH1, IH2. auto.
Qed.
Lemma fold_adds_up {F} (A : arith F) l : adds_up A l (fold_right (a_add A) (a_ofZ A 0) l).
Proof. induction l as [|a l IH]; [constructor|]. cbn [fold_right]. apply (adds_both A [a] l); [constructor|auto|apply Permutation_refl]. Qed.

Section Identities.
  Variables (n : Z) (amts : dict string R) (np_sum : list R -> R).
  Hypothesis UQ : uniq amts.
  Hypothesis NN : forall p a, In (p, a) amts -> (0 <= a)%R.
  Hypothesis TP : (0 < sum (map snd amts))%R.
  Hypothesis N0 : 0 <= n.
  Hypothesis SM : summation RA np_sum.
  Let species := map fst amts.
  Let total := sum (map snd amts).
  Let ideal := ideal_num_sites RA np_sum amts n.
  Definition share (p : string) : R := match dget p amts with Some a => a / sum (map snd amts) * IZR n | None => 0 end.

  Lemma ideal_get p : In p species -> dget p ideal = Some (Fin (share p)).
  Proof.
    intros Hp. unfold share. apply dget_key_Some in Hp as [a Ea]. rewrite Ea. unfold ideal, ideal_num_sites.
    rewrite (adds_up_RA _ _ (SM (map snd amts))).
    assert (E : forall r, np_mul RA (np_div RA r (sum (map snd amts))) (a_ofZ RA n) = Fin (r / sum (map snd amts) * IZR n)%R).
    { intros r. unfold np_div. cbn [a_eqb RA a_ofZ]. destruct (Req_EM_T _ _) as [Z0|]; [lra|]. reflexivity. }
    rewrite map_map, (map_ext _ _ (fun kv => E (snd kv))). revert Ea. generalize (sum (map snd amts)) as tt. clear. intros tt.
    induction amts as [|[k v] l IH]; simpl; [discriminate|]. destruct (eqb p k); auto. intros X; injection X as ->. reflexivity.
  Qed.
  Lemma share_sum : sum (map share species) = IZR n.
  Proof.
    assert (E : map share species = map (fun kv => (snd kv / total * IZR n)%R) amts).
    { unfold species. rewrite map_map. apply map_ext_in. intros [p a] H. unfold share. cbn [fst snd]. rewrite (In_dget p a amts); auto. }
    rewrite E. assert (S : forall l : list (string * R), sum (map (fun kv => snd kv / total * IZR n)%R l) = (sum (map snd l) / total * IZR n)%R).
    { induction l as [|kv l IH]; simpl; [field; unfold total; lra|]. unfold sum in *. rewrite IH. field. unfold total, sum. lra. }
    rewrite S. unfold total. field. lra.
  Qed.
  Lemma share_nonneg p : (0 <= share p)%R.
  Proof.
    unfold share. destruct (dget p amts) as [a|] eqn:E; [|lra]. apply dget_In, NN in E. apply IZR_le in N0.
    apply Rmult_le_pos; auto. apply Rmult_le_pos; auto. left. now apply Rinv_0_lt_compat.
  Qed.

  Lemma identities_start : forall fuel, (n + 1) * Z.of_nat (length amts) <= Z.of_nat fuel ->
    exists ids, nucleus_identities RA fuel n species species ideal (dict_of (map (fun p => (p, 0)) species)) [] = Some (Ok ids) /\
      Z.of_nat (length ids) = n /\ incl ids species /\ forall p, In p species -> (IZR (cnt p ids) < share p + 1)%R.
  Proof.
    intros fuel HF. apply (quota_start RA n species ideal share); auto.
    - intros p Hp. exists (Fin (share p)). split; [now apply ideal_get|]. intros k _. cbn [np_below a_ltb a_ofZ RA].
      destruct (Rlt_dec _ _); split; auto; discriminate.
    - intros p _. apply share_nonneg.
    - rewrite share_sum. lra.
    - unfold species. now rewrite map_length.
  Qed.

  (** When there are as many nuclei as phases, each gets one. *)
  Lemma identities_each : (forall p a, In (p, a) amts -> (0 < a)%R) -> n = Z.of_nat (length amts) -> forall fuel, (length amts <= fuel)%nat ->
    nucleus_identities RA fuel n species species ideal (dict_of (map (fun p => (p, 0)) species)) [] = Some (Ok species).
  Proof.
    intros POS EN.
    assert (SP : forall p, In p species -> 0 < n -> (0 < share p)%R).
    { intros p Hp Hn. unfold share. apply dget_key_Some in Hp as [a Ea]. rewrite Ea. apply dget_In, POS in Ea. apply IZR_lt in Hn.
      apply Rmult_lt_0_compat; auto. apply Rmult_lt_0_compat; auto. now apply Rinv_0_lt_compat. }
    assert (G : forall rest done real fuel, species = done ++ rest -> (forall p, In p rest -> dget p real = Some 0) -> (length rest <= fuel)%nat ->
       nucleus_identities RA fuel n species rest ideal real done = Some (Ok species)).
    { induction rest as [|p rest IH]; intros done real fuel ES HR HF.
      - rewrite app_nil_r in ES. destruct fuel; cbn [nucleus_identities]; rewrite <- ES.
        + replace (Z.of_nat (length species) <? n) with false; auto. unfold species. rewrite map_length. lia.
        + replace (Z.of_nat (length species) <? n) with false; auto. unfold species. rewrite map_length. lia.
      - destruct fuel as [|fuel]; [simpl in HF; lia|]. cbn [nucleus_identities].
        assert (Ln : Z.of_nat (length done) < n). { rewrite EN. rewrite <- (map_length fst). fold species. rewrite ES, app_length. simpl. lia. }
        replace (Z.of_nat (length done) <? n) with true by lia.
        assert (Hp : In p species) by (rewrite ES; apply in_or_app; simpl; auto).
        rewrite (HR p) by (simpl; auto). rewrite (ideal_get p Hp). cbn [np_below a_ltb a_ofZ RA].
        destruct (Rlt_dec _ _) as [_|N]; [|exfalso; apply N; apply SP; auto; lia].
        apply IH.
        + rewrite ES, <- app_assoc. reflexivity.
        + intros q Hq. rewrite dget_dset_other; [apply HR; simpl; auto|]. intros ->. unfold uniq in UQ. change (NoDup species) in UQ. rewrite ES in UQ.
          apply NoDup_remove_2 in UQ. apply UQ. apply in_or_app. auto.
        + simpl in HF. lia. }
    intros fuel HF. apply G; auto.
    - intros p Hp. rewrite dget_dict_of.
      + apply In_dget; [unfold dkeys; rewrite map_map; cbn [fst]; rewrite map_id; exact UQ|]. apply in_map_iff. exists p. auto.
      + rewrite map_map. cbn [fst]. rewrite map_id. exact UQ.
    - unfold species. rewrite map_length. auto.
  Qed.
End Identities.

(** All amounts zero: the ratios are not numbers and no phase is ever chosen. *)
Lemma identities_stuck n species (ideal : dict string (npnum R)) : 0 < n -> species <> [] ->
  (forall p, In p species -> dget p ideal = Some NaN) ->
  forall fuel rest real ids, incl rest species -> (forall p, In p species -> exists r, dget p real = Some r) -> ids = [] ->
  nucleus_identities RA fuel n species rest ideal real ids = None.
Proof.
  intros Hn NE HI. induction fuel as [|fuel IH]; intros rest real ids IR HR ->; cbn [nucleus_identities length Z.of_nat]; replace (0 <? n) with true by lia; auto.
  destruct rest as [|p rest].
  - destruct species as [|p rest] eqn:Es; [congruence|]. destruct (HR p) as [r Er]; [simpl; auto|]. rewrite Er, HI by (simpl; auto). cbn [np_below].
    apply IH; auto. intros q Hq; simpl; auto.
  - destruct (HR p) as [r Er]; [apply IR; simpl; auto|]. rewrite Er, HI by (apply IR; simpl; auto). cbn [np_below].
    apply IH; auto. intros q Hq. apply IR. simpl; auto.
Qed.

(** * Planting *)
Lemma plant_mono {F} rnd ords n bg nbg xs ids f : forall f' planted t st r, (f <= f')%nat ->
  plant (F := F) f rnd ords n bg nbg xs ids planted t st = Some r -> plant f' rnd ords n bg nbg xs ids planted t st = Some r.
Proof.
  induction f as [|f IH]; intros f' planted t st r L; cbn [plant].
  - intros E. destruct f'; cbn [plant]; destruct (planted <? n); try discriminate; auto.
  - destruct f' as [|f']; [lia|]. cbn [plant]. destruct (planted <? n); auto. destruct (t >? 1000 * n); auto.
    destruct (choice xs (rnd (Z.to_nat t))) as [x|]; auto. destruct (occupancy st (s_id x)) as [v|]; auto.
    destruct (negb (val_eqb v (VStr bg))); [apply IH; lia|]. destruct (nucleus_nearby _ _ _ _ _) as [[|]|]; auto; [apply IH; lia|].
    destruct (list_getE ids planted); auto. apply IH; lia.
Qed.

Section Plant.
  Context {F : Type} (A : arith F).
  Variables (s : structure F) (L : lattice F) (n : Z) (bg : string) (nbg : option (nbhood F)) (rel : Z -> Z -> Prop) (nuc : list string).
  Variables (rnd : nat -> nat) (ords : nat -> @nb_oracle F).
  Hypothesis HB : built A L s.
  Let xs := sites s None.
  Let all := map s_id xs.
  Hypothesis NE : xs <> [].
  Hypothesis LO : forall t, legal (ords t).
  Hypothesis HN : forall o i, legal o -> In i all -> exists l, (match nbg with None => Ok [] | Some N => neighbors_of o N i end) = Ok l /\
    forall j, In j l <-> rel i j.
  Hypothesis RI : forall i j, In i all -> rel i j -> In j all.
  Hypothesis RS : forall i j, rel i j -> rel j i.
  Hypothesis NL : Z.of_nat (length nuc) = n.
  Hypothesis NB : ~ In bg nuc.

  Let lay (g : Z -> string) := layout xs (fun i => VStr (g i)).
  Lemma ND : NoDup all.
  Proof. apply dense_NoDup, (built_dense A L s HB). Qed.
  Lemma lay_occ g i : In i all -> occupancy (lay g) i = Ok (VStr (g i)).
  Proof. intros Hi. unfold occupancy, lay. rewrite layout_get; auto. apply ND. Qed.

  Lemma nearby_ok t g i : In i all -> exists b, nucleus_nearby (ords t) nbg (lay g) bg i = Ok b /\
    (b = false <-> forall j, rel i j -> g j = bg).
  Proof.
    intros Hi. destruct (HN (ords t) i (LO t) Hi) as (l & El & IN).
    assert (X : forall l found, (forall j, In j l -> In j all) -> exists b,
      foldM (fun found j => do v <- occupancy (lay g) j; Ok (if negb (val_eqb v (VStr bg)) then true else found)) l found = Ok b /\
      (b = false <-> found = false /\ forall j, In j l -> g j = bg)).
    { clear -HB. induction l as [|j l IH]; intros found Hl; cbn [foldM].
      - exists found. split; auto. split; [intros ->; split; auto; intros j []|tauto].
      - rewrite lay_occ by (apply Hl; simpl; auto). cbn [bind val_eqb].
        destruct (IH (if negb (String.eqb (g j) bg) then true else found)) as (b & E & H); [intros; apply Hl; simpl; auto|].
        exists b. split; auto. rewrite H. destruct (String.eqb_spec (g j) bg) as [Y|N]; cbn [negb].
        + split; intros [X1 X2]; (split; [exact X1|]); [intros k [<-|Hk]; auto|intros k Hk; apply X2; simpl; auto].
        + split; intros [X1 X2]; [discriminate|]. exfalso. apply N. apply X2. simpl; auto. }
    unfold nucleus_nearby. destruct nbg as [N|].
    - rewrite El. cbn [bind]. destruct (X l false) as (b & E & H); [intros j Hj; apply IN in Hj; eauto|]. exists b. split; auto. rewrite H. split.
      + intros [_ B] j Hj. apply B. now apply IN.
      + intros B. split; auto. intros j Hj. apply B. now apply IN.
    - injection El as <-. exists false. split; auto. split; auto. intros _ j Hj. apply IN in Hj. destruct Hj.
  Qed.

  Record pl_inv (planted : Z) (g : Z -> string) (P : list Z) : Prop := {
    pi_nodup : NoDup P;
    pi_len : Z.of_nat (length P) = planted;
    pi_sub : incl P all;
    pi_bg : forall j, In j all -> (In j P <-> g j <> bg);
    pi_spec : map g P = firstn (length P) nuc;
    pi_far : forall i j, In i P -> In j P -> i <> j -> ~ rel i j;
    pi_le : planted <= n
  }.

  Lemma plant_run : forall fuel planted t g P, 0 <= t -> pl_inv planted g P -> 1000 * n + 2 - t <= Z.of_nat fuel -> t <= 1000 * n + 1 ->
    plant fuel rnd ords n bg nbg xs nuc planted t (lay g) = Some (Err RuntimeError) \/
    exists g' P', plant fuel rnd ords n bg nbg xs nuc planted t (lay g) = Some (Ok (lay g')) /\ pl_inv n g' P'.
  Proof.
    induction fuel as [|fuel IH]; intros planted t g P Ht PI HF Hle; [lia|]. cbn [plant].
    destruct (planted <? n) eqn:E.
    2:{ right. exists g, P. split; auto. pose proof (pi_le _ _ _ PI). replace n with planted by lia. auto. }
    apply Z.ltb_lt in E. destruct (t >? 1000 * n) eqn:ET; [left; reflexivity|]. assert (t <= 1000 * n) by lia.
    destruct (choice_total xs (rnd (Z.to_nat t)) NE) as (x & Ex & Hx). rewrite Ex. assert (Hi : In (s_id x) all) by (now apply in_map).
    rewrite lay_occ by auto. cbn [val_eqb]. destruct (String.eqb_spec (g (s_id x)) bg) as [Eb|Nb]; cbn [negb].
    2:{ apply (IH planted (t + 1) g P); auto; lia. }
    destruct (nearby_ok (Z.to_nat t) g (s_id x) Hi) as (b & Enb & Hb). rewrite Enb. destruct b.
    - apply (IH planted (t + 1) g P); auto; lia.
    - pose proof (proj1 Hb eq_refl) as Clear. clear Hb.
      set (i := s_id x) in *. pose proof (pi_len _ _ _ PI) as PL.
      assert (Lt : (length P < length nuc)%nat) by lia.
      destruct (nth_error nuc (length P)) as [q|] eqn:Eq; [|apply nth_error_None in Eq; lia].
      rewrite <- PL, list_getE_nat, Eq. cbv iota beta.
      unfold lay at 1 2. rewrite set_layout by (auto using ND).
      set (g' := fun j => if j =? i then q else g j).
      rewrite (layout_ext xs _ (fun j => VStr (g' j))).
      2:{ intros j _. unfold upd, g'. destruct (j =? i); auto. }
      fold (lay g'). assert (NP : ~ In i P) by (rewrite (pi_bg _ _ _ PI i Hi); congruence).
      assert (Nq : q <> bg) by (intros ->; apply NB; eapply nth_error_In; eauto).
      assert (GP : forall j, In j P -> g' j = g j). { intros j Hj. unfold g'. replace (j =? i) with false; auto. symmetry. apply Z.eqb_neq. intros ->. contradiction. }
      apply (IH (Z.of_nat (length P) + 1) (t + 1) g' (P ++ [i])); auto; try lia. constructor.
      + apply NoDup_app_single; [apply (pi_nodup _ _ _ PI)|auto].
      + rewrite app_length. simpl. lia.
      + intros j Hj. apply in_app_or in Hj as [Hj|[<-|[]]]; auto. now apply (pi_sub _ _ _ PI).
      + intros j Hj. rewrite in_app_iff, (pi_bg _ _ _ PI j Hj). unfold g'. destruct (Z.eqb_spec j i) as [->|D].
        * split; auto. intros _. right. simpl. auto.
        * split; auto. intros [H0|[H0|[]]]; auto.
      + rewrite map_app, app_length. cbn [map length]. unfold g' at 2. rewrite Z.eqb_refl. rewrite (map_ext_in g' g P GP), (pi_spec _ _ _ PI).
        rewrite Nat.add_1_r. clear -Eq. revert nuc Eq. induction (length P) as [|k IHk]; intros [|a l] Eq; cbn [nth_error] in Eq; try discriminate.
        * injection Eq as ->. reflexivity.
        * change (firstn (S (S k)) (a :: l)) with (a :: firstn (S k) l). rewrite <- (IHk l Eq). reflexivity.
      + intros a b Ha Hb D. apply in_app_or in Ha as [Ha|[<-|[]]]; apply in_app_or in Hb as [Hb|[<-|[]]]; try congruence.
        * now apply (pi_far _ _ _ PI).
        * intros R. apply RS in R. apply Clear in R. apply (pi_bg _ _ _ PI a) in Ha; auto. now apply (pi_sub _ _ _ PI).
        * intros R. apply Clear in R. apply (pi_bg _ _ _ PI b) in Hb; auto. now apply (pi_sub _ _ _ PI).
      + lia.
  Qed.

  Lemma inv_start : 0 <= n -> pl_inv 0 (fun _ => bg) [].
  Proof.
    intros N0. constructor; auto; try (intros ? []); simpl; try lia; [constructor|]. intros j _. split; [tauto|congruence].
  Qed.

  Lemma phase_at_lay g i p : In i all -> phase_at (lay g) i p = eqb (g i) p.
  Proof. intros Hi. unfold phase_at, site_entry. unfold lay. rewrite layout_get by (auto using ND). reflexivity. Qed.
  Lemma without_lay g P : pl_inv n g P -> Permutation (without_phase s (lay g) bg) P.
  Proof.
    intros PI. apply NoDup_Permutation.
    - apply NoDup_filter. apply ND.
    - apply (pi_nodup _ _ _ PI).
    - intros i. unfold without_phase. rewrite filter_In. fold xs. fold all. split.
      + intros [Hi H]. rewrite phase_at_lay in H by auto. apply (pi_bg _ _ _ PI i Hi). destruct (eqb_spec (g i) bg); [discriminate|auto].
      + intros Hi. pose proof (pi_sub _ _ _ PI i Hi) as Ha. split; auto. rewrite phase_at_lay by auto. apply (pi_bg _ _ _ PI i Ha) in Hi.
        destruct (eqb_spec (g i) bg); [contradiction|auto].
  Qed.
  Lemma with_lay g P p : pl_inv n g P -> p <> bg -> Z.of_nat (length (with_phase s (lay g) p)) = cnt p nuc.
  Proof.
    intros PI Np. assert (Permutation (with_phase s (lay g) p) (filter (fun i => eqb (g i) p) P)) as PE.
    { apply NoDup_Permutation.
      - apply NoDup_filter. apply ND.
      - apply NoDup_filter, (pi_nodup _ _ _ PI).
      - intros i. unfold with_phase. rewrite !filter_In. fold xs. fold all. split.
        + intros [Hi H]. rewrite phase_at_lay in H by auto. split; auto. apply (pi_bg _ _ _ PI i Hi). destruct (eqb_spec (g i) p); [congruence|discriminate].
        + intros [Hi H]. pose proof (pi_sub _ _ _ PI i Hi) as Ha. split; auto. now rewrite phase_at_lay. }
    rewrite (Permutation_length PE). unfold cnt. f_equal.
    assert (nuc = map g P) as ->.
    { rewrite (pi_spec _ _ _ PI). rewrite firstn_all2; auto. pose proof (pi_len _ _ _ PI). lia. }
    clear. induction P as [|i P IH]; simpl; auto. destruct (string_dec (g i) p) as [E|E].
    - rewrite E, eqb_refl. simpl. now f_equal.
    - rewrite eqb_neq; auto.
  Qed.
  Lemma config_lay g P (Q : string -> Prop) : pl_inv n g P -> (forall p, In p nuc -> Q p) -> Q bg -> configuration s (lay g) (fun _ q => Q q).
  Proof.
    intros PI H Hb. apply (config_layout A L); auto. intros i x Gx. exists (g i). split; auto.
    assert (Hi : In i all) by (apply (get_site_ids A L s i HB); eauto).
    destruct (string_dec (g i) bg) as [->|N]; auto. apply (pi_bg _ _ _ PI i Hi) in N. apply H.
    apply (in_map g) in N. rewrite (pi_spec _ _ _ PI) in N. rewrite <- (firstn_skipn (length P) nuc). apply in_or_app. auto.
  Qed.
End Plant.
