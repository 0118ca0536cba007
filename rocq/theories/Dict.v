(** Lemmas about the dictionary and list helpers of [Prelude]. *)
From Verif Require Import Prelude.
From Coq Require Import Permutation.

#[export] Instance EqbOk_Z : EqbOk Z := Z.eqb_spec.
#[export] Instance EqbOk_nat : EqbOk nat := Nat.eqb_spec.
#[export] Instance EqbOk_string : EqbOk string := String.eqb_spec.
#[export] Instance EqbOk_bool : EqbOk bool.
Proof. intros [] []; cbn; constructor; congruence. Qed.

#[export] Instance EqbOk_list {A} `{EqbOk A} : EqbOk (list A).
Proof.
  assert (Q : forall l1 l2 : list A, list_eqb l1 l2 = true <-> l1 = l2).
  { intros l1. induction l1 as [|x t IH]; intros [|y t2]; cbn; try (split; congruence).
    rewrite andb_true_iff, IH. destruct (eqb_spec x y); split; intros; intuition congruence. }
  intros l1 l2. change (eqb l1 l2) with (list_eqb l1 l2). specialize (Q l1 l2).
  destruct (list_eqb l1 l2); constructor; [now apply Q|]. intros E; subst. destruct Q as [_ Q].
  specialize (Q eq_refl). discriminate.
Qed.

Section Eqb.
  Context {A : Type} `{EqbOk A}.
  Lemma eqb_refl x : eqb x x = true.
  Proof. destruct (eqb_spec x x); congruence. Qed.
  Lemma eqb_true x y : eqb x y = true <-> x = y.
  Proof. destruct (eqb_spec x y); split; congruence. Qed.
  Lemma eqb_false x y : eqb x y = false <-> x <> y.
  Proof. destruct (eqb_spec x y); split; congruence. Qed.
  Lemma eqb_neq x y : x <> y -> eqb x y = false.
  Proof. apply eqb_false. Qed.
  Lemma eqb_sym x y : eqb x y = eqb y x.
  Proof. destruct (eqb_spec x y), (eqb_spec y x); congruence. Qed.
  Lemma eq_dec_of (x y : A) : {x = y} + {x <> y}.
  Proof. destruct (eqb x y) eqn:E; [left; now apply eqb_true | right; now apply eqb_false]. Qed.
  Lemma mem_In x l : mem x l = true <-> In x l.
  Proof.
    unfold mem. rewrite existsb_exists. split.
    - intros (y & Hy & E). apply eqb_true in E. now subst.
    - intros Hx. exists x. split; [assumption | apply eqb_refl].
  Qed.
  Lemma mem_notIn x l : mem x l = false <-> ~ In x l.
  Proof. rewrite <- mem_In. destruct (mem x l); split; congruence. Qed.

  Lemma dedup_In x l : In x (dedup l) <-> In x l.
  Proof.
    induction l as [|y t IH]; cbn; [tauto|]. rewrite filter_In, IH.
    destruct (eqb_spec y x); cbn; split.
    - intros [?|[? ?]]; auto.
    - intros [?|?]; auto.
    - intros [?|[? ?]]; auto.
    - intros [?|?]; auto.
  Qed.
  Lemma dedup_NoDup l : NoDup (dedup l).
  Proof.
    induction l as [|y t IH]; cbn; constructor.
    - rewrite filter_In. intros [_ E]. rewrite eqb_refl in E. discriminate.
    - now apply NoDup_filter.
  Qed.
  Lemma filter_all (p : A -> bool) l : (forall x, In x l -> p x = true) -> filter p l = l.
  Proof.
    induction l as [|x t IH]; cbn; intros Hp; [reflexivity|].
    rewrite (Hp x) by auto. f_equal. auto.
  Qed.
  Lemma dedup_id l : NoDup l -> dedup l = l.
  Proof.
    induction 1 as [|x t N D IH]; cbn; [reflexivity|]. f_equal. rewrite IH.
    apply filter_all. intros y Hy. destruct (eqb_spec x y); cbn; congruence.
  Qed.
End Eqb.

Section DictFacts.
  Context {K V : Type} `{EqbOk K}.
  Implicit Types (d : dict K V) (k : K) (v : V).

  Lemma dget_dset k k' v d : dget k (dset k' v d) = if eqb k k' then Some v else dget k d.
  Proof.
    induction d as [|[k1 v1] t IH]; cbn [dset dget].
    - reflexivity.
    - destruct (eqb_spec k' k1) as [->|N]; cbn [dget].
      + now destruct (eqb k k1).
      + rewrite IH. destruct (eqb_spec k k1) as [->|N1]; [|reflexivity].
        now rewrite (eqb_neq k1 k') by congruence.
  Qed.
  Lemma dget_dset_same k v d : dget k (dset k v d) = Some v.
  Proof. now rewrite dget_dset, eqb_refl. Qed.
  Lemma dget_dset_other k k' v d : k <> k' -> dget k (dset k' v d) = dget k d.
  Proof. intros N. now rewrite dget_dset, eqb_neq. Qed.

  Lemma dget_In k v d : dget k d = Some v -> In (k, v) d.
  Proof.
    induction d as [|[k1 v1] t IH]; cbn [dget]; [discriminate|].
    destruct (eqb_spec k k1) as [->|N]; intros E.
    - left. congruence.
    - right. auto.
  Qed.
  Lemma dget_Some_key k v d : dget k d = Some v -> In k (dkeys d).
  Proof. intros E. apply dget_In in E. now apply (in_map fst) in E. Qed.
  Lemma dget_None k d : dget k d = None <-> ~ In k (dkeys d).
  Proof.
    induction d as [|[k1 v1] t IH]; cbn; [tauto|].
    destruct (eqb_spec k k1) as [->|N].
    - split; [discriminate | tauto].
    - rewrite IH. split; intros Q; [intros [E|E]; [congruence|tauto] | tauto].
  Qed.
  Lemma dget_key_Some k d : In k (dkeys d) <-> exists v, dget k d = Some v.
  Proof.
    destruct (dget k d) eqn:E.
    - split; [eauto|]. intros _. eapply dget_Some_key; eauto.
    - apply dget_None in E. split; [tauto|]. intros [v Ev]; discriminate.
  Qed.
  Lemma In_dget k v d : NoDup (dkeys d) -> In (k, v) d -> dget k d = Some v.
  Proof.
    induction d as [|[k1 v1] t IH]; cbn; [tauto|]. intros N [E|I]; inversion N as [|? ? N1 N2]; subst.
    - injection E as -> ->. now rewrite eqb_refl.
    - destruct (eqb_spec k k1) as [->|_]; [|auto].
      exfalso. apply N1. now apply (in_map fst) in I.
  Qed.
  Lemma dmem_In k d : dmem k d = true <-> In k (dkeys d).
  Proof.
    unfold dmem. rewrite dget_key_Some. destruct (dget k d); split; eauto; try congruence.
    intros [? ?]; discriminate.
  Qed.
  Lemma dmem_false k d : dmem k d = false <-> dget k d = None.
  Proof. unfold dmem. destruct (dget k d); split; congruence. Qed.

  Lemma dkeys_dset k v d :
    dkeys (dset k v d) = if dmem k d then dkeys d else dkeys d ++ [k].
  Proof.
    unfold dmem. induction d as [|[k1 v1] t IH]; cbn; [reflexivity|].
    destruct (eqb_spec k k1) as [->|N]; cbn; [reflexivity|].
    unfold dkeys in IH. rewrite IH. now destruct (dget k t).
  Qed.
  Lemma dkeys_dset_In k v d : In k (dkeys d) -> dkeys (dset k v d) = dkeys d.
  Proof. intros I. rewrite dkeys_dset. apply dmem_In in I. now rewrite I. Qed.
  Lemma dkeys_dset_notIn k v d : ~ In k (dkeys d) -> dkeys (dset k v d) = dkeys d ++ [k].
  Proof.
    intros I. rewrite dkeys_dset. destruct (dmem k d) eqn:E; [|reflexivity].
    apply dmem_In in E. tauto.
  Qed.
  Lemma NoDup_app_single {B} (l : list B) x : NoDup l -> ~ In x l -> NoDup (l ++ [x]).
  Proof.
    intros N I. apply NoDup_rev in N. rewrite <- (rev_involutive (l ++ [x])). apply NoDup_rev.
    rewrite rev_app_distr. cbn. constructor; [|assumption]. now rewrite <- in_rev.
  Qed.
  Lemma NoDup_dset k v d : NoDup (dkeys d) -> NoDup (dkeys (dset k v d)).
  Proof.
    intros N. rewrite dkeys_dset. destruct (dmem k d) eqn:E; [assumption|].
    apply NoDup_app_single; [assumption|]. intros I. apply dmem_In in I. congruence.
  Qed.
  Lemma NoDup_dmerge d1 d2 : NoDup (dkeys d1) -> NoDup (dkeys (dmerge d1 d2)).
  Proof.
    unfold dmerge. revert d1. induction d2 as [|[k v] t IH]; cbn; intros d1 N; [assumption|].
    apply IH. now apply NoDup_dset.
  Qed.
  Lemma NoDup_dict_of (l : list (K * V)) : NoDup (dkeys (dict_of l)).
  Proof. apply NoDup_dmerge. constructor. Qed.

  Lemma dmerge_cons d1 k v t : dmerge d1 ((k, v) :: t) = dmerge (dset k v d1) t.
  Proof. reflexivity. Qed.
  Lemma dmerge_app d1 d2 d3 : dmerge d1 (d2 ++ d3) = dmerge (dmerge d1 d2) d3.
  Proof. unfold dmerge. now rewrite fold_left_app. Qed.

  Lemma dget_dmerge_notin k d1 d2 : ~ In k (dkeys d2) -> dget k (dmerge d1 d2) = dget k d1.
  Proof.
    revert d1. induction d2 as [|[k2 v2] t IH]; intros d1 I; [reflexivity|].
    cbn in I. rewrite dmerge_cons, IH by tauto. apply dget_dset_other. intros ->. tauto.
  Qed.
  Lemma dget_dmerge k d1 d2 : NoDup (dkeys d2) ->
    dget k (dmerge d1 d2) = match dget k d2 with Some v => Some v | None => dget k d1 end.
  Proof.
    revert d1. induction d2 as [|[k2 v2] t IH]; intros d1 N; [reflexivity|].
    inversion N as [|? ? N1 N2]; subst. rewrite dmerge_cons. cbn [dget].
    destruct (eqb_spec k k2) as [->|D].
    - rewrite dget_dmerge_notin by assumption. apply dget_dset_same.
    - rewrite IH by assumption. destruct (dget k t); [reflexivity|]. now apply dget_dset_other.
  Qed.
  (** The general form: the last pair with the key wins. *)
  Lemma dget_dmerge_rev k d1 d2 :
    dget k (dmerge d1 d2) = match dget k (rev d2) with Some v => Some v | None => dget k d1 end.
  Proof.
    revert d1. induction d2 as [|[k2 v2] t IH]; intros d1; [reflexivity|].
    rewrite dmerge_cons, IH. cbn [rev].
    assert (Happ : forall a b : dict K V, dget k (a ++ b) = match dget k a with Some v => Some v | None => dget k b end).
    { intros a b. induction a as [|[ka va] a' IHa]; cbn; [reflexivity|]. now destruct (eqb k ka). }
    rewrite Happ. destruct (dget k (rev t)); [reflexivity|]. cbn. rewrite dget_dset.
    now destruct (eqb k k2).
  Qed.
  Lemma dget_dict_of k (l : list (K * V)) : NoDup (map fst l) -> dget k (dict_of l) = dget k l.
  Proof. intros N. unfold dict_of. rewrite dget_dmerge by assumption. cbn. now destruct (dget k l). Qed.

  Lemma dset_snoc k v d : ~ In k (dkeys d) -> dset k v d = d ++ [(k, v)].
  Proof.
    induction d as [|[k1 v1] t IH]; cbn; intros I; [reflexivity|].
    rewrite eqb_neq by (intros ->; tauto). f_equal. apply IH. tauto.
  Qed.
  Lemma dmerge_fresh d1 d2 : NoDup (dkeys d2) -> (forall k, In k (dkeys d2) -> ~ In k (dkeys d1)) ->
    dmerge d1 d2 = d1 ++ d2.
  Proof.
    revert d1. induction d2 as [|[k2 v2] t IH]; intros d1 N F; [now rewrite app_nil_r|].
    inversion N as [|? ? N1 N2]; subst. cbn in F. rewrite dmerge_cons, dset_snoc by auto.
    rewrite IH; [now rewrite <- app_assoc | assumption |].
    intros k I. unfold dkeys. rewrite map_app, in_app_iff. intros [Q|[Q|[]]].
    - apply (F k); auto.
    - cbn in Q. subst. auto.
  Qed.
  Lemma dict_of_id d : NoDup (dkeys d) -> dict_of d = d.
  Proof. intros N. unfold dict_of. rewrite dmerge_fresh; auto. Qed.

  Lemma dset_same k v d : dget k d = Some v -> dset k v d = d.
  Proof.
    induction d as [|[k1 v1] t IH]; cbn; [discriminate|].
    destruct (eqb_spec k k1) as [->|N]; intros E; [congruence|]. f_equal. auto.
  Qed.
  Lemma dset_dset k v v' d : dset k v (dset k v' d) = dset k v d.
  Proof.
    induction d as [|[k1 v1] t IH]; cbn; [now rewrite eqb_refl|].
    destruct (eqb_spec k k1) as [->|N]; cbn.
    - now rewrite eqb_refl.
    - rewrite eqb_neq by assumption. now rewrite IH.
  Qed.
  (** Updates of different keys commute when one of them is already present. *)
  Lemma dset_comm k v k' v' d : k <> k' -> In k (dkeys d) ->
    dset k v (dset k' v' d) = dset k' v' (dset k v d).
  Proof.
    intros N. induction d as [|[k1 v1] t IH]; cbn; [tauto|]. intros I.
    destruct (eqb_spec k' k1) as [->|N1]; destruct (eqb_spec k k1) as [->|N2]; cbn.
    - congruence.
    - rewrite (eqb_neq k k1) by assumption. now rewrite eqb_refl.
    - rewrite eqb_refl. now rewrite (eqb_neq k' k1) by assumption.
    - rewrite (eqb_neq k k1), (eqb_neq k' k1) by assumption. f_equal. apply IH.
      destruct I; [congruence|assumption].
  Qed.
  Lemma dmerge_same d u : (forall k v, In (k, v) u -> dget k d = Some v) -> dmerge d u = d.
  Proof.
    induction u as [|[k v] t IH]; intros Hs; [reflexivity|].
    rewrite dmerge_cons, dset_same by (apply Hs; now left). apply IH. intros. apply Hs. now right.
  Qed.
  Lemma dmerge_idem d u : NoDup (dkeys u) -> dmerge (dmerge d u) u = dmerge d u.
  Proof.
    intros N. apply dmerge_same. intros k v I. rewrite dget_dmerge by assumption.
    now rewrite (In_dget k v).
  Qed.

  (** Two dictionaries with the same key sequence and the same lookups are equal. *)
  Lemma dict_ext d1 d2 : NoDup (dkeys d1) -> dkeys d1 = dkeys d2 ->
    (forall k, dget k d1 = dget k d2) -> d1 = d2.
  Proof.
    revert d2. induction d1 as [|[k1 v1] t IH]; intros [|[k2 v2] t2] N E G; cbn in E; try discriminate.
    - reflexivity.
    - injection E as -> E. inversion N as [|? ? N1 N2]; subst.
      pose proof (G k2) as G2. cbn in G2. rewrite eqb_refl in G2. injection G2 as ->.
      f_equal. apply IH; [assumption | assumption |]. intros k. specialize (G k). cbn in G.
      destruct (eqb_spec k k2) as [Ek|D]; [rewrite Ek|assumption].
      transitivity (@None V); [|symmetry]; apply dget_None; [assumption|].
      unfold dkeys in *. now rewrite <- E.
  Qed.

  Lemma dkeys_dmerge_sub d1 d2 : (forall k, In k (dkeys d2) -> In k (dkeys d1)) ->
    dkeys (dmerge d1 d2) = dkeys d1.
  Proof.
    revert d1. induction d2 as [|[k v] t IH]; intros d1 S; [reflexivity|].
    cbn in S. rewrite dmerge_cons, IH.
    - apply dkeys_dset_In. auto.
    - intros k' I. rewrite dkeys_dset_In; auto.
  Qed.
  Lemma In_dkeys_dmerge k d1 d2 : In k (dkeys (dmerge d1 d2)) <-> In k (dkeys d1) \/ In k (dkeys d2).
  Proof.
    revert d1. induction d2 as [|[k2 v2] t IH]; intros d1; [cbn; tauto|].
    rewrite dmerge_cons, IH, dkeys_dset. cbn.
    destruct (dmem k2 d1) eqn:E.
    - apply dmem_In in E. split; [tauto|]. intros [?|[->|?]]; auto.
    - rewrite in_app_iff. cbn. tauto.
  Qed.
  Lemma In_dkeys_dset k k' v d : In k (dkeys (dset k' v d)) <-> k = k' \/ In k (dkeys d).
  Proof.
    rewrite dkeys_dset. destruct (dmem k' d) eqn:E.
    - apply dmem_In in E. split; [tauto|]. intros [->|?]; auto.
    - rewrite in_app_iff. cbn. intuition.
  Qed.
  (** Merging commutes on disjoint keys when all keys are present. *)
  Lemma dmerge_ext d u1 u2 : NoDup (dkeys d) -> NoDup (dkeys u1) -> NoDup (dkeys u2) ->
    (forall k, In k (dkeys u1) -> In k (dkeys d)) ->
    (forall k, dget k u1 = dget k u2) -> dmerge d u1 = dmerge d u2.
  Proof.
    intros N N1 N2 S G. apply dict_ext.
    - now apply NoDup_dmerge.
    - rewrite !dkeys_dmerge_sub; auto. intros k I. apply S. apply dget_key_Some.
      apply dget_key_Some in I as [v E]. exists v. congruence.
    - intros k. now rewrite !dget_dmerge, G.
  Qed.
  Lemma dget_map_vals {W} (f : K -> V -> W) k d :
    dget k (map (fun kv => (fst kv, f (fst kv) (snd kv))) d) = option_map (f k) (dget k d).
  Proof.
    induction d as [|[k1 v1] t IH]; cbn; [reflexivity|].
    destruct (eqb_spec k k1) as [->|N]; [reflexivity|assumption].
  Qed.
  Lemma dgetE_Ok k v d : dgetE k d = Ok v <-> dget k d = Some v.
  Proof. unfold dgetE. destruct (dget k d); split; congruence. Qed.
End DictFacts.

(** ** Monadic loops *)
Lemma bind_Ok {A B} (x : res A) (f : A -> res B) b :
  bind x f = Ok b <-> exists a, x = Ok a /\ f a = Ok b.
Proof.
  destruct x as [a|e]; cbn; split.
  - intros E; eauto.
  - intros (a' & E & F). now injection E as ->.
  - discriminate.
  - intros (a' & E & _). discriminate.
Qed.
Lemma foldM_app {A B} (f : A -> B -> res A) l1 l2 a :
  foldM f (l1 ++ l2) a = do a' <- foldM f l1 a; foldM f l2 a'.
Proof.
  revert a. induction l1 as [|x t IH]; intros a; cbn; [reflexivity|].
  destruct (f a x); cbn; [apply IH|reflexivity].
Qed.
Lemma foldM_pure {A B} (f : A -> B -> A) l a :
  foldM (fun a b => Ok (f a b)) l a = Ok (fold_left f l a).
Proof. revert a. induction l as [|x t IH]; intros a; cbn; auto. Qed.
Lemma foldM_ext {A B} (f g : A -> B -> res A) l a :
  (forall a x, In x l -> f a x = g a x) -> foldM f l a = foldM g l a.
Proof.
  revert a. induction l as [|x t IH]; intros a E; cbn; [reflexivity|].
  rewrite (E a x) by now left. destruct (g a x); cbn; [|reflexivity]. apply IH.
  intros. apply E. now right.
Qed.
Lemma mapM_Forall2 {A B} (f : A -> res B) l l' :
  mapM f l = Ok l' <-> Forall2 (fun x y => f x = Ok y) l l'.
Proof.
  revert l'. induction l as [|x t IH]; intros l'; cbn.
  - split; [intros E; injection E as <-; constructor | inversion 1; reflexivity].
  - split.
    + intros E. apply bind_Ok in E as (y & Ey & E). apply bind_Ok in E as (ys & Eys & E).
      injection E as <-. constructor; [assumption|]. now apply IH.
    + inversion 1 as [|? y ? ys Ey Eys]; subst. rewrite Ey. cbn.
      apply IH in Eys. now rewrite Eys.
Qed.
Lemma mapM_length {A B} (f : A -> res B) l l' : mapM f l = Ok l' -> length l' = length l.
Proof. intros E. apply mapM_Forall2 in E. induction E; cbn; congruence. Qed.
Lemma mapM_pure {A B} (f : A -> B) l : mapM (fun x => Ok (f x)) l = Ok (map f l).
Proof. induction l as [|x t IH]; cbn; [reflexivity|]. now rewrite IH. Qed.
Lemma mapM_ext {A B} (f g : A -> res B) l : (forall x, In x l -> f x = g x) -> mapM f l = mapM g l.
Proof.
  induction l as [|x t IH]; intros E; cbn; [reflexivity|].
  rewrite (E x) by now left. destruct (g x); cbn; [|reflexivity]. rewrite IH; auto.
  intros. apply E. now right.
Qed.

(** ** Ranges *)
Lemma zrange_In a b x : In x (zrange a b) <-> a <= x < b.
Proof.
  unfold zrange. rewrite in_map_iff. split.
  - intros (i & <- & I). apply in_seq in I. lia.
  - intros R. exists (Z.to_nat (x - a)). split; [lia|]. apply in_seq. lia.
Qed.
Lemma zrange_NoDup a b : NoDup (zrange a b).
Proof.
  unfold zrange. apply FinFun.Injective_map_NoDup; [|apply seq_NoDup]. intros x y E. lia.
Qed.
Lemma zrange_length a b : length (zrange a b) = Z.to_nat (b - a).
Proof. unfold zrange. now rewrite map_length, seq_length. Qed.
Lemma zrange_nth a b i : (i < Z.to_nat (b - a))%nat -> nth_error (zrange a b) i = Some (a + Z.of_nat i).
Proof.
  intros I. unfold zrange. rewrite nth_error_map. rewrite nth_error_nth' with (d := 0%nat) by now rewrite seq_length.
  cbn. now rewrite seq_nth.
Qed.
Lemma enumerate_from_nth {A} i (l : list A) n :
  nth_error (enumerate_from i l) n = option_map (fun x => (i + Z.of_nat n, x)) (nth_error l n).
Proof.
  revert i l. induction n as [|n IH]; intros i [|x t]; cbn [enumerate_from nth_error option_map]; auto.
  - do 2 f_equal. lia.
  - rewrite IH. destruct (nth_error t n); cbn; [|reflexivity]. do 2 f_equal. lia.
Qed.
Lemma enumerate_from_length {A} i (l : list A) : length (enumerate_from i l) = length l.
Proof. revert i. induction l as [|x t IH]; intros i; cbn; auto. Qed.
Lemma enumerate_from_snd {A} i (l : list A) : map snd (enumerate_from i l) = l.
Proof. revert i. induction l as [|x t IH]; intros i; cbn; f_equal; auto. Qed.
Lemma list_getE_nat {A} (l : list A) n :
  list_getE l (Z.of_nat n) = match nth_error l n with Some x => Ok x | None => Err IndexError end.
Proof.
  unfold list_getE. destruct (Z.of_nat n <? 0) eqn:E; [lia|].
  destruct (_ || _)%bool eqn:E2.
  - assert (length l <= n)%nat as L by lia. apply nth_error_None in L. now rewrite L.
  - now rewrite Nat2Z.id.
Qed.
