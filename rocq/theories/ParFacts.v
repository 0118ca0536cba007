(** The parallel runner compared with the serial one. *)
From Verif Require Import Prelude Dict Val ValFacts StateModel ResultModel RunnerModel SpecState SpecResult SpecRunner StateFacts ResultFacts RunnerFacts SyncFacts.
From Coq Require Import Permutation.

Lemma nodup_l {A} (l1 l2 : list A) : NoDup (l1 ++ l2) -> NoDup l1.
Proof.
  induction l1 as [|x t IH]; cbn; intros N; [constructor|]. inversion N as [|? ? N1 N2]; subst.
  constructor; [intros I; apply N1, in_or_app; now left|auto].
Qed.
Lemma nodup_r {A} (l1 l2 : list A) : NoDup (l1 ++ l2) -> NoDup l2.
Proof. induction l1 as [|x t IH]; cbn; intros N; [exact N|]. inversion N; subst. auto. Qed.
Lemma nodup_disj {A} (l1 l2 : list A) x : NoDup (l1 ++ l2) -> In x l1 -> In x l2 -> False.
Proof.
  induction l1 as [|y t IH]; cbn; intros N I J; [destruct I|]. inversion N as [|? ? N1 N2]; subst.
  destruct I as [->|I]; [apply N1, in_or_app; now right|auto].
Qed.

(** ** Chunking *)
Lemma skipn_add {A} (l : list A) a b : skipn a (skipn b l) = skipn (b + a) l.
Proof. revert l. induction b as [|b IH]; intros [|x t]; cbn; auto. now rewrite skipn_nil. Qed.

Lemma concat_chunks {A} (k : nat) (l : list A) (c : nat) : (0 < k)%nat ->
  concat (map (fun j => firstn k (skipn (j * k) l)) (seq 0 c)) = firstn (c * k) l.
Proof.
  intros K. induction c as [|c IH]; [reflexivity|].
  rewrite seq_S, map_app, concat_app, IH. cbn [map concat Nat.add]. rewrite app_nil_r.
  replace (S c * k)%nat with (c * k + k)%nat by lia. clear.
  generalize (c * k)%nat as a. intros a. revert l. induction a as [|a IH]; intros [|x t]; cbn; auto.
  - now rewrite !firstn_nil.
  - f_equal. apply IH.
Qed.

Lemma chunk_size_pos n p : 1 <= p -> 0 <= n -> exists c, chunk_size_of n p = Ok c /\ (n = 0 -> c = 0) /\ (0 < n -> 0 < c) /\
   n <= c * p /\ c * p < n + p.
Proof.
  intros P N. unfold chunk_size_of. destruct (p =? 0) eqn:E; [lia|]. exists (- (- n / p)). split; [reflexivity|].
  pose proof (Z.div_mod (- n) p ltac:(lia)) as D. pose proof (Z.mod_pos_bound (- n) p ltac:(lia)) as M.
  repeat split; try (intros; nia).
Qed.

Lemma C18_lemma : forall (p : Z) (ids : list key), 1 <= p -> ids <> [] ->
  exists c batches, chunk_size_of (Z.of_nat (length ids)) p = Ok c /\
    site_batches c ids = Ok batches /\
    concat batches = ids /\
    Forall (fun b => b <> [] /\ Z.of_nat (length b) <= c) batches /\
    Z.of_nat (length batches) <= p /\ c = (Z.of_nat (length ids) + p - 1) / p.
Proof.
  intros p ids P NE. set (n := Z.of_nat (length ids)).
  assert (Np : 0 < n) by (destruct ids; [congruence|cbn in n; lia]).
  destruct (chunk_size_pos n p P ltac:(lia)) as (c & Ec & _ & Cp & B1 & B2). specialize (Cp Np).
  exists c. unfold site_batches. fold n. destruct (c =? 0) eqn:E0; [lia|].
  eexists. split; [exact Ec|]. split; [reflexivity|].
  set (count := (n + c - 1) / c).
  assert (D1 : n <= count * c /\ (count - 1) * c < n /\ 0 < count).
  { unfold count. pose proof (Z.div_mod (n + c - 1) c ltac:(lia)). pose proof (Z.mod_pos_bound (n + c - 1) c ltac:(lia)). nia. }
  assert (EM : map (fun j => firstn (Z.to_nat c) (skipn (Z.to_nat (j * c)) ids)) (zrange 0 count) =
               map (fun j => firstn (Z.to_nat c) (skipn (j * Z.to_nat c) ids)) (seq 0 (Z.to_nat count))).
  { unfold zrange. rewrite map_map, Z.sub_0_r. apply map_ext_in. intros j _. f_equal. f_equal. nia. }
  rewrite EM. split; [|split; [|split]].
  - rewrite concat_chunks by lia. apply firstn_all2. nia.
  - rewrite Forall_map, Forall_forall. intros j I. apply in_seq in I. split.
    + intros E. apply (f_equal (@length key)) in E. rewrite firstn_length, skipn_length in E. cbn in E. nia.
    + rewrite firstn_length. lia.
  - rewrite map_length, seq_length. nia.
  - apply (Z.div_unique_pos (n + p - 1) p c (n + p - 1 - p * c)); nia.
Qed.

Lemma C18_batch_cover c ids batches : site_batches c ids = Ok batches -> 0 < c -> concat batches = ids.
Proof.
  unfold site_batches. destruct (c =? 0) eqn:E0; [lia|]. intros E Cp. injection E as <-.
  set (n := Z.of_nat (length ids)). set (count := (n + c - 1) / c).
  assert (D1 : n <= count * c /\ 0 <= count).
  { unfold count. pose proof (Z.div_mod (n + c - 1) c ltac:(lia)). pose proof (Z.mod_pos_bound (n + c - 1) c ltac:(lia)). nia. }
  assert (EM : map (fun j => firstn (Z.to_nat c) (skipn (Z.to_nat (j * c)) ids)) (zrange 0 count) =
               map (fun j => firstn (Z.to_nat c) (skipn (j * Z.to_nat c) ids)) (seq 0 (Z.to_nat count))).
  { unfold zrange. rewrite map_map, Z.sub_0_r. apply map_ext_in. intros j _. f_equal. f_equal. nia. }
  rewrite EM, concat_chunks by lia. apply firstn_all2. nia.
Qed.

(** ** Answers of own-site rules as site updates *)
Definition ans_sites (id : key) (v : val) : pdict :=
  match v with
  | VDict u =>
      if dmem SITES u || dmem GENERAL u then
        match dget SITES u with Some (VDict d) => d | _ => [] end
      else if all_int_keys u then u else [(id, VDict u)]
  | _ => []
  end.
Lemma means_ans_sites id v S G : means id v S G -> ans_sites id v = S.
Proof.
  intros M. inversion M as [|u N1 N2|u N1 N2|b S' G' E1 E2 R]; subst; cbn.
  - reflexivity.
  - destruct N1 as [A B]. unfold dmem. rewrite A, B. cbn. apply all_int_keys_false in N2. now rewrite N2.
  - destruct N1 as [A B]. unfold dmem. rewrite A, B. cbn. apply all_int_keys_spec in N2. now rewrite N2.
  - apply reserved_spec in R. rewrite R. destruct E1 as [->|[-> ->]]; reflexivity.
Qed.

Section Par.
  Variable f : key -> sstate -> res val.
  Hypothesis Own : own_fun f.
  Let ctl := pure_controller f.

  (** Site updates asked for by site [id] in state [s]. *)
  Definition fs (s : sstate) (id : key) : pdict :=
    match f id s with Ok v => ans_sites id v | Err _ => [] end.

  Lemma fs_own s id v : f id s = Ok v -> (v = VNone /\ fs s id = []) \/
    (v <> VNone /\ exists u, fs s id = [(id, VDict u)] /\ uniq u /\ means id v [(id, VDict u)] []).
  Proof.
    intros E. destruct (Own _ _ _ E) as (u & O & U). unfold fs. rewrite E. destruct O as [[-> ->]|[N M]].
    - left. auto.
    - right. split; [assumption|]. exists u. rewrite (means_ans_sites _ _ _ _ M). auto.
  Qed.
  Lemma fs_cases s id : fs s id = [] \/ exists u, fs s id = [(id, VDict u)] /\ uniq u.
  Proof.
    destruct (f id s) as [v|e] eqn:E.
    - destruct (fs_own s id v E) as [[_ ->]|[_ (u & -> & U & _)]]; eauto.
    - left. unfold fs. now rewrite E.
  Qed.

  Lemma flat_fs_keys s ids i : In i (dkeys (flat_map (fs s) ids)) -> In i ids.
  Proof.
    unfold dkeys. rewrite in_map_iff. intros ([j v] & <- & I). apply in_flat_map in I as (id & I & J).
    destruct (fs_cases s id) as [E|(u & E & _)]; rewrite E in J; [destruct J|].
    destruct J as [J|[]]. injection J as <- <-. exact I.
  Qed.
  Lemma flat_fs_uniq s ids : NoDup ids -> uniq (flat_map (fs s) ids).
  Proof.
    unfold uniq. induction ids as [|id ids IH]; intros N; cbn; [constructor|].
    inversion N as [|? ? N1 N2]; subst. unfold dkeys. rewrite map_app.
    destruct (fs_cases s id) as [E|(u & E & _)]; rewrite E; cbn; [now apply IH|].
    constructor; [|now apply IH]. intros I. apply N1. eapply flat_fs_keys, I.
  Qed.
  Lemma flat_fs_vsites s ids : exists sites, flat_map (fs s) ids = vsites sites /\ forall i u, In (i, u) sites -> uniq u.
  Proof.
    induction ids as [|id ids (sites & E & U)]; cbn; [exists []; split; [reflexivity|intros i u []]|].
    destruct (fs_cases s id) as [E1|(u & E1 & U1)]; rewrite E1, E; cbn.
    - exists sites. auto.
    - exists ((id, u) :: sites). split; [reflexivity|]. intros i w [J|J]; [injection J as <- <-; assumption|eauto].
  Qed.

  (** A batch processed on state [s]. *)
  Lemma folded_fs s ids : NoDup ids -> forall vs o, Forall2 (fun id v => f id s = Ok v) ids vs ->
    (forall id, In id ids -> ~ In id (dkeys (csites o))) ->
    exists o', folded o ids vs o' /\ csites o' = csites o ++ flat_map (fs s) ids /\ cgen o' = cgen o /\
      (o' = None <-> o = None /\ forall id, In id ids -> f id s = Ok VNone).
  Proof.
    induction 1 as [|id ids N1 N2 IH]; intros vs o F FR; inversion F as [|? v ? vs' Ev F']; subst.
    - exists o. cbn. rewrite app_nil_r. repeat split; auto; try constructor; tauto.
    - destruct (fs_own s id v Ev) as [[-> Ef]|[NN (u & Ef & U & M)]]; cbn [flat_map]; rewrite Ef.
      + destruct (IH vs' o F') as (o' & A & B & D & G); [intros; apply FR; now right|].
        exists o'. split; [now constructor|]. split; [exact B|]. split; [exact D|]. rewrite G.
        split; intros [E1 E2]; split; auto.
        * intros i [->|I]; auto.
        * intros i I. apply E2. now right.
      + assert (ES : dmerge (csites o) [(id, VDict u)] = csites o ++ [(id, VDict u)])
          by (cbn; apply dset_snoc, FR; now left).
        destruct (IH vs' (Some (dmerge (csites o) [(id, VDict u)], dmerge (cgen o) [])) F') as (o' & A & B & D & G).
        { intros i I. cbn [csites]. rewrite ES. unfold dkeys. rewrite map_app, in_app_iff. intros [J|[J|[]]].
          - apply (FR i); [now right|exact J].
          - cbn in J. subst. tauto. }
        exists o'. split; [econstructor; eassumption|]. split; [|split].
        * rewrite B. cbn [csites]. rewrite ES, <- app_assoc. reflexivity.
        * rewrite D. reflexivity.
        * rewrite G. split; [intros [E _]; discriminate|]. intros [_ E]. specialize (E id ltac:(now left)). congruence.
  Qed.

  Lemma all_answers s ids : (forall id, In id ids -> exists v, f id s = Ok v) -> exists vs, Forall2 (fun id v => f id s = Ok v) ids vs.
  Proof.
    induction ids as [|id ids IH]; intros A; [exists []; constructor|].
    destruct (A id) as [v Ev]; [now left|]. destruct IH as [vs F]; [intros; apply A; now right|].
    exists (v :: vs). now constructor.
  Qed.

  Lemma step_batch_fs s ids : NoDup ids -> (forall id, In id ids -> exists v, f id s = Ok v) ->
    exists o, step_batch ctl ids s tt = Ok (canon o, tt) /\ csites o = flat_map (fs s) ids /\ cgen o = [] /\
      (o = None <-> forall id, In id ids -> f id s = Ok VNone).
  Proof.
    intros N A. destruct (all_answers s ids A) as [vs F].
    destruct (folded_fs s ids N vs None F) as (o & Fo & B & D & G); [cbn; tauto|].
    exists o. split; [|split; [exact B|split; [exact D|]]].
    - apply (step_batch_complete ctl ids s tt vs tt None o); [|assumption]. now apply answers_pure.
    - rewrite G. intuition.
  Qed.

  Lemma step_batch_answers s ids b c : step_batch ctl ids s tt = Ok (b, c) -> forall id, In id ids -> exists v, f id s = Ok v.
  Proof.
    intros E. apply step_batch_Ok in E as (vs & o & A & _). destruct c. apply answers_pure in A.
    intros id I. induction A as [|i v ids vs Ei A IH]; [destruct I|]. destruct I as [->|I]; eauto.
  Qed.

  (** ** Merging the results of the batches *)
  Lemma merge_canon o1 o2 :
    merge_updates (canon o1) (canon o2) None =
    Ok (canon (match o1 with None => o2 | Some _ => Some (dmerge (csites o2) (csites o1), dmerge (cgen o2) (cgen o1)) end)).
  Proof. destruct o1 as [[S1 G1]|]; [|reflexivity]. destruct o2 as [[S2 G2]|]; reflexivity. Qed.

  Lemma merge_results_fs s batches os : NoDup (concat batches) ->
    Forall2 (fun b o => csites o = flat_map (fs s) b /\ cgen o = []) batches os ->
    exists o', merge_results (map canon os) = Ok (canon o') /\
      Permutation (csites o') (flat_map (fs s) (concat batches)) /\ cgen o' = [] /\
      (o' = None -> Forall (fun o => o = None) os).
  Proof.
    intros N F. unfold merge_results.
    enough (Q : forall acc seen, NoDup (seen ++ concat batches) -> Permutation (csites acc) (flat_map (fs s) seen) -> cgen acc = [] ->
      exists o', foldM (fun all b => merge_updates all b None) (map canon os) (canon acc) = Ok (canon o') /\
        Permutation (csites o') (flat_map (fs s) (seen ++ concat batches)) /\ cgen o' = [] /\
        (o' = None -> acc = None /\ Forall (fun o => o = None) os)).
    { destruct (Q None [] N) as (o' & A & B & D & E); [constructor|reflexivity|].
      exists o'. repeat split; auto. intros E'. now apply E. }
    clear N. induction F as [|b o batches os [Fb Fg] F IH]; intros acc seen N P G; cbn [concat] in *.
    - exists acc. rewrite app_nil_r. cbn. repeat split; auto.
    - cbn [map foldM]. rewrite merge_canon. cbn [bind].
      set (acc' := match acc with None => o | Some _ => Some (dmerge (csites o) (csites acc), dmerge (cgen o) (cgen acc)) end).
      assert (Pa : Permutation (csites acc') (flat_map (fs s) (seen ++ b))).
      { unfold acc'. rewrite flat_map_app. destruct acc as [[Sa Ga]|].
        - cbn [csites] in *. rewrite app_assoc in N. apply nodup_l in N.
          rewrite dmerge_fresh.
          + rewrite Fb. rewrite P. apply Permutation_app_comm.
          + eapply Permutation_NoDup; [apply Permutation_map, Permutation_sym, P|].
            apply flat_fs_uniq. now apply nodup_l in N.
          + intros k I J. rewrite Fb in J. apply flat_fs_keys in J.
            assert (I' : In k seen). { eapply flat_fs_keys with (s := s). eapply Permutation_in; [apply Permutation_map, P|exact I]. }
            clear -N I' J. induction seen as [|x t IH]; [destruct I'|]. cbn in N. inversion N as [|? ? N1 N2]; subst.
            destruct I' as [->|I']; [apply N1, in_or_app; now right|auto].
        - cbn [csites] in P. apply Permutation_nil in P. rewrite P. cbn. now rewrite Fb. }
      assert (Ga' : cgen acc' = []).
      { unfold acc'. destruct acc as [[Sa Ga]|]; [cbn [cgen] in *; subst; rewrite Fg; reflexivity|exact Fg]. }
      destruct (IH acc' (seen ++ b)) as (o' & A & B & D & E); [now rewrite <- app_assoc|exact Pa|exact Ga'|].
      exists o'. split; [exact A|]. rewrite app_assoc. split; [exact B|]. split; [exact D|].
      intros E'. destruct (E E') as [Ea Eo]. unfold acc' in Ea. destruct acc; [discriminate|]. subst o. auto.
  Qed.

  (** ** One parallel step *)
  Lemma starmap_fs (sched : nat -> nat) last s batches :
    batch_update s last = Ok s ->
    Forall (fun b => NoDup b /\ forall id, In id b -> exists v, f id s = Ok v) batches ->
    forall b0 ws,
    (forall b, (b0 <= b < b0 + length batches)%nat -> batch_update (fst (ws (sched b))) last = Ok s) ->
    exists os ws', starmap ctl sched last b0 batches ws = Ok (map canon os, ws') /\
      Forall2 (fun b o => csites o = flat_map (fs s) b /\ cgen o = [] /\ (o = None <-> forall id, In id b -> f id s = Ok VNone)) batches os /\
      (forall b, (b0 <= b < b0 + length batches)%nat -> fst (ws' (sched b)) = s) /\
      (forall w, (forall b, (b0 <= b < b0 + length batches)%nat -> sched b <> w) -> ws' w = ws w).
  Proof.
    intros Id. induction 1 as [|b batches [Nb Ab] F IH]; intros b0 ws Up; cbn [starmap].
    - exists [], ws. cbn. split; [reflexivity|]. split; [constructor|]. split; [lia|auto].
    - unfold worker_task. rewrite Up by (cbn; lia). cbn [bind].
      destruct (step_batch_fs s b Nb Ab) as (o & E & B & D & G). destruct (snd (ws (sched b0))).
      rewrite E. cbn [bind].
      destruct (IH (S b0) (set_worker ws (sched b0) (s, tt))) as (os & ws' & E1 & F1 & U1 & V1).
      { intros b' R. unfold set_worker. destruct (Nat.eqb_spec (sched b') (sched b0)); [exact Id|].
        apply Up. cbn. lia. }
      rewrite E1. cbn [bind]. exists (o :: os), ws'. split; [reflexivity|]. split; [constructor; auto|]. cbn [length].
      split.
      + intros b' R. destruct (Nat.eq_dec b' b0) as [->|Ne].
        * destruct (in_dec Nat.eq_dec (sched b0) (map sched (seq (S b0) (length batches)))) as [I|I].
          -- apply in_map_iff in I as (b1 & <- & I). apply in_seq in I. apply U1. lia.
          -- rewrite V1; [unfold set_worker; now rewrite Nat.eqb_refl|]. intros b1 R1 E2. apply I.
             apply in_map_iff. exists b1. split; [assumption|]. apply in_seq. lia.
        * apply U1. lia.
      + intros w Hw. rewrite V1 by (intros; apply Hw; lia). unfold set_worker.
        destruct (Nat.eqb_spec w (sched b0)); [|reflexivity]. subst. exfalso. apply (Hw b0); lia.
  Qed.

  (** A normal-form update without general part, applied. *)
  Lemma batch_sites_full x sites : batch_update x (full_update (vsites sites) []) = Ok (set_sites_t x sites).
  Proof.
    rewrite batch_full_update, set_sites_vsites. cbn. destruct (set_sites_t x sites). reflexivity.
  Qed.
  Lemma perm_vsites (S1 : pdict) sites : Permutation S1 (vsites sites) ->
    exists sites', S1 = vsites sites' /\ Permutation sites' sites.
  Proof.
    intros P. apply Permutation_map_inv in P as (l & E & P'). exists l. split; [exact E|]. now apply Permutation_sym.
  Qed.

  Lemma step_idem s S s' : uniq S -> (forall i v, In (i, v) S -> exists u, v = VDict u /\ uniq u) ->
    batch_update s (full_update S []) = Ok s' -> batch_update s' (full_update S []) = Ok s'.
  Proof.
    intros U V E. destruct (vdicts_vsites S) as [sites ->]; [intros i v I; destruct (V i v I) as (u & -> & _); eauto|].
    rewrite batch_sites_full in *. injection E as <-. f_equal. apply set_sites_t_again.
    - now apply uniq_vsites.
    - intros i u I. destruct (V i (VDict u)) as (u' & E & Uu); [apply In_vsites; eauto|]. congruence.
  Qed.

  (** ** The whole run *)
  Section Whole.
    Variables (init : sstate) (ds : list val) (st : nat -> sstate).
    Let ids := site_ids init.
    Hypothesis Winit : swf init.
    Hypothesis St0 : st 0%nat = init.
    Hypothesis Serial : forall t, (t < length ds)%nat ->
      exists u, nth_error ds t = Some u /\ (exists c, take_step ctl (st t) tt = Ok (u, c)) /\ batch_update (st t) u = Ok (st (S t)).

    Lemma st_wf t : (t <= length ds)%nat -> swf (st t) /\ site_ids (st t) = ids.
    Proof.
      induction t as [|t IH]; intros L; [rewrite St0; auto|].
      destruct IH as [W I]; [lia|]. destruct (Serial t) as (u & _ & [c E] & B); [lia|].
      assert (O : own_rule ctl).
      { intros c0 id s v c' Eu. cbn in Eu. apply bind_Ok in Eu as (v' & Ev & Eu). injection Eu as <- <-. eapply Own, Ev. }
      destruct (sync_step_effect _ _ _ _ _ _ O W E B) as (W' & I' & _). split; [exact W'|congruence].
    Qed.
    Lemma st_answers t : (t < length ds)%nat -> forall id, In id ids -> exists v, f id (st t) = Ok v.
    Proof.
      intros L. destruct (Serial t L) as (u & _ & [c E] & B). unfold take_step in E.
      destruct (st_wf t) as [_ I]; [lia|]. rewrite I in E. eapply step_batch_answers, E.
    Qed.
    Lemma st_step t : (t < length ds)%nat ->
      nth_error ds t = Some (full_update (flat_map (fs (st t)) ids) []) /\
      batch_update (st t) (full_update (flat_map (fs (st t)) ids) []) = Ok (st (S t)) /\
      ~ (forall id, In id ids -> f id (st t) = Ok VNone).
    Proof.
      intros L. destruct (Serial t L) as (u & Eu & [c E] & B). destruct (st_wf t) as [_ I]; [lia|].
      unfold take_step in E. rewrite I in E.
      destruct (step_batch_fs (st t) ids (swf_ids init Winit) (st_answers t L)) as (o & Eo & Es & Eg & En).
      rewrite Eo in E. injection E as <- <-.
      destruct o as [[S0 G0]|]; [|discriminate]. cbn [csites cgen] in *. subst S0 G0. cbn [canon] in *.
      split; [exact Eu|]. split; [exact B|]. intros A. apply En in A. discriminate.
    Qed.

    Variables (c : Z) (batches : list (list key)) (sched : nat -> nat -> nat).
    Hypothesis Bat : site_batches c ids = Ok batches.
    Hypothesis Cov : concat batches = ids.

    (** Index of the serial state that worker [w] holds just before step [t]. *)
    Definition used (t w : nat) : bool := existsb (fun b => Nat.eqb (sched t b) w) (seq 0 (length batches)).
    Fixpoint idx (w t : nat) : nat :=
      match t with O => O | S t' => if used t' w then t' else idx w t' end.

    (** Updates sent to the workers at step [t] have the effect of the serial ones. *)
    Definition sent_ok (t : nat) (last : val) : Prop :=
      match t with
      | O => last = VDict []
      | S t' => exists S', Permutation S' (flat_map (fs (st t')) ids) /\ last = full_update S' []
      end.

    (** Every worker used can catch up. *)
    Definition catches_up : Prop := forall t b last, (t < length ds)%nat -> (b < length batches)%nat -> sent_ok t last ->
      batch_update (st (idx (sched t b) t)) last = Ok (st t).

    Lemma sent_same t x last : (t < length ds)%nat -> uniq (s_sites x) -> site_ids x = ids -> sent_ok (S t) last ->
      batch_update x last = batch_update x (full_update (flat_map (fs (st t)) ids) []).
    Proof.
      intros L U I (S' & P & ->). destruct (flat_fs_vsites (st t) ids) as (sites & E & Us). rewrite E in *.
      apply perm_vsites in P as (sites' & -> & P). rewrite !batch_sites_full. f_equal.
      apply set_sites_t_perm; [|assumption| |assumption].
      - eapply Permutation_NoDup; [apply Permutation_map, Permutation_sym, P|].
        apply uniq_vsites. rewrite <- E. apply flat_fs_uniq. now apply swf_ids.
      - intros i J. rewrite I. eapply flat_fs_keys with (s := st t). rewrite E, dkeys_vsites.
        eapply Permutation_in; [|exact J]. now apply Permutation_map.
    Qed.

    Lemma sent_idem t last : (t <= length ds)%nat -> sent_ok t last -> batch_update (st t) last = Ok (st t).
    Proof.
      intros L S0. destruct t as [|t]; [cbn in S0; subst; reflexivity|].
      destruct (st_wf (S t) L) as [W I].
      rewrite (sent_same t); [|lia|apply W|exact I|exact S0].
      eapply step_idem; [apply flat_fs_uniq; now apply swf_ids| |apply st_step; lia].
      intros i v J. destruct (flat_fs_vsites (st t) ids) as (sites & E & Us). rewrite E in J.
      apply In_vsites in J as (u & -> & J). eauto.
    Qed.

    Lemma batches_parts t : (t < length ds)%nat -> Forall (fun b => NoDup b /\ forall id, In id b -> exists v, f id (st t) = Ok v) batches.
    Proof.
      intros L. apply Forall_forall. intros b I.
      assert (Hb : forall id, In id b -> In id ids) by (intros id J; rewrite <- Cov; apply in_concat; eauto).
      split; [|intros id J; apply st_answers; auto].
      assert (N : NoDup (concat batches)) by (rewrite Cov; now apply swf_ids).
      clear -I N. induction batches as [|b0 l IH]; [destruct I|]. cbn in N. destruct I as [->|I].
      - now apply nodup_l in N.
      - apply IH; [assumption|]. now apply nodup_r in N.
    Qed.

    Lemma par_loop_ok : catches_up -> forall n t last diffs ws,
      (t + n = length ds)%nat -> sent_ok t last -> (forall w, fst (ws w) = st (idx w t)) ->
      exists ds', par_loop ctl sched t n ids c last diffs ws = Ok (diffs ++ ds') /\ length ds' = n /\
        forall j d, nth_error ds' j = Some d -> sent_ok (S (t + j)) d.
    Proof.
      intros CU. induction n as [|n IH]; intros t last diffs ws L SO WS; cbn [par_loop].
      - exists []. rewrite app_nil_r. repeat split. intros [|j] d Ej; discriminate.
      - unfold take_step_parallel. rewrite Bat. cbn [bind].
        destruct (starmap_fs (sched t) last (st t) batches (sent_idem t last ltac:(lia) SO) (batches_parts t ltac:(lia)) 0%nat ws)
          as (os & ws' & E & F & U1 & V1).
        { intros b R. rewrite WS. apply CU; auto; lia. }
        rewrite E. cbn [bind].
        destruct (merge_results_fs (st t) batches os) as (o' & Em & Pm & Gm & Nm).
        { rewrite Cov. now apply swf_ids. }
        { clear -F. induction F as [|? ? ? ? (A & B & _) F IH]; constructor; auto. }
        rewrite Em. cbn [bind]. rewrite Cov in Pm.
        destruct o' as [[S0 G0]|].
        2:{ exfalso. specialize (Nm eq_refl). destruct (st_step t) as (_ & _ & NN); [lia|]. apply NN.
            intros id I. rewrite <- Cov in I. apply in_concat in I as (b & Ib & I).
            clear -F Nm Ib I. induction F as [|b0 o0 bs os (_ & _ & Fn) F IH]; [destruct Ib|].
            inversion Nm; subst. destruct Ib as [->|Ib]; [now apply Fn|auto]. }
        cbn [csites cgen] in Pm, Gm. subst G0. cbn [canon].
        destruct (IH (S t) (full_update S0 []) (diffs ++ [full_update S0 []]) ws') as (ds' & E2 & L2 & N2).
        { lia. }
        { exists S0. auto. }
        { intros w. cbn [idx]. destruct (used t w) eqn:Us.
          - apply existsb_exists in Us as (b & Ib & Eb). apply in_seq in Ib. apply Nat.eqb_eq in Eb. subst w. apply U1. lia.
          - rewrite V1; [apply WS|]. intros b R Eb. assert (used t w = true); [|congruence].
            apply existsb_exists. exists b. split; [apply in_seq; lia|]. now apply Nat.eqb_eq. }
        rewrite E2. exists (full_update S0 [] :: ds'). rewrite <- app_assoc. split; [reflexivity|]. split; [cbn; congruence|].
        intros [|j] d Ej; cbn in Ej.
        + injection Ej as <-. rewrite Nat.add_0_r. exists S0. auto.
        + rewrite Nat.add_succ_r. apply (N2 j d Ej).
    Qed.

    Lemma par_replay ds' : length ds' = length ds -> (forall j d, nth_error ds' j = Some d -> sent_ok (S j) d) ->
      forall t, (t <= length ds)%nat -> replay init ds' t = Ok (st t).
    Proof.
      intros L N. induction t as [|t IH]; intros Lt; [cbn; now rewrite St0|].
      destruct (nth_error ds' t) as [d|] eqn:Ed; [|apply nth_error_None in Ed; lia].
      rewrite (replay_S _ _ _ _ Ed), IH by lia. cbn [bind].
      destruct (st_wf t) as [W I]; [lia|].
      rewrite (sent_same t); [|lia|apply W|exact I|apply N, Ed]. apply st_step. lia.
    Qed.
  End Whole.
End Par.
