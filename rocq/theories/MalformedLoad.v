(** Which dictionaries can be reloaded as results, and what the others raise. *)
From Coq Require Import Ascii DecimalString DecimalZ Decimal Lia.
From Verif Require Import Prelude Dict Val ValFacts StateModel ResultModel JsonModel SpecMalformed SpecLoad.

Definition reads_int (k : key) : Prop := exists z, int_key k = Ok z.

Lemma int_key_cases k : reads_int k \/ int_key k = Err ValueError.
Proof.
  destruct k as [z|s]; [left; eexists; reflexivity|]. unfold reads_int. cbn [int_key]. unfold int_of_str.
  destruct (NilZero.int_of_string s) as [z|]; [left; eexists; reflexivity|now right].
Qed.
Lemma digit_char a d : is_digit a -> exists d', uint_of_char a (Some d) = Some d'.
Proof.
  unfold is_digit. destruct a as [[] [] [] [] [] [] [] []]; cbn; intros H; try (exfalso; lia); eexists; reflexivity.
Qed.
Lemma letter_char a d : is_letter a -> uint_of_char a d = None.
Proof.
  unfold is_letter. destruct d as [d|]; [|reflexivity]. destruct a as [[] [] [] [] [] [] [] []]; cbn; intros H; try (exfalso; lia); reflexivity.
Qed.
Lemma digits_uint l : Forall is_digit l -> exists d, NilEmpty.uint_of_string (string_of_list_ascii l) = Some d.
Proof. induction 1 as [|a l H _ [d IH]]; [eexists; reflexivity|]. cbn [string_of_list_ascii NilEmpty.uint_of_string]. rewrite IH. now apply digit_char. Qed.
Lemma letters_uint l : (exists a, In a l /\ is_letter a) -> NilEmpty.uint_of_string (string_of_list_ascii l) = None.
Proof.
  induction l as [|a l IH]; intros (x & I & H); [destruct I|]. cbn [string_of_list_ascii NilEmpty.uint_of_string].
  destruct I as [->|I]; [now apply letter_char|]. rewrite IH by eauto. reflexivity.
Qed.
Lemma minus_no_digit a : is_digit a -> Ascii.eqb a "-" = false.
Proof. unfold is_digit. destruct (Ascii.eqb_spec a "-") as [->|]; [cbn; lia|reflexivity]. Qed.
Lemma legible_reads k : legible k -> reads_int k.
Proof.
  intros [[z ->]|(a & l & HA & HL & HK)]; [eexists; reflexivity|]. destruct (digits_uint (a :: l) (Forall_cons _ HA HL)) as [d E].
  unfold reads_int. destruct HK as [->| ->]; cbn [int_key]; unfold int_of_str, NilZero.int_of_string.
  - cbn [string_of_list_ascii]. rewrite (minus_no_digit a HA). unfold NilZero.uint_of_string. cbn [string_of_list_ascii] in E. rewrite E. cbn. eauto.
  - change (string_of_list_ascii ("-"%char :: a :: l)) with (String "-" (String a (string_of_list_ascii l))). cbn [Ascii.eqb Bool.eqb]. unfold NilZero.uint_of_string.
    cbn [string_of_list_ascii] in E. rewrite E. cbn. eauto.
Qed.
Lemma illegible_fails k : illegible k -> int_key k = Err ValueError.
Proof.
  intros (l & -> & H). cbn [int_key]. unfold int_of_str. assert (E : NilZero.int_of_string (string_of_list_ascii l) = None); [|now rewrite E].
  destruct H as [->|H]; [reflexivity|]. destruct l as [|a l]; [reflexivity|]. unfold NilZero.int_of_string. cbn [string_of_list_ascii].
  destruct (Ascii.eqb_spec a "-") as [->|N].
  - unfold NilZero.uint_of_string. destruct l as [|b l]; [reflexivity|]. destruct H as (x & [<-|I] & HX); [unfold is_letter in HX; cbn in HX; lia|].
    rewrite (letters_uint (b :: l)) by eauto. reflexivity.
  - unfold NilZero.uint_of_string. pose proof (letters_uint (a :: l) H) as E. cbn [string_of_list_ascii] in E. rewrite E. reflexivity.
Qed.
Lemma illegible_unread k : illegible k -> ~ reads_int k.
Proof. intros H [z E]. rewrite (illegible_fails k H) in E. discriminate. Qed.
Lemma keys_bad (l : pdict) : (exists k x, In (k, x) l /\ ~ reads_int k) -> mapM (fun kv => do k <- int_key (fst kv); Ok (k, snd kv)) l = Err ValueError.
Proof.
  induction l as [|[k x] l IH]; intros (k' & x' & I & N); [destruct I|]. cbn [mapM fst snd]. destruct (int_key_cases k) as [[z E]|E]; rewrite E; cbn [bind]; [|reflexivity].
  rewrite IH; [reflexivity|]. destruct I as [Q|I]; [|eauto]. injection Q as <- <-. exfalso. apply N. eexists; eauto.
Qed.
Lemma keys_good (l : pdict) : (forall k x, In (k, x) l -> reads_int k) -> exists l', mapM (fun kv => do k <- int_key (fst kv); Ok (k, snd kv)) l = Ok l'.
Proof.
  induction l as [|[k x] l IH]; intros H; [eexists; reflexivity|]. cbn [mapM fst snd]. destruct (H k x) as [z E]; [now left|]. rewrite E. cbn [bind].
  destruct IH as [l' E']; [intros; eapply H; right; eassumption|]. rewrite E'. cbn [bind]. eauto.
Qed.
Lemma in_sites_part (d : pdict) k x : In (k, x) (filter (fun kv => negb (eqb (fst kv) GENERAL)) d) <-> In (k, x) d /\ k <> KStr "GENERAL".
Proof.
  rewrite filter_In. cbn [fst]. change GENERAL with (KStr "GENERAL"). destruct (eqb_spec k (KStr "GENERAL")) as [E|E]; cbn [negb]; intuition congruence.
Qed.
Lemma format_fails v e : diff_fails v e -> format_diff v = Err e.
Proof.
  unfold diff_fails, format_diff. destruct v; try (intros ->; reflexivity). intros (-> & k & x & I & NG & N). cbn [items bind]. rewrite keys_bad; [reflexivity|].
  exists k, x. split; [now apply in_sites_part|now apply illegible_unread].
Qed.
Lemma format_fine v : diff_fine v -> exists f, format_diff v = Ok f.
Proof.
  intros (d & -> & H). unfold format_diff. cbn [items bind]. destruct (keys_good (filter (fun kv => negb (eqb (fst kv) GENERAL)) d)) as [l' E].
  { intros k x I. apply in_sites_part in I as [I NG]. apply legible_reads. eapply H; eassumption. }
  rewrite E. cbn [bind]. eauto.
Qed.
Lemma load_fine l : Forall diff_fine l -> forall r, exists r', foldM (fun r diff => do f <- format_diff diff; Ok (add_step r f)) l r = Ok r'.
Proof. induction 1 as [|v l H _ IH]; intros r; [eexists; reflexivity|]. cbn [foldM]. destruct (format_fine v H) as [f ->]. cbn [bind]. apply IH. Qed.

Lemma C129_load_lemma : (forall v, (forall d, v <> VDict d) -> result_from_dict v = Err TypeError) /\ forall d,
  (dget (KStr "diffs") d = None \/ dget (KStr "initial_state") d = None -> result_from_dict (VDict d) = Err KeyError) /\
  (forall diffs init e, dget (KStr "diffs") d = Some diffs -> dget (KStr "initial_state") d = Some init -> state_from_dict init = Err e -> result_from_dict (VDict d) = Err e) /\
  (forall diffs init s, dget (KStr "diffs") d = Some diffs -> dget (KStr "initial_state") d = Some init -> state_from_dict init = Ok s ->
     (no_entries diffs -> result_from_dict (VDict d) = Err TypeError) /\
     ((exists a b, diffs = VDict (a :: b)) \/ (exists a b, diffs = VStr (String a b)) -> result_from_dict (VDict d) = Err AttributeError) /\
     (diffs = VDict [] \/ diffs = VStr "" -> result_from_dict (VDict d) = Ok (new_result s))) /\
  (forall l init s, dget (KStr "diffs") d = Some (VList l) \/ dget (KStr "diffs") d = Some (VTuple l) -> dget (KStr "initial_state") d = Some init -> state_from_dict init = Ok s ->
     (forall pre v post e, l = pre ++ v :: post -> Forall diff_fine pre -> diff_fails v e -> result_from_dict (VDict d) = Err e) /\
     (Forall diff_fine l -> exists r, result_from_dict (VDict d) = Ok r)).
Proof.
  split; [intros v N; destruct v; try reflexivity; now destruct (N d)|].
  intros d. unfold result_from_dict. cbn [index]. unfold dgetE. split; [|split; [|split]].
  - intros [->| ->]; cbn [bind]; [reflexivity|]. destruct (dget (KStr "diffs") d); reflexivity.
  - intros diffs init e -> -> E. cbn [bind]. now rewrite E.
  - intros diffs init s -> -> E. cbn [bind]. rewrite E. cbn [bind]. split; [|split].
    + intros [->|[[b ->]|[[z ->]|[m [e ->]]]]]; reflexivity.
    + intros [([k v] & b & ->)|(a & b & ->)]; [|reflexivity]. destruct k; reflexivity.
    + intros [->| ->]; reflexivity.
  - intros l init s HD -> E. assert (exists v, dget (KStr "diffs") d = Some v /\ iterated v = Ok l) as (v0 & -> & EI) by (destruct HD as [->| ->]; eauto).
    cbn [bind]. rewrite E. cbn [bind]. rewrite EI. cbn [bind]. split.
    + intros pre v post e -> P FL. rewrite foldM_app. destruct (load_fine pre P (new_result s)) as [r' ->]. cbn [bind foldM]. now rewrite (format_fails v e FL).
    + intros P. apply load_fine; auto.
Qed.

(** States. *)
Lemma site_entries_bad (l : pdict) : (forall k x, In (k, x) l -> exists d, x = VDict d) -> (exists k x, In (k, x) l /\ ~ reads_int k) ->
  mapM (fun kv => do k <- int_key (fst kv); do d <- as_mapping (snd kv); Ok (k, d)) l = Err ValueError.
Proof.
  induction l as [|[k x] l IH]; intros HD (k' & x' & I & N); [destruct I|]. cbn [mapM fst snd]. destruct (int_key_cases k) as [[z E]|E]; rewrite E; cbn [bind]; [|reflexivity].
  destruct (HD k x) as [dd ->]; [now left|]. cbn [as_mapping bind].
  rewrite IH; [reflexivity|intros; eapply HD; right; eassumption|]. destruct I as [Q|I]; [|eauto]. injection Q as <- <-. exfalso. apply N. eexists; eauto.
Qed.
Lemma C129_state_lemma : (forall v, (forall d, v <> VDict d) -> state_from_dict v = Err TypeError) /\ forall d,
  (dget (KStr "state") d = None -> state_from_dict (VDict d) = Err KeyError) /\
  (forall v, dget (KStr "state") d = Some v -> (forall x, v <> VDict x) -> state_from_dict (VDict d) = Err TypeError) /\
  (forall sd, dget (KStr "state") d = Some (VDict sd) ->
     (dget (KStr "SITES") sd = None -> state_from_dict (VDict d) = Err KeyError) /\
     (forall v, dget (KStr "SITES") sd = Some v -> (forall x, v <> VDict x) -> state_from_dict (VDict d) = Err AttributeError) /\
     (forall l, dget (KStr "SITES") sd = Some (VDict l) -> (forall k x, In (k, x) l -> exists y, x = VDict y) ->
        (exists k x, In (k, x) l /\ illegible k) -> state_from_dict (VDict d) = Err ValueError)).
Proof.
  split; [intros v N; destruct v; try reflexivity; now destruct (N d)|].
  intros d. unfold state_from_dict. cbn [index]. unfold dgetE. split; [intros ->; reflexivity|]. split; [intros v -> N; cbn [bind]; destruct v; try reflexivity; now destruct (N d0)|].
  intros sd ->. cbn [bind index]. unfold dgetE. change SITES with (KStr "SITES"). split; [intros ->; reflexivity|split].
  - intros v -> N. cbn [bind]. destruct v; try reflexivity. now destruct (N d0).
  - intros l -> HD (k & x & I & HB). cbn [bind items]. rewrite site_entries_bad; auto. exists k, x. split; [exact I|now apply illegible_unread].
Qed.
