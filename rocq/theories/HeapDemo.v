(** Concrete heaps: counterexamples and the cases beside the theorems on aliasing. *)
From Verif Require Import Prelude Dict Val ValFacts StateModel ResultModel HeapModel SpecHeap HeapFacts HeapMore HeapRun.

Definition A : key := KStr "A".

(** One site with state 0 (the state is object 4), one recorded update to [upd] (object 6)
    and an update to 9 (object 7). *)
Definition heap_with (upd : hval) : heap :=
  [ODict [(SITE_ID, HInt 1); (A, HInt 0)]; ODict [(KInt 1, HRef 0)]; ODict [];
   ODict [(SITES, HRef 1); (GENERAL, HRef 2)]; OState (HRef 3);
   ODict [(A, upd)]; ODict [(KInt 1, HRef 5)]; ODict [(A, HInt 9)]; OList [HInt 1]].
Definition demo_heap : heap := heap_with (HInt 5).
Definition demo_hr : hresult := mkHR 4 [HRef 6] [].
Definition demo_st : sstate := mkS [(KInt 1, [(SITE_ID, VInt 1); (A, VInt 0)])] [].
Definition demo_r (x : val) : sresult := mkR demo_st [VDict [(KInt 1, VDict [(A, x)])]] [].

(** The way to the state of site 1. *)
Definition to_A : list look := [LState; LKey SITES; LKey (KInt 1); LKey A].

Lemma demo_heap_ok : forall v, (forall m, v = HRef m -> (m < 9)%nat) -> heap_ok (heap_with v).
Proof.
  intros v V l o r N I. cbn [heap_with length].
  assert (L : (l < 9)%nat) by (apply nth_lt in N; exact N).
  do 9 (destruct l as [|l]; [cbn in N; injection N as <-; cbn in I;
    repeat (destruct I as [I|I]; [try discriminate; try (injection I as <-; lia); auto|]); contradiction|]).
  lia.
Qed.

Lemma demo_state_rep : forall v, rep_state (heap_with v) 4 demo_st.
Proof.
  intros v. exists 3%nat, 1%nat, [(SITES, HRef 1); (GENERAL, HRef 2)], [(KInt 1, HRef 0)], (HRef 2).
  repeat split.
  - lia.
  - constructor; [|constructor]. split; [reflexivity|]. cbn [snd]. apply rep_dict.
    exists 0%nat, [(SITE_ID, HInt 1); (A, HInt 0)]. repeat split; try (intros [E|E]; discriminate).
    repeat constructor.
  - apply rep_dict. exists 2%nat, []. repeat split; try (intros [E|E]; discriminate). constructor.
Qed.

Lemma demo_result_rep : forall v x, rep (fun _ => False) (heap_with v) v x -> rep_result (heap_with v) demo_hr (demo_r x).
Proof.
  intros v x R. split; [apply demo_state_rep|]. split; [|constructor].
  constructor; [|constructor]. apply rep_dict. exists 6%nat, [(KInt 1, HRef 5)]. repeat split; auto.
  constructor; [|constructor]. split; auto. cbn [snd]. apply rep_dict. exists 5%nat, [(A, v)]. repeat split; auto.
  constructor; [|constructor]. split; auto.
Qed.

(** After load_steps, editing a returned step through the API changes the next answer. *)
Lemma C11_cached_refuted_lemma : exists h r R h1 r1 s h2 h3 s' h4 path,
  heap_ok h /\ rep_result h r R /\ Forall flat (r_diffs R) /\
  h_load_steps h r 1 = Ok (r1, h1) /\ h_get_step h1 r1 1 = Ok (s, h2) /\
  h_set_site_state h2 s (KInt 1) (HRef 7) = Ok h3 /\ h_get_step h3 r1 1 = Ok (s', h4) /\
  observe h2 (HRef s) path = Some (ShInt 5) /\ observe h4 (HRef s') path = Some (ShInt 9).
Proof.
  destruct (h_load_steps demo_heap demo_hr 1) as [[r1 h1]|] eqn:E1; [|vm_compute in E1; discriminate].
  destruct (h_get_step h1 r1 1) as [[s h2]|] eqn:E2; [|vm_compute in E1; injection E1 as <- <-; vm_compute in E2; discriminate].
  destruct (h_set_site_state h2 s (KInt 1) (HRef 7)) as [h3|] eqn:E3.
  2:{ vm_compute in E1; injection E1 as <- <-; vm_compute in E2; injection E2 as <- <-; vm_compute in E3; discriminate. }
  destruct (h_get_step h3 r1 1) as [[s' h4]|] eqn:E4.
  2:{ vm_compute in E1; injection E1 as <- <-; vm_compute in E2; injection E2 as <- <-; vm_compute in E3; injection E3 as <-;
      vm_compute in E4; discriminate. }
  exists demo_heap, demo_hr, (demo_r (VInt 5)), h1, r1, s, h2, h3, s', h4, to_A.
  repeat split; auto; try (apply demo_heap_ok; discriminate).
  - apply demo_state_rep.
  - apply (proj1 (proj2 (demo_result_rep (HInt 5) (VInt 5) eq_refl))).
  - constructor.
  - repeat constructor.
  - clear E3 E4. vm_compute in E1. injection E1 as <- <-. vm_compute in E2. injection E2 as <- <-. reflexivity.
  - vm_compute in E1. injection E1 as <- <-. vm_compute in E2. injection E2 as <- <-. vm_compute in E3. injection E3 as <-.
    vm_compute in E4. injection E4 as <- <-. reflexivity.
Qed.

(** Without any cache: a list held by an update is shared with the returned step. *)
Lemma C11_nested_refuted_lemma : exists h r R s h2 E h3 s' h4 path,
  heap_ok h /\ rep_result h r R /\ hr_stored r = [] /\
  h_get_step h r 1 = Ok (s, h2) /\ edits [s] h2 E h3 /\ h_get_step h3 r 1 = Ok (s', h4) /\
  observe h2 (HRef s) path = Some (ShList 1) /\ observe h4 (HRef s') path = Some (ShList 2).
Proof.
  set (h := heap_with (HRef 8)).
  destruct (h_get_step h demo_hr 1) as [[s h2]|] eqn:E2; [|vm_compute in E2; discriminate].
  set (h3 := put h2 8 (OList [HInt 1; HInt 2])).
  destruct (h_get_step h3 demo_hr 1) as [[s' h4]|] eqn:E4.
  2:{ vm_compute in E2; injection E2 as <- <-; vm_compute in E4; discriminate. }
  assert (RP : rep_result h demo_hr (demo_r (VList [VInt 1]))).
  { apply demo_result_rep. apply rep_list. exists 8%nat, [HInt 1]. repeat split; auto. repeat constructor. }
  exists h, demo_hr, (demo_r (VList [VInt 1])), s, h2, [s], h3, s', h4, to_A.
  split; [apply demo_heap_ok; intros m EM; injection EM as <-; lia|].
  split; [exact RP|]. split; [reflexivity|]. split; [auto|]. split.
  - clear E4. vm_compute in E2. injection E2 as <- <-. unfold h3.
    eapply edits_write; [| |apply edits_none].
    + exists 18%nat. split; [left; auto|].
      eapply reach_next; [reflexivity|left; reflexivity|].
      eapply reach_next; [reflexivity|left; reflexivity|].
      eapply reach_next; [reflexivity|left; reflexivity|].
      eapply reach_next; [reflexivity|right; left; reflexivity|]. apply reach_here.
    + intros m [I|[I|[]]]; discriminate.
  - split; [auto|]. split.
    + clear E4. vm_compute in E2. injection E2 as <- <-. reflexivity.
    + vm_compute in E2. injection E2 as <- <-. vm_compute in E4. injection E4 as <- <-. reflexivity.
Qed.

(** A kept list of steps shows the last step everywhere. *)
Lemma C09_kept_refuted_lemma : exists h r R l h' s s0 h0 path,
  heap_ok h /\ rep_result h r R /\ h_steps h r = Ok (l, h') /\ nth_error l 0 = Some s /\
  h_get_step h r 0 = Ok (s0, h0) /\
  observe h0 (HRef s0) path = Some (ShInt 0) /\ observe h' (HRef s) path = Some (ShInt 5).
Proof.
  destruct (h_steps demo_heap demo_hr) as [[l h']|] eqn:E1; [|vm_compute in E1; discriminate].
  destruct (h_get_step demo_heap demo_hr 0) as [[s0 h0]|] eqn:E2; [|vm_compute in E2; discriminate].
  exists demo_heap, demo_hr, (demo_r (VInt 5)), l, h', 18%nat, s0, h0, to_A.
  split; [apply demo_heap_ok; discriminate|]. split; [apply demo_result_rep; reflexivity|].
  split; auto. split; [vm_compute in E1; injection E1 as <- <-; reflexivity|]. split; auto. split.
  - clear E1. vm_compute in E2. injection E2 as <- <-. reflexivity.
  - clear E2. vm_compute in E1. injection E1 as <- <-. reflexivity.
Qed.

(** A controller that writes 1 to every site it is asked about. *)
Definition demo_hc : hcontroller unit :=
  mkHC unit (fun c _ h => Ok (c, h)) (fun c _ h => Ok (HInt 1, c, h))
       (fun c _ _ h => let '(v, h1) := alloc h (ODict [(A, HInt 1)]) in Ok (v, c, h1)).

Lemma demo_hands_off : hands_off demo_hc.
Proof.
  repeat split.
  - intros c s h c' h' H. injection H as <- <-. exists []. symmetry; apply app_nil_r.
  - intros c s h v c' h' H. injection H as <- <- <-. exists []. symmetry; apply app_nil_r.
  - intros c k s h v c' h' H. injection H as <- <- <-. eexists; reflexivity.
Qed.

Lemma demo_7 : forall h x, nth_error h 7 = Some (ODict [(A, HInt 9)]) -> reach h 7 x -> x = 7%nat.
Proof.
  intros h x N R. inversion R; subst; auto. rewrite H in N. injection N as ->. destruct H0 as [E|[]]; discriminate.
Qed.

Lemma demo_4 : forall h x l n, nth_error h 4 = Some (OState (HRef 3)) ->
  nth_error h 3 = Some (ODict [(SITES, HRef 1); (GENERAL, HRef 2)]) ->
  nth_error h 1 = Some (ODict [(KInt 1, HRef 0)]) -> nth_error h 2 = Some (ODict []) ->
  nth_error h 0 = Some (ODict [(SITE_ID, HInt l); (A, HInt n)]) -> reach h 4 x -> x <> 7%nat.
Proof.
  intros h x l n N4 N3 N1 N2 N0 R.
  inversion R as [|? o m ? N I R1]; subst; [discriminate|]. rewrite N4 in N; injection N as <-. destruct I as [E|[]]. injection E as <-.
  inversion R1 as [|? o m ? N I R2]; subst; [discriminate|]. rewrite N3 in N; injection N as <-. destruct I as [E|[E|[]]]; cbn in E; injection E as <-.
  - inversion R2 as [|? o m ? N I R3]; subst; [discriminate|]. rewrite N1 in N; injection N as <-. destruct I as [E|[]]; cbn in E; injection E as <-.
    inversion R3 as [|? o m ? N I R4]; subst; [discriminate|]. rewrite N0 in N; injection N as <-. destruct I as [E|[E|[]]]; discriminate.
  - inversion R2 as [|? o m ? N I R3]; subst; [discriminate|]. rewrite N2 in N; injection N as <-. destruct I.
Qed.

Lemma copy_demo : exists c h1 h2 R, h_copy demo_heap 4 = Ok (c, h1) /\ edits [c; 7%nat] h1 R h2 /\
  observe h2 (HRef c) to_A = Some (ShInt 9) /\ observe h2 (HRef 4) to_A = Some (ShInt 0) /\
  (forall x, reach h1 7 x -> ~ reach h1 4 x).
Proof.
  destruct (h_copy demo_heap 4) as [[c h1]|] eqn:E1; [|vm_compute in E1; discriminate].
  destruct (h_set_site_state h1 c (KInt 1) (HRef 7)) as [h2|] eqn:E2.
  2:{ vm_compute in E1; injection E1 as <- <-; vm_compute in E2; discriminate. }
  destruct (proj1 (C05_api_lemma h1 c [c; 7%nat] (ex_intro _ c (conj (or_introl eq_refl) (reach_here _ _)))) (KInt 1) (HRef 7) h2)
    as (R & ED); auto.
  { intros m E. injection E as <-. exists 7%nat. split; [right; left; auto|apply reach_here]. }
  exists c, h1, h2, R. split; auto. split; auto. clear ED.
  vm_compute in E1. injection E1 as <- <-. vm_compute in E2. injection E2 as <-.
  split; [reflexivity|]. split; [reflexivity|].
  intros x R7 R4. apply demo_7 in R7; [|reflexivity]. eapply demo_4 in R4; try reflexivity. auto.
Qed.

Lemma original_demo : exists c h1 h2 R, h_copy demo_heap 4 = Ok (c, h1) /\ edits [4%nat; 7%nat] h1 R h2 /\
  observe h2 (HRef 4) to_A = Some (ShInt 9) /\ observe h2 (HRef c) to_A = Some (ShInt 0).
Proof.
  destruct (h_copy demo_heap 4) as [[c h1]|] eqn:E1; [|vm_compute in E1; discriminate].
  destruct (h_set_site_state h1 4 (KInt 1) (HRef 7)) as [h2|] eqn:E2.
  2:{ vm_compute in E1; injection E1 as <- <-; vm_compute in E2; discriminate. }
  destruct (proj1 (C05_api_lemma h1 4 [4%nat; 7%nat] (ex_intro _ 4%nat (conj (or_introl eq_refl) (reach_here _ _)))) (KInt 1) (HRef 7) h2)
    as (R & ED); auto.
  { intros m E. injection E as <-. exists 7%nat. split; [right; left; auto|apply reach_here]. }
  exists c, h1, h2, R. split; auto. split; auto. clear ED.
  vm_compute in E1. injection E1 as <- <-. vm_compute in E2. injection E2 as <-. split; reflexivity.
Qed.

Lemma batch_demo : rep (own_dict demo_heap 4) demo_heap (HRef 6) (VDict [(KInt 1, VDict [(A, VInt 5)])]).
Proof.
  assert (O : forall l, own_dict demo_heap 4 l -> l = 3%nat \/ l = 1%nat).
  { intros l (t & d & N & N' & E). injection N as <-. injection N' as <-. destruct E as [E|E]; auto. injection E as <-. auto. }
  apply rep_dict. exists 6%nat, [(KInt 1, HRef 5)]. split; auto. split; [intros B; apply O in B; destruct B; discriminate|]. split; auto.
  constructor; [|constructor]. split; auto. apply rep_dict. exists 5%nat, [(A, HInt 5)]. split; auto.
  split; [intros B; apply O in B; destruct B; discriminate|]. split; auto. constructor; [|constructor]. split; reflexivity.
Qed.
