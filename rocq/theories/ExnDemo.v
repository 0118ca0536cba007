(** Concrete calls that raise, for the cases beside the theorems of PropExn.v. *)
From Verif Require Import Prelude Dict Val ValFacts StateModel ResultModel HeapModel ExnModel SpecHeap SpecExn HeapFacts HeapMore HeapRun HeapDemo ExnFacts.

(** A batch (object 9) whose second entry is None. *)
Definition exn_heap : heap := demo_heap ++ [ODict [(KInt 1, HRef 5); (KInt 2, HNone)]].
Definition exn_batch : pdict := [(KInt 1, VDict [(A, VInt 5)]); (KInt 2, VNone)].

Lemma exn_state : rep_state exn_heap 4 demo_st.
Proof.
  apply (rep_state_old demo_heap); [apply demo_heap_ok; discriminate| |apply demo_state_rep].
  intros l L. apply nth_old; auto.
Qed.
Lemma exn_batch_rep : rep (own_dict exn_heap 4) exn_heap (HRef 9) (VDict exn_batch).
Proof.
  apply rep_dict. exists 9%nat, [(KInt 1, HRef 5); (KInt 2, HNone)]. split; auto. split.
  - intros (t & d & N & N' & E). cbn in N. injection N as <-. cbn in N'. injection N' as <-. destruct E; [discriminate|cbn in H; discriminate].
  - split; [reflexivity|]. constructor; [|constructor; [|constructor]]; (split; [reflexivity|]); cbn [snd]; [|reflexivity].
    apply rep_dict. exists 5%nat, [(A, HInt 5)]. split; auto. split.
    + intros (t & d & N & N' & E). cbn in N. injection N as <-. cbn in N'. injection N' as <-. destruct E; [discriminate|cbn in H; discriminate].
    + split; [reflexivity|]. repeat constructor.
Qed.

(** A result whose second update is None. *)
Definition exn_hr : hresult := mkHR 4 [HRef 6; HNone] [].
Definition exn_r : sresult := mkR demo_st [VDict [(KInt 1, VDict [(A, VInt 5)])]; VNone] [].
Lemma exn_result : rep_result demo_heap exn_hr exn_r.
Proof.
  destruct (demo_result_rep (HInt 5) (VInt 5) eq_refl) as (RI & RD & _). split; [exact RI|]. split; [|constructor].
  inversion RD; subst. constructor; auto. constructor; [reflexivity|constructor].
Qed.

(** A controller that writes 1, and raises KeyError when it is asked for the second time. *)
Definition exn_xc : xcontroller nat :=
  mkXC (fun c _ => ret c) (fun c _ => ret (HInt 1, c))
       (fun c _ _ => run v <- makes (ODict [(A, HInt 1)]);
                     match c with O => ret (v, 1%nat) | _ => reads (fun _ => Err KeyError) end).
Lemma exn_makes : only_makes exn_xc.
Proof.
  repeat split.
  - intros c s h. exists []. symmetry; apply app_nil_r.
  - intros c s h. exists []. symmetry; apply app_nil_r.
  - intros [|c] k s h; eexists; reflexivity.
Qed.
