(** Two controllers that do on objects what they do on plain values. *)
From Verif Require Import Prelude Dict Val ValFacts StateModel ResultModel RunnerModel HeapModel SpecHeap HeapFacts HeapMore HeapRun HeapDemo HeapSim.

(** One that keeps a single dictionary and returns it every time. *)
Definition keeper : hcontroller nat :=
  mkHC nat (fun c _ h => Ok (c, h)) (fun c _ h => Ok (HInt 1, c, h)) (fun c _ _ h => Ok (HRef c, c, h)).
Definition keeper_plain : controller nat :=
  mkController (fun c _ => Ok c) (fun c _ => Ok (VInt 1, c)) (fun c _ _ => Ok (VDict [(A, VInt 9)], c)).
Definition keeps_dict (c : nat) (h : heap) : Prop := nth_error h c = Some (ODict [(A, HInt 9)]).

Lemma extends_refl : forall h, extends h h.
Proof. intros h. exists []. rewrite app_nil_r. reflexivity. Qed.

Lemma keeper_mimics : mimics (fun c l => l = c) keeps_dict keeper keeper_plain.
Proof.
  split; [|split].
  - intros c h l IC ->. apply nth_lt in IC. exact IC.
  - intros c h h' IC _ E. unfold keeps_dict. rewrite E; auto.
  - intros c s st h OK RS IC NK. split; [|split]; [| |intros k]; cbn.
    + exists h. repeat split; auto using extends_refl. left; auto.
    + exists (HInt 1), h. repeat split; auto using extends_refl. left; auto.
    + exists (HRef c), h. split; auto. split; [apply extends_refl|]. split; auto. split; auto. split; [left; auto|].
      exists c, [(A, HInt 9)]. split; auto. split; [intros X; apply X; left; auto|]. split; auto.
Qed.

(** One that reads the state it is given: it returns the dictionary of site 1 itself, as the
    new state of the site it is called for, and asks to visit site 1 next.  Without a site 1
    it raises KeyError. *)
Definition echo : hcontroller unit :=
  mkHC unit (fun c _ h => Ok (c, h)) (fun c _ h => Ok (HInt 2, c, h))
    (fun c k s h => do v <- h_get_site_state h s (KInt 1);
       match v with
       | HNone => Err KeyError
       | _ => Ok (HRef (S (length h)), c, h ++ [OList [HInt 1]; OTuple [v; HRef (length h)]])
       end).
Definition echo_plain : controller unit :=
  mkController (fun c _ => Ok c) (fun c _ => Ok (VInt 2, c))
    (fun c _ st => match dget (KInt 1) (s_sites st) with
                   | Some d => Ok (VTuple [VDict d; VList [VInt 1]], c)
                   | None => Err KeyError
                   end).

Lemma site_object : forall h s st k, rep_state h s st ->
  match dget k (s_sites st) with
  | Some d => exists l, h_get_site_state h s k = Ok (HRef l) /\ reach h s l /\ rep (own_dict h s) h (HRef l) (VDict d)
  | None => h_get_site_state h s k = Ok HNone
  end.
Proof.
  intros h s st k RS. pose proof RS as (t & a & d & sd & g & Ns & Dta & Nt & Ds & Na & Dg & RE & RG).
  assert (OWN : forall l, own_dict h s l <-> l = t \/ l = a).
  { intros l. split.
    - intros (t' & d' & N1 & N2 & X). rewrite Ns in N1. injection N1 as <-. rewrite Nt in N2. injection N2 as <-.
      destruct X as [X|X]; auto. rewrite Ds in X. injection X as <-. auto.
    - intros X. exists t, d. split; auto. split; auto. destruct X as [->| ->]; auto. }
  unfold h_get_site_state, h_sites, state_attr. rewrite Ns. cbn [bind get_dict]. rewrite Nt. cbn [bind].
  unfold dgetE. rewrite Ds. cbn [bind get_dict]. rewrite Na. cbn [bind].
  pose proof (entries_get _ _ _ _ k RE) as G. rewrite dget_states in G.
  destruct (dget k (s_sites st)) as [x|]; cbn [option_map] in G; destruct (dget k sd) as [w|] eqn:Ew; try contradiction; auto.
  pose proof G as G'. apply rep_dict in G' as (l & hd & -> & _ & Nl & _). exists l. split; auto. split.
  - eapply reach_next; [exact Ns|left; reflexivity|]. eapply reach_next; [exact Nt| |].
    + cbn. exact (dget_vals _ _ _ Ds).
    + eapply reach_next; [exact Na| |apply reach_here]. cbn. exact (dget_vals _ _ _ Ew).
  - eapply rep_mono; [|exact G]. intros l0 o N1 N2. split; auto. rewrite OWN. auto.
Qed.

Lemma echo_mimics : mimics (fun _ _ => False) (fun _ _ => True) echo echo_plain.
Proof.
  split; [|split]; auto.
  - intros c h l _ [].
  - intros c s st h OK RS IC NK. split; [|split]; [| |intros k]; cbn.
    + exists h. repeat split; auto using extends_refl. intros l [].
    + exists (HInt 2), h. repeat split; auto using extends_refl. intros l [].
    + pose proof (site_object h s st (KInt 1) RS) as SO.
      destruct (dget (KInt 1) (s_sites st)) as [d|]; [|rewrite SO; reflexivity].
      destruct SO as (l & -> & RL & RP). cbn [bind].
      set (h' := h ++ [OList [HInt 1]; OTuple [HRef l; HRef (length h)]]).
      exists (HRef (S (length h))), h'. split; auto. split; [eexists; reflexivity|].
      assert (OLD : forall n o, nth_error h n = Some o -> nth_error h' n = Some o).
      { intros n o N. unfold h'. rewrite nth_error_app1; auto. apply nth_lt in N. exact N. }
      assert (N1 : nth_error h' (length h) = Some (OList [HInt 1])).
      { unfold h'. rewrite nth_error_app2, Nat.sub_diag by lia. reflexivity. }
      assert (N2 : nth_error h' (S (length h)) = Some (OTuple [HRef l; HRef (length h)])).
      { unfold h'. rewrite nth_error_app2 by lia. replace (S (length h) - length h)%nat with 1%nat by lia. reflexivity. }
      assert (LH : length h' = (length h + 2)%nat) by (unfold h'; rewrite app_length; reflexivity).
      assert (Ll : (l < length h)%nat). { apply rep_dict in RP as (l' & hd & E & _ & N & _). injection E as ->. apply nth_lt in N. exact N. }
      split.
      { intros n o r N I. destruct (Nat.lt_ge_cases n (length h)) as [L|L].
        - unfold h' in N. rewrite nth_error_app1 in N by auto. rewrite LH. pose proof (OK _ _ _ N I). lia.
        - destruct (Nat.eq_dec n (length h)) as [->|]; [rewrite N1 in N; injection N as <-; destruct I as [I|[]]; discriminate|].
          destruct (Nat.eq_dec n (S (length h))) as [->|].
          + rewrite N2 in N. injection N as <-. rewrite LH. destruct I as [I|[I|[]]]; injection I as <-; lia.
          + pose proof (nth_lt _ _ _ N). lia. }
      split; auto. split; [intros ? []|].
      assert (NEW : forall n, (length h <= n < length h')%nat -> ~ ~ can_give (fun _ => False) h h' s n) by (intros n L X; apply X; right; left; auto).
      apply rep_tuple. exists (S (length h)), [HRef l; HRef (length h)]. split; auto. split; [apply NEW; lia|]. split; auto.
      constructor; [|constructor; [|constructor]].
      * pose proof (rep_found h s _ _ _ RP ltac:(intros l0 E; injection E as <-; exact RL)) as RF.
        eapply rep_mono; [|exact RF]. intros l0 o NB N. split; [apply OLD; auto|]. intros X. apply NB. intros (R1 & R2).
        apply X. right; right; auto.
      * apply rep_list. exists (length h), [HInt 1]. split; auto. split; [apply NEW; lia|]. split; auto. repeat constructor.
Qed.

Lemma demo_own : ~ own_dict demo_heap 4 7.
Proof.
  intros (t & d & N1 & N2 & X). cbn in N1. injection N1 as <-. cbn in N2. injection N2 as <-.
  destruct X as [X|X]; [discriminate|]. cbn in X. discriminate.
Qed.
