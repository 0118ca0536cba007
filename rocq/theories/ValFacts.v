(** Lemmas about dynamic values. *)
From Verif Require Import Prelude Dict Val.

#[export] Instance EqbOk_key : EqbOk key.
Proof.
  intros [x|x] [y|y]; cbn; try (constructor; congruence).
  - unfold eqb, Eqb_key, key_eqb. destruct (Z.eqb_spec x y); constructor; congruence.
  - unfold eqb, Eqb_key, key_eqb. destruct (String.eqb_spec x y); constructor; congruence.
Qed.

(** Induction over values with hypotheses for the elements of containers. *)
Section ValInd.
  Variable P : val -> Prop.
  Hypothesis H_none : P VNone.
  Hypothesis H_bool : forall b, P (VBool b).
  Hypothesis H_int : forall z, P (VInt z).
  Hypothesis H_float : forall m e, P (VFloat m e).
  Hypothesis H_str : forall s, P (VStr s).
  Hypothesis H_list : forall l, Forall P l -> P (VList l).
  Hypothesis H_tuple : forall l, Forall P l -> P (VTuple l).
  Hypothesis H_dict : forall d, Forall (fun kv => P (snd kv)) d -> P (VDict d).
  Fixpoint val_ind' (v : val) : P v :=
    match v with
    | VNone => H_none
    | VBool b => H_bool b
    | VInt z => H_int z
    | VFloat m e => H_float m e
    | VStr s => H_str s
    | VList l => H_list l ((fix go l : Forall P l :=
        match l with [] => Forall_nil _ | x :: t => Forall_cons x (val_ind' x) (go t) end) l)
    | VTuple l => H_tuple l ((fix go l : Forall P l :=
        match l with [] => Forall_nil _ | x :: t => Forall_cons x (val_ind' x) (go t) end) l)
    | VDict d => H_dict d ((fix go d : Forall (fun kv => P (snd kv)) d :=
        match d with
        | [] => Forall_nil _
        | (k, x) :: t => @Forall_cons _ (fun kv => P (snd kv)) (k, x) t (val_ind' x) (go t)
        end) d)
    end.
End ValInd.

(** Well-formed values: dictionaries have unique keys at every level. *)
Fixpoint val_wf (v : val) : Prop :=
  match v with
  | VList l | VTuple l => (fix go l := match l with [] => True | x :: t => val_wf x /\ go t end) l
  | VDict d => NoDup (map fst d) /\
      (fix go (d : list (key * val)) := match d with [] => True | (_, x) :: t => val_wf x /\ go t end) d
  | _ => True
  end.

Lemma val_wf_list l : val_wf (VList l) <-> Forall val_wf l.
Proof.
  cbn. induction l as [|x t IH]; [split; constructor|]. rewrite Forall_cons_iff. tauto.
Qed.
Lemma val_wf_tuple l : val_wf (VTuple l) <-> Forall val_wf l.
Proof. exact (val_wf_list l). Qed.
Lemma val_wf_dict d : val_wf (VDict d) <-> NoDup (dkeys d) /\ Forall (fun kv => val_wf (snd kv)) d.
Proof.
  cbn. unfold dkeys. enough (E : (fix go (d0 : list (key * val)) : Prop :=
      match d0 with [] => True | (_, x) :: t => val_wf x /\ go t end) d <-> Forall (fun kv => val_wf (snd kv)) d)
    by tauto.
  induction d as [|[k x] t IH]; [split; constructor|]. rewrite Forall_cons_iff. cbn. tauto.
Qed.

Lemma val_eqb_list l1 l2 : val_eqb (VList l1) (VList l2) = true <-> Forall2 (fun x y => val_eqb x y = true) l1 l2.
Proof.
  cbn. revert l2. induction l1 as [|x t IH]; intros [|y t2]; split; try discriminate; try constructor;
  try inversion 1; subst.
  - apply andb_true_iff in H. tauto.
  - apply IH. apply andb_true_iff in H. tauto.
  - apply andb_true_iff. split; [assumption|]. now apply IH.
Qed.
Lemma val_eqb_tuple l1 l2 : val_eqb (VTuple l1) (VTuple l2) = true <-> Forall2 (fun x y => val_eqb x y = true) l1 l2.
Proof. exact (val_eqb_list l1 l2). Qed.
Lemma val_eqb_dict d1 d2 : val_eqb (VDict d1) (VDict d2) = true <->
  length d1 = length d2 /\
  Forall (fun kv => exists w, dget (fst kv) d2 = Some w /\ val_eqb (snd kv) w = true) d1.
Proof.
  cbn [val_eqb]. rewrite andb_true_iff, Nat.eqb_eq.
  enough (E : forall d, (fix go (l : list (key * val)) {struct l} : bool :=
         match l with
         | [] => true
         | (k, v) :: t => match dget k d2 with Some w => val_eqb v w | None => false end && go t
         end) d = true <-> Forall (fun kv => exists w, dget (fst kv) d2 = Some w /\ val_eqb (snd kv) w = true) d)
    by (rewrite E; tauto).
  induction d as [|[k v] t IH]; [split; [constructor|reflexivity]|].
  rewrite andb_true_iff, IH, Forall_cons_iff. cbn [fst snd].
  destruct (dget k d2) as [w|]; split; intros [A B]; split; auto.
  - eauto.
  - destruct A as (w' & E & F). congruence.
  - discriminate.
  - destruct A as (w' & E & F). discriminate.
Qed.

Lemma val_eqb_refl v : val_wf v -> val_eqb v v = true.
Proof.
  induction v as [|b|z|m e|s|l IH|l IH|d IH] using val_ind'; intros W; cbn [val_eqb].
  - reflexivity.
  - apply Bool.eqb_reflx.
  - apply Z.eqb_refl.
  - now rewrite !Z.eqb_refl.
  - apply String.eqb_refl.
  - apply val_eqb_list. apply val_wf_list in W. induction l as [|x t IHl]; constructor;
    inversion IH; inversion W; subst; auto.
  - apply val_eqb_tuple. apply val_wf_list in W. induction l as [|x t IHl]; constructor;
    inversion IH; inversion W; subst; auto.
  - apply val_eqb_dict. apply val_wf_dict in W as [N W]. split; [reflexivity|].
    rewrite Forall_forall in *. intros [k x] I. exists x. split; [now apply In_dget|].
    apply (IH (k, x) I). apply (W (k, x) I).
Qed.
