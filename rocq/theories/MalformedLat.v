(** Which lists of vectors the constructor of lattices accepts. *)
From Coq Require Import PeanoNat Lia.
From Verif Require Import Prelude Dict Val Arith LatticeModel.

Lemma concat_len {B} (l : list (list B)) w : Forall (fun v => length v = w) l -> length (concat l) = (length l * w)%nat.
Proof. induction 1 as [|v l E _ IH]; [reflexivity|]. cbn [concat length]. rewrite app_length, E, IH. lia. Qed.
Lemma rectangular_spec {B} (l : list (list B)) : rectangular l = true <-> exists w, Forall (fun v => length v = w) l.
Proof.
  unfold rectangular. rewrite forallb_forall. split.
  - intros H. exists (width l). apply Forall_forall. intros x I. apply H in I. now apply Nat.eqb_eq in I.
  - intros [w H]. rewrite Forall_forall in H. intros x I. apply Nat.eqb_eq. rewrite (H x I). destruct l as [|v l]; [destruct I|]. symmetry. apply (H v). now left.
Qed.

Lemma C23_accepted_lemma : forall F (vecs : list (list F)) p,
  (forall u v, In u vecs -> In v vecs -> length u <> length v -> lattice_init vecs p = Err ValueError) /\
  (vecs = [] -> lattice_init vecs p = Err IndexError) /\
  (forall m w, (0 < m)%nat -> length vecs = m -> (forall v, In v vecs -> length v = w) ->
     (forall d, (m * w = d * d)%nat -> exists L, lattice_init vecs p = Ok L /\ l_dim L = w /\ length (l_matrix L) = d) /\
     ((forall d, (m * w <> d * d)%nat) -> lattice_init vecs p = Err ValueError)).
Proof.
  intros F vecs p. split; [|split].
  - intros u v Iu Iv N. unfold lattice_init. destruct (rectangular vecs) eqn:E; [|reflexivity]. exfalso. apply rectangular_spec in E as [w H]. rewrite Forall_forall in H.
    apply N. rewrite (H u Iu), (H v Iv). reflexivity.
  - intros ->. reflexivity.
  - intros m w M Lm W. assert (H : Forall (fun v => length v = w) vecs) by (apply Forall_forall; exact W).
    assert (R : rectangular vecs = true) by (apply rectangular_spec; eauto). split.
    + intros d Ed. unfold lattice_init. rewrite R. cbn [negb]. rewrite (concat_len vecs w H), Lm, Ed, Nat.sqrt_square, Nat.eqb_refl. cbn [negb].
      destruct vecs as [|v vecs]; [cbn in Lm; lia|]. eexists. split; [reflexivity|]. cbn [l_dim l_matrix]. split; [apply W; now left|].
      assert (CL : forall a b (x : list F), length (chunks a b x) = a) by (induction a; intros; cbn; auto). apply CL.
    + intros N. unfold lattice_init. rewrite R. cbn [negb]. rewrite (concat_len vecs w H), Lm.
      destruct (Nat.eqb_spec (Nat.sqrt (m * w) * Nat.sqrt (m * w)) (m * w)) as [E|E]; [|reflexivity]. exfalso. apply (N _ (eq_sym E)).
Qed.
