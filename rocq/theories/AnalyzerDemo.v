(** Concrete states and results for the examples about analyzers. *)
From Coq Require Import Reals Lra Permutation.
From Verif Require Import Prelude Dict Val ValFacts Arith RealArith LatticeModel StructModel StateModel ResultModel AnalyzerModel
  SpecState SpecResult SpecGeom SpecNb SpecSetup SpecAnalyze StructFacts NbFacts NbDemo AnalyzerFacts.
Local Open Scope Z_scope.

Definition duo (a b : string) : sstate :=
  mkS [(KInt 0, [(KStr "_site_id", VInt 0); (KStr "DISCRETE_OCCUPANCY", VStr a)]);
       (KInt 1, [(KStr "_site_id", VInt 1); (KStr "DISCRETE_OCCUPANCY", VStr b)])] [].
Lemma two_ids : map s_id (sites two None) = [0; 1].
Proof.
  destruct (built_inv RA open_line two two_built) as [h I]. pose proof (built_dense RA open_line two two_built) as D. unfold dense in D. rewrite D.
  destruct two_sites as [G0 G1]. apply (inv_get_site RA open_line h two _ _ I) in G0 as [G0 _], G1 as [G1 _].
  assert (L : length (sites two None) = 2%nat); [|rewrite L; reflexivity].
  unfold two. destruct two_adds as (s & E & I'). rewrite E. cbn [fst]. unfold sites, dvals. rewrite map_length. destruct I' as (_ & _ & E3 & _). rewrite E3. reflexivity.
Qed.
Lemma two_only i x : get_site two i = Some x -> i = 0 \/ i = 1.
Proof.
  intros G. destruct (built_inv RA open_line two two_built) as [h I]. apply (inv_get_site RA open_line h two _ _ I) in G as [G <-]. apply (in_map s_id) in G. rewrite two_ids in G. simpl in G. intuition.
Qed.
Lemma duo_config a b : configuration two (duo a b) (fun _ _ => True).
Proof.
  split; [|split; [reflexivity|]].
  - rewrite <- (map_map s_id KInt), two_ids. reflexivity.
  - intros i x G. destruct (two_only i x G) as [->| ->]; eexists; split; auto; reflexivity.
Qed.
Lemma duo_discrete a b : discrete (duo a b).
Proof. eapply config_discrete; [exact two_built|apply duo_config]. Qed.
Definition paint (k : Z) (p : string) : val := VDict [(KInt k, VDict [(KStr "DISCRETE_OCCUPANCY", VStr p)])].
Definition duo_T (n : nat) : sstate := match n with O => duo "a" "b" | _ => duo "a" "c" end.
Lemma duo_course : course (duo "a" "b") (added [RAdd (paint 1 "c")]) duo_T.
Proof. intros n Hn. destruct n as [|[|n]]; [split; [reflexivity|apply duo_discrete]..|cbn in Hn; lia]. Qed.

(** A state whose phases are not strings: the number 1 and a pair. *)
Definition odd_phases : sstate :=
  mkS [(KInt 0, [(KStr "_site_id", VInt 0); (KStr "DISCRETE_OCCUPANCY", VInt 1)]);
       (KInt 1, [(KStr "_site_id", VInt 1); (KStr "DISCRETE_OCCUPANCY", VTuple [VInt 1; VStr "b"])])] [].
Lemma odd_discrete : discrete odd_phases.
Proof.
  split; [split|].
  - repeat constructor; cbn; intros H; repeat destruct H as [H|H]; try discriminate H; destruct H.
  - intros k d. unfold get_site_state. cbn [odd_phases s_sites dget]. destruct (eqb k (KInt 0)) eqn:E0; [apply (proj1 (eqb_true k _)) in E0; subst k; intros X; injection X as <-; reflexivity|].
    destruct (eqb k (KInt 1)) eqn:E1; [apply (proj1 (eqb_true k _)) in E1; subst k; intros X; injection X as <-; reflexivity|discriminate].
  - intros k H. cbn in H. destruct H as [<-|[<-|[]]]; eexists; split; reflexivity.
Qed.
