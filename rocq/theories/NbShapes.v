(** Proofs for C42: which neighbours the stochastic neighbourhoods draw. *)
From Coq Require Import Reals Lra Permutation.
From Verif Require Import Prelude Dict Arith RVec RealArith LatticeModel JsonModel StructModel NbModel GridModel
  SpecGeom SpecNb SpecGrid LatticeFacts LatticeMore StructFacts StructMore StructBuild NbFacts NbMore NbDemo GridFacts GridMore GridNb.
Local Open Scope Z_scope.

(** The alternative a call draws depends on the choice only. *)
Lemma stochastic_index {F} (A : arith F) s bs N : nb_get A (BStochastic bs) s None = Ok N ->
  exists l, N = NStochastic l /\ length l = length bs /\ (forall k b, nth_error bs k = Some b -> exists M, nth_error l k = Some M /\ nb_get A b s None = Ok M) /\
  forall o k M, o_choice o l = k -> nth_error l k = Some M -> forall i, neighbors_of o N i = neighbors_of o M i /\ weighted_neighbors_of o N i = weighted_neighbors_of o M i.
Proof.
  intros E. cbn [nb_get] in E. apply bind_Ok in E as (l & E & EN). injection EN as <-. exists l. split; auto.
  assert (G : length l = length bs /\ forall k b, nth_error bs k = Some b -> exists M, nth_error l k = Some M /\ nb_get A b s None = Ok M).
  { revert l E. induction bs as [|b bs IH]; intros l E.
    - injection E as <-. split; auto. intros [|k] M; discriminate.
    - apply bind_Ok in E as (x & Ex & E). apply bind_Ok in E as (xs & Exs & E). injection E as <-.
      destruct (IH xs Exs) as [L1 H]. split; [simpl; auto|]. intros [|k] M Hk; simpl in *; [injection Hk as <-; eauto|auto]. }
  destruct G as [G1 G2]. split; auto. split; auto. intros o k M EK EM i. cbn [neighbors_of weighted_neighbors_of]. rewrite EK. revert EM. generalize k. clear.
  induction l as [|x l IH]; intros [|k] E; try discriminate; simpl in E; [injection E as <-; auto|]. apply (IH k E).
Qed.

Lemma C42_every_lemma : forall F (A : arith F) s bs N k b ord, nb_get A (BStochastic bs) s None = Ok N -> nth_error bs k = Some b -> (forall l, Permutation l (ord l)) ->
  exists o M, legal o /\ o_order o = ord /\ nb_get A b s None = Ok M /\
    forall i, neighbors_of o N i = neighbors_of o M i /\ weighted_neighbors_of o N i = weighted_neighbors_of o M i.
Proof.
  intros F A s bs N k b ord EN Hk PO. destruct (stochastic_index A s bs N EN) as (l & -> & LL & G & H).
  destruct (G k b Hk) as (M & Hl & EM).
  exists (mkOracle ord (fun l' => if Nat.ltb k (length l') then k else O)), M. split; [|split; [reflexivity|split; [exact EM|]]].
  - split; [exact PO|]. cbn [o_choice]. intros l' NE. destruct (Nat.ltb k (length l')) eqn:C; [now apply Nat.ltb_lt|]. destruct l'; [congruence|simpl; lia].
  - apply (H _ k M); auto. cbn [o_choice]. assert (k < length l)%nat by (apply nth_error_Some; congruence). now rewrite (proj2 (Nat.ltb_lt _ _)).
Qed.

Lemma shift_zeros x d : length d = length x -> forallb (Z.eqb 0) d = true -> shift x d = x.
Proof.
  revert x; induction d as [|a d IH]; intros [|b x] L; try discriminate; auto. cbn [forallb]. intros H. apply andb_true_iff in H as [H1 H2]. apply Z.eqb_eq in H1. subst a.
  unfold shift. cbn. rewrite Z.add_0_r. f_equal. apply IH; auto.
Qed.

Lemma stochastic_shape size s motifs (E : list Z -> Prop) (shape : list Z -> list Z -> Prop) : square_grid size s -> motifs <> [] ->
  (forall D, In D motifs -> Forall (fun d => length d = length size) D /\ exists e, E e /\ forall d, length d = length size -> (shape e d <-> In d D \/ forallb (Z.eqb 0) d = true)) ->
  (forall e, E e -> exists D, In D motifs /\ forall d, length d = length size -> (shape e d <-> In d D \/ forallb (Z.eqb 0) d = true)) ->
  exists b N, stochastic_motifs RA motifs = Ok b /\ nb_get RA b s None = Ok N /\ draws_shape size s E shape N.
Proof.
  intros SG NE HM HE. destruct (square_facts size s SG) as [L G].
  assert (ONE : forall D, In D motifs -> exists b N, motif_builder RA (map (nums RA) D) = Ok b /\ nb_get RA b s None = Ok N /\
     forall x i, length x = length size -> cell s x i -> neighbours N i (fun j => j <> i /\ exists d, In d D /\ cell s (shift x d) j)).
  { intros D HD. destruct (HM D HD) as [FD _]. exact (grid_motif size s L D G FD). }
  destruct (mapM_total (fun m => motif_builder RA (map (nums RA) m)) motifs) as [bs Ebs].
  { intros D HD. destruct (ONE D HD) as (b & _ & Eb & _). eauto. }
  assert (LB : forall l bs, mapM (fun m => motif_builder RA (map (nums RA) m)) l = Ok bs -> length bs = length l /\ forall k D, nth_error l k = Some D -> exists b, nth_error bs k = Some b /\ motif_builder RA (map (nums RA) D) = Ok b).
  { clear. induction l as [|a l IH]; intros bs E; cbn [mapM] in E.
    - injection E as <-. split; auto. intros [|k]; discriminate.
    - apply bind_Ok in E as (y & Ey & E). apply bind_Ok in E as (t & Et & E). injection E as <-. destruct (IH t Et) as [H1 H2].
      split; [simpl; auto|]. intros [|k] z Hk; simpl in *; [injection Hk as <-; eauto|eauto]. }
  destruct (LB motifs bs Ebs) as [LBS NBS].
  assert (BSN : forall k b, nth_error bs k = Some b -> exists D M, nth_error motifs k = Some D /\ nb_get RA b s None = Ok M /\
     forall x i, length x = length size -> cell s x i -> neighbours M i (fun j => j <> i /\ exists d, In d D /\ cell s (shift x d) j)).
  { intros k b Hk. destruct (mapM_nth _ _ _ Ebs k b Hk) as (D & HD & Eb).
    destruct (ONE D) as (b' & M & E' & EM & H); [eapply nth_error_In; eauto|]. assert (b = b') by congruence. subst. eauto. }
  destruct (stochastic_get RA s bs) as [N EN].
  { intros b Hb. apply In_nth_error in Hb as [k Hk]. destruct (BSN k b Hk) as (D & M & _ & EM & _). eauto. }
  exists (BStochastic bs), N. split; [unfold stochastic_motifs; rewrite Ebs; reflexivity|]. split; auto.
  destruct (stochastic_index RA s bs N EN) as (l & -> & LL & GI & PICK).
  assert (ANS : forall o k D e, legal o -> o_choice o l = k -> nth_error motifs k = Some D -> (forall d, length d = length size -> (shape e d <-> In d D \/ forallb (Z.eqb 0) d = true)) ->
     Forall (fun d => length d = length size) D ->
     forall x i, length x = length size -> cell s x i -> exists l0, neighbors_of o (NStochastic l) i = Ok l0 /\ NoDup l0 /\
       forall j, In j l0 <-> j <> i /\ exists d, length d = length size /\ shape e d /\ cell s (shift x d) j).
  { intros o k D e LO CK HD SE FD x i Lx Cx. destruct (NBS k D HD) as (b & Hb & Eb). destruct (GI k b Hb) as (M & HlM & EM).
    destruct (BSN k b Hb) as (D' & M' & HD' & EM' & HN). rewrite HD in HD'. injection HD' as <-. rewrite EM in EM'. injection EM' as <-.
    destruct (PICK o k M CK HlM i) as [-> _]. destruct (HN x i Lx Cx o LO) as (l0 & El & ND & IN). exists l0. split; auto. split; auto.
    intros j. rewrite IN. rewrite Forall_forall in FD. split; intros (NJ & d & H); (split; [exact NJ|]).
    - destruct H as [Hd Cd]. exists d. split; [auto|]. split; auto. apply SE; auto.
    - destruct H as (Ld & Sd & Cd). apply SE in Sd as [Hd|Zd]; auto; [eauto|]. exfalso. apply NJ. rewrite shift_zeros in Cd by congruence.
      unfold cell in Cx, Cd. congruence. }
  split.
  - intros o LO. assert (l <> []) as NL. { intros ->. destruct motifs; [congruence|]. cbn [length] in *. rewrite <- LL in LBS. discriminate. }
    destruct LO as [LO1 LO2]. specialize (LO2 l NL) as B. destruct (nth_error motifs (o_choice o l)) as [D|] eqn:HD.
    2:{ apply nth_error_None in HD. rewrite LL, LBS in B. lia. }
    destruct (HM D) as (FD & e & Ee & SE); [eapply nth_error_In; eauto|]. exists e. split; auto.
    intros x i Lx Cx. apply (ANS o (o_choice o l) D e); auto. split; auto.
  - intros e Ee. destruct (HE e Ee) as (D & ID & SE). destruct (HM D ID) as [FD _]. apply In_nth_error in ID as [k HD].
    assert (KB : (k < length l)%nat) by (rewrite LL, LBS; apply nth_error_Some; congruence).
    set (o := mkOracle (fun l => l) (fun l' : list (nbhood R) => if Nat.ltb k (length l') then k else O)).
    assert (LO : legal o).
    { split; [intros; apply Permutation_refl|]. cbn [o_choice o]. intros l' NE'. destruct (Nat.ltb k (length l')) eqn:C; [now apply Nat.ltb_lt|]. destruct l'; [congruence|simpl; lia]. }
    exists o. split; auto. intros x i Lx Cx. apply (ANS o k D e); auto. cbn [o_choice o]. now rewrite (proj2 (Nat.ltb_lt _ _)).
Qed.

Ltac lit a := let H := fresh in assert (H : a = -1 \/ a = 0 \/ a = 1) by lia; destruct H as [->|[->| ->]].
Ltac listed := cbn; first [left; repeat (first [left; reflexivity|right]); fail|right; reflexivity|idtac].
Ltac in_shape := unfold hexagonal, half_moore, within_vn, within_moore; cbn; first [left; lia|right; left; reflexivity|right; right; reflexivity|split; [repeat constructor; lia|lia]].
Ltac read_in H := cbn in H; repeat (destruct H as [<-|H]; [in_shape|]); try contradiction.
Ltac bound_in H := unfold hexagonal, half_moore, within_vn, within_moore in H; cbn in H.

Lemma diag2 e : diagonal_of 2 e -> In e [[1; 1]; [-1; -1]; [-1; 1]; [1; -1]].
Proof.
  intros [L F]. destruct e as [|a [|b [|]]]; try discriminate. inversion F as [|? ? Ha F1]; subst. inversion F1 as [|? ? Hb _]; subst.
  lit a; lit b; try discriminate; unfold In; tauto.
Qed.

Lemma diag3 e : diagonal_of 3 e -> In e [[1; 1; 1]; [1; 1; -1]; [1; -1; 1]; [1; -1; -1]; [-1; 1; 1]; [-1; 1; -1]; [-1; -1; 1]; [-1; -1; -1]].
Proof.
  intros [L F]. destruct e as [|a [|b [|c [|]]]]; try discriminate. inversion F as [|? ? Ha F1]; subst. inversion F1 as [|? ? Hb F2]; subst. inversion F2 as [|? ? Hc _]; subst.
  lit a; lit b; lit c; try discriminate; unfold In; tauto.
Qed.

Lemma dirs2 u : direction_of 2 u -> In u [[0; -1]; [0; 1]; [1; 0]; [-1; 0]].
Proof.
  intros [L F]. destruct u as [|a [|b [|]]]; try discriminate. cbn in F. lit a; lit b; try discriminate; unfold In; tauto.
Qed.

Ltac shape2 := intros d Ld; destruct d as [|?a [|?b [|]]]; try discriminate Ld; clear Ld; split;
  [ let H := fresh in intros H; bound_in H;
    match goal with |- _ \/ forallb _ [?a; ?b] = true =>
      let K := fresh in assert (K : (a = -1 \/ a = 0 \/ a = 1) /\ (b = -1 \/ b = 0 \/ b = 1));
      [ first [destruct H as [H|[H|H]]; [lia|injection H as -> ->; lia|injection H as -> ->; lia]
              |destruct H as [H _]; inversion H as [|? ? ?Ha ?F]; subst; inversion F as [|? ? ?Hb _]; subst; lia]
      | destruct K as [[->|[->| ->]] [->|[->| ->]]] ] end;
    first [left; cbn [app In]; tauto|right; reflexivity|exfalso; destruct H as [H|[H|H]]; [lia|discriminate|discriminate]|exfalso; destruct H as [_ H]; lia]
  | let H := fresh in intros [H|H]; [read_in H|
      cbn [forallb] in H; apply andb_true_iff in H as [H1 H2]; apply andb_true_iff in H2 as [H2 _]; apply Z.eqb_eq in H1; apply Z.eqb_eq in H2; subst; in_shape] ].

Ltac shape3 := intros d Ld; destruct d as [|?a [|?b [|?c [|]]]]; try discriminate Ld; clear Ld; split;
  [ let H := fresh in intros H; bound_in H;
    match goal with |- _ \/ forallb _ [?a; ?b; ?c] = true =>
      let K := fresh in assert (K : (a = -1 \/ a = 0 \/ a = 1) /\ (b = -1 \/ b = 0 \/ b = 1) /\ (c = -1 \/ c = 0 \/ c = 1));
      [ destruct H as [H|[H|H]]; [lia|injection H as -> -> ->; lia|injection H as -> -> ->; lia]
      | destruct K as [[->|[->| ->]] [[->|[->| ->]] [->|[->| ->]]]] ] end;
    first [left; cbn [app In]; tauto|right; reflexivity|exfalso; destruct H as [H|[H|H]]; [lia|discriminate|discriminate]]
  | let H := fresh in intros [H|H]; [read_in H|
      cbn [forallb] in H; apply andb_true_iff in H as [H1 H2]; apply andb_true_iff in H2 as [H2 H3]; apply andb_true_iff in H3 as [H3 _];
      apply Z.eqb_eq in H1; apply Z.eqb_eq in H2; apply Z.eqb_eq in H3; subst; in_shape] ].

Ltac param := split; [reflexivity|first [reflexivity|repeat (apply Forall_cons; [reflexivity|]); apply Forall_nil]].

Lemma C42_shapes_lemma : forall size s, square_grid size s ->
  (length size = 2%nat ->
     (exists b N, PseudoHexagonalNeighborhoodBuilder2D RA = Ok b /\ nb_get RA b s None = Ok N /\ draws_shape size s (diagonal_of 2) hexagonal N) /\
     (exists b N, PseudoPentagonalNeighborhoodBuilder RA = Ok b /\ nb_get RA b s None = Ok N /\ draws_shape size s (direction_of 2) half_moore N)) /\
  (length size = 3%nat ->
     exists b N, PseudoHexagonalNeighborhoodBuilder3D RA = Ok b /\ nb_get RA b s None = Ok N /\ draws_shape size s (diagonal_of 3) hexagonal N).
Proof.
  intros size s SG. split; intros L; [split|]; (apply stochastic_shape; [exact SG|discriminate| |]); rewrite L; clear.
  - intros D HD. unfold hex2_motifs, In in HD. destruct HD as [<-|[<-|[]]]; (split; [repeat constructor|]).
    + exists [1; 1]. split; [param|shape2].
    + exists [-1; 1]. split; [param|shape2].
  - intros e He. apply diag2 in He. unfold In in He. destruct He as [<-|[<-|[<-|[<-|[]]]]].
    1,2: eexists; split; [left; reflexivity|shape2].
    1,2: eexists; split; [right; left; reflexivity|shape2].
  - intros D HD. unfold pent_motifs, In in HD. destruct HD as [<-|[<-|[<-|[<-|[]]]]]; (split; [repeat constructor|]).
    + exists [0; -1]. split; [param|shape2].
    + exists [0; 1]. split; [param|shape2].
    + exists [1; 0]. split; [param|shape2].
    + exists [-1; 0]. split; [param|shape2].
  - intros e He. apply dirs2 in He. unfold In in He. destruct He as [<-|[<-|[<-|[<-|[]]]]].
    + eexists; split; [left; reflexivity|shape2].
    + eexists; split; [right; left; reflexivity|shape2].
    + eexists; split; [do 2 right; left; reflexivity|shape2].
    + eexists; split; [do 3 right; left; reflexivity|shape2].
  - intros D HD. unfold hex3_motifs, hex3_common, In in HD. destruct HD as [<-|[<-|[<-|[<-|[]]]]]; (split; [repeat constructor|]).
    + exists [-1; -1; 1]. split; [param|shape3].
    + exists [-1; 1; 1]. split; [param|shape3].
    + exists [1; 1; 1]. split; [param|shape3].
    + exists [1; -1; 1]. split; [param|shape3].
  - intros e He. apply diag3 in He. unfold In in He. unfold hex3_motifs, hex3_common.
    destruct He as [<-|[<-|[<-|[<-|[<-|[<-|[<-|[<-|[]]]]]]]]].
    + eexists; split; [do 2 right; left; reflexivity|shape3].
    + eexists; split; [left; reflexivity|shape3].
    + eexists; split; [do 3 right; left; reflexivity|shape3].
    + eexists; split; [right; left; reflexivity|shape3].
    + eexists; split; [right; left; reflexivity|shape3].
    + eexists; split; [do 3 right; left; reflexivity|shape3].
    + eexists; split; [left; reflexivity|shape3].
    + eexists; split; [do 2 right; left; reflexivity|shape3].
Qed.
