(** Facts about states made from a structure (C74). *)
From Coq Require Import Reals.
From Verif Require Import Prelude Dict Val Arith RealArith LatticeModel StructModel StateModel SpecGeom SpecNb ValFacts StructFacts NbFacts NbMore PmgModel PmgFacts.
Local Open Scope Z_scope.

Lemma C74_lemma : forall L s, built RA L s -> let st := from_struct (p_ids s) in
  site_ids st = map (fun x => KInt (s_id x)) (sites s None) /\
  (forall i, get_site_state st (KInt i) = match get_site s i with Some _ => Some [(SITE_ID, VInt i)] | None => None end) /\
  (forall k, get_site_state st (KStr k) = None) /\ get_general_state st = [].
Proof.
  intros L s HB st. pose proof (built_dense RA L s HB) as D.
  assert (EI : p_ids s = map s_id (sites s None)).
  { destruct (built_inv RA L s HB) as [h I]. pose proof I as (_ & _ & _ & EI & _). unfold dense in D. rewrite D, EI. do 2 f_equal.
    pose proof (sites_length RA L h s I) as Ln. unfold sites, dvals. rewrite map_length. lia. }
  assert (ND : NoDup (p_ids s)) by (rewrite EI, D; apply zrange_NoDup).
  assert (ES : st = lay (p_ids s) (fun _ => None)) by (apply lay_start; auto). rewrite ES.
  split; [unfold site_ids, dkeys, lay; cbn [s_sites]; rewrite map_map, EI, map_map; reflexivity|]. split.
  - intros i. unfold get_site_state. destruct (get_site s i) as [x|] eqn:G.
    + apply (built_get L s HB) in G as [Ix <-]. rewrite lay_get; auto. rewrite EI. now apply in_map.
    + apply (proj2 (dget_None _ _)). unfold dkeys, lay. cbn [s_sites]. rewrite map_map. cbn [fst]. intros H.
      apply in_map_iff in H as (j & [= ->] & I). rewrite EI in I. apply in_map_iff in I as (x & E & Ix).
      assert (get_site s i = Some x) by (apply (built_get L s HB); auto). congruence.
  - split; [|reflexivity]. intros k. apply (proj2 (dget_None _ _)). unfold dkeys, lay. cbn [s_sites]. rewrite map_map. cbn [fst]. intros H.
    apply in_map_iff in H as (j & E & _). discriminate.
Qed.
