(** Proof for C91: states at locations in binary64. *)
From Coq Require Import Reals.
From Verif Require Import Prelude Val Arith FloatArith StateModel LatticeModel StructModel SimModel NbModel SpecGeom SpecNb SpecGrid SpecRules SpecFloat64 FloatMotif.
Local Open Scope Z_scope.

Lemma state_at_id : forall (s : structure b64) st v, state_at FA (mkSim st s) v =
  match id_at FA s v with Ok (Some i) => Ok (get_site_state st (KInt i)) | Ok None => Ok None | Err e => Err e end.
Proof. intros s st v. unfold state_at, id_at. cbn [sim_struct sim_state]. destruct (site_at FA s v) as [[x|]|e]; reflexivity. Qed.

Lemma C91_state_lemma : forall n per L k z p s st x v, fl_axes n per L -> length k = n -> Forall (fun m => 1 <= m <= 2 ^ 20) k -> cell_position n z p ->
  Forall2 (fun b a => b = true -> 1 <= a) per z -> build_from FA L k (MList [p]) false = Ok s ->
  length x = n -> Forall (fun a => Z.abs a <= 2 ^ 27) x ->
  Forall2 (fun q u => exists X, denotes u X /\ (Rabs (X - IZR q / 1000) <= / IZR (2 ^ 20))%R) (zipwith (fun a b => 1000 * a + b) x z) v ->
  (forall c i, fl_site s z c i -> reaches per k x (repeat 0 n) c -> state_at FA (mkSim st s) v = Ok (get_site_state st (KInt i))) /\
  ((forall c, Forall2 (fun a m => 0 <= a < m) c k -> ~ reaches per k x (repeat 0 n) c) -> state_at FA (mkSim st s) v = Ok None).
Proof.
  intros n per L k z p s st x v HA Lk Hk HP OB EB Lx Bx HV.
  destruct (C91_lookup_lemma n per L k z p s x v HA Lk Hk HP OB EB Lx Bx HV) as (H1 & H2). rewrite state_at_id. split.
  - intros c i FS R. now rewrite (H1 c i FS R).
  - intros N. now rewrite (H2 N).
Qed.
