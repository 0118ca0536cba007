(** Concrete grids and artists for the examples about drawings. *)
From Coq Require Import Reals Lra Permutation Ascii.
From Verif Require Import Prelude Dict Val ValFacts Arith RealArith LatticeModel StructModel StateModel NbModel GridModel SetupModel AnalyzerModel VizModel
  SpecState SpecGeom SpecNb SpecGrid SpecSetup SpecAnalyze SpecViz StructFacts NbFacts NbMore GridFacts GridMore SetupFacts AnalyzerFacts AnalyzerDemo.
Local Open Scope Z_scope.

Lemma solid_demo dim sz : good_size dim sz -> exists s st, square_grid (grid_size dim sz) s /\ discrete st /\ (forall i x, get_site s i = Some x -> In (KInt i) (site_ids st)) /\ present st (VStr "a").
Proof.
  intros H. destruct (setup_grid dim sz H) as (s & L & E & SG & HB & _). destruct (square_facts _ _ SG) as [L' G]. pose proof (gf_built _ _ _ G) as HB'. pose proof (C47_solid_lemma R RA L' s "a"%string HB') as C.
  exists s, (setup_solid_phase s "a"%string). split; auto. split; [eapply config_discrete; eauto|]. assert (SI : forall i x, get_site s i = Some x -> In (KInt i) (site_ids (setup_solid_phase s "a"%string))).
  { intros i x Gx. rewrite (proj1 C). apply (built_get L' s HB') in Gx as [Hx <-]. apply in_map_iff. eauto. }
  split; auto.
  assert (EX : exists i x, get_site s i = Some x).
  { pose proof (gf_cell _ _ _ G (map (fun _ => 0) (grid_size dim sz)) (map_length _ _)) as Cz. do 2 eexists. apply (gf_site _ _ _ G), wrap_cells; [apply G|]. instantiate (1 := map (fun _ => 0) (grid_size dim sz)). apply map_length. }
  destruct EX as (i & x & Gx). exists (KInt i). split; [eauto|]. destruct (proj2 (proj2 C) i x Gx) as (p & Ep & ->). unfold has_phase, site_entry. rewrite Ep. reflexivity.
Qed.
Definition demo_artist : discrete_artist := mkDiscrete (Some [(VStr "a", (32, 178, 170))]) (KStr "DISCRETE_OCCUPANCY") None.
Definition demo_str (v : val) : string := match v with VStr s => s | _ => "other" end.
Definition demo_glyphs (p : Z * Z) (t : string) : list (Z * Z * colour) := match t with EmptyString => [] | _ => [(fst p, snd p, (255, 255, 255))] end.
Lemma demo_ok : colours_by demo_artist [(VStr "a", (32, 178, 170))] /\ rightwards demo_glyphs.
Proof.
  split; [split; reflexivity|]. intros x y t a b c H. destruct t; [destruct H|]. destruct H as [E|[]]. injection E as <- _ _. cbn. lia.
Qed.

(** An artist with colours for numbers, a key and a legend of its own, as in docs/guides/runners.ipynb. *)
Definition value_artist : discrete_artist := mkDiscrete (Some [(VInt 7, (9, 8, 7))]) (KStr "value") (Some [("seven"%string, (9, 8, 7)); ("none"%string, (1, 1, 1))]).
Definition value_state (ids : list Z) : sstate := mkS (map (fun i => (KInt i, [(KStr "_site_id", VInt i); (KStr "value", VInt 7)])) ids) [].
Lemma value_get ids i : In i ids -> get_site_state (value_state ids) (KInt i) = Some [(KStr "_site_id", VInt i); (KStr "value", VInt 7)].
Proof.
  unfold get_site_state, value_state. cbn [s_sites]. induction ids as [|j ids IH]; intros H; [destruct H|]. cbn [map dget]. destruct (eqb (KInt i) (KInt j)) eqn:E.
  - apply (proj1 (eqb_true (KInt i) _)) in E. injection E as ->. reflexivity.
  - apply IH. destruct H as [->|H]; auto. rewrite eqb_refl in E. discriminate.
Qed.
Lemma value_ids ids : site_ids (value_state ids) = map KInt ids.
Proof. unfold site_ids, value_state, dkeys. cbn [s_sites]. rewrite map_map. reflexivity. Qed.
Lemma value_valued ids : NoDup ids -> valued (KStr "value") (value_state ids).
Proof.
  intros ND. assert (K : forall k, In k (site_ids (value_state ids)) -> exists i, k = KInt i /\ In i ids) by (intros k H; rewrite value_ids in H; apply in_map_iff in H as (i & <- & H); eauto).
  split; [split|].
  - change (NoDup (site_ids (value_state ids))). rewrite value_ids. apply FinFun.Injective_map_NoDup; auto. intros a b E. now injection E.
  - intros k d G. assert (In k (site_ids (value_state ids))) by (apply dget_key_Some; exists d; exact G). apply K in H as (i & -> & Hi). rewrite (value_get ids i Hi) in G. injection G as <-. reflexivity.
  - intros k H. apply K in H as (i & -> & Hi). exists (VInt 7). unfold site_entry. rewrite (value_get ids i Hi). split; reflexivity.
Qed.
Lemma value_state_demo : exists st, valued (ca_state_key value_artist) st /\ held (KStr "value") st (VInt 7) /\ ca_color_map value_artist = Some [(VInt 7, (9, 8, 7))].
Proof. exists (value_state [0]). split; [apply value_valued; repeat constructor; simpl; tauto|]. split; [|reflexivity]. exists (KInt 0). split; [simpl; auto|reflexivity]. Qed.
Lemma value_demo : exists s st colr, square_grid [2; 2] s /\ paints (as_artist demo_str value_artist) s st colr [("seven"%string, (9, 8, 7)); ("none"%string, (1, 1, 1))] /\ exists i x, get_site s i = Some x /\ colr i = (9, 8, 7).
Proof.
  destruct (solid_demo 2 (SzInt 2)) as (s & st & SG & DI & SI & k & Hk & Ek); [split; [auto|split; [reflexivity|repeat constructor; lia]]|]. destruct (square_facts _ _ SG) as [L' G]. pose proof (gf_built _ _ _ G) as HB.
  exists s, (value_state (map s_id (sites s None))), (fun _ => (9, 8, 7)). split; [exact SG|]. split.
  - split; [|split; [reflexivity|repeat constructor; simpl; intuition discriminate]]. intros i x Gx. cbn [as_artist art_color]. rewrite value_get; [reflexivity|]. apply (built_get L' s HB) in Gx as [Hx <-]. now apply in_map.
  - pose proof (gf_cell _ _ _ G [0; 0] eq_refl) as Cz. do 2 eexists. split; [|reflexivity]. apply (gf_site _ _ _ G), wrap_cells; [apply G|]. instantiate (1 := [0; 0]). reflexivity.
Qed.
