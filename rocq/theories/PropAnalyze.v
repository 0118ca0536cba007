(** Properties C57-C61, C65 and C70: analyzers and simulations. *)
From Coq Require Import Reals Lra Permutation.
From Verif Require Import Prelude Dict Val Arith RealArith LatticeModel StructModel StateModel ResultModel JsonModel SimModel SetupModel AnalyzerModel SpecState SpecResult SpecGeom SpecNb SpecSetup SpecAnalyze NbDemo AnalyzerFacts AnalyzerMore AnalyzerDemo FracAt StructExact LatticeFacts StructMore StructFacts NbFacts StructDemo.
Local Open Scope Z_scope.

(** C57. Queries through an analyzer that knows the structure. *)
Theorem C57_get_sites : forall F A (L : lattice F) s st cls crit, built A L s -> ided st ->
  (forall i x, get_site s i = Some x -> In (KInt i) (site_ids st)) ->
  exists l, get_sites (Some s) st cls (map on_state crit) = Ok (map VInt l) /\
    get_site_count (Some s) st cls (map on_state crit) = Ok (Z.of_nat (length l)) /\
    l = filter (fun i => match get_site_state st (KInt i) with Some d => forallb (fun c => c d) crit | None => false end) (map s_id (sites s cls)) /\
    (forall i, In i l <-> exists x d, get_site s i = Some x /\ in_class cls (s_class x) /\ get_site_state st (KInt i) = Some d /\ forall c, In c crit -> c d = true).
Proof. exact C57_structure_lemma. Qed.
Print Assumptions C57_get_sites.
Example C57_example : built RA open_line two /\ ided (duo "a" "b") /\ (forall i x, get_site two i = Some x -> In (KInt i) (site_ids (duo "a" "b"))).
Proof.
  split; [exact two_built|split; [apply duo_discrete|]]. intros i x G. destruct (two_only i x G) as [->| ->]; simpl; auto.
Qed.

(** C57. Queries through an analyzer without a structure: all sites of the state. *)
Theorem C57_get_sites_no_structure : forall F st cls crit, ided st ->
  get_sites (F := F) None st cls (map on_state crit) =
    Ok (map key_val (filter (fun k => match get_site_state st k with Some d => forallb (fun c => c d) crit | None => false end) (site_ids st))).
Proof. exact C57_state_lemma. Qed.
Print Assumptions C57_get_sites_no_structure.
Example C57_state_example : get_sites (F := R) None (duo "a" "b") None [on_state (fun d => val_eqb (VInt 1) (match dget (KStr "_site_id") d with Some v => v | None => VNone end))] = Ok [VInt 1].
Proof. reflexivity. Qed.

(** C57. Queries by dictionary entries. *)
Theorem C57_where_equal : forall F A (L : lattice F) s st cls pairs, built A L s -> ided st ->
  (forall i x, get_site s i = Some x -> In (KInt i) (site_ids st)) -> (forall k v, In (k, v) pairs -> simple v) ->
  exists l, get_sites_where_equal (Some s) st pairs cls = Ok (map VInt l) /\
    get_site_count_where_equal (Some s) st pairs cls = Ok (Z.of_nat (length l)) /\ NoDup l /\
    (forall i, In i l <-> exists x, get_site s i = Some x /\ in_class cls (s_class x) /\ forall k v, In (k, v) pairs -> site_entry st (KInt i) k = Some v).
Proof. exact C57_equal_lemma. Qed.
Print Assumptions C57_where_equal.
Example C57_equal_example : get_sites_where_equal (F := R) None (duo "a" "b") [(KStr "DISCRETE_OCCUPANCY", VStr "a")] None = Ok [VInt 0].
Proof. reflexivity. Qed.

(** C57. A structure with a site the state does not know raises TypeError. *)
Theorem C57_missing_site : forall F (s : structure F) st cls crit, ided st ->
  (exists x, In x (sites s cls) /\ get_site_state st (KInt (s_id x)) = None) ->
  get_sites (Some s) st cls (map on_state crit) = Err TypeError.
Proof. exact C57_missing_lemma. Qed.
Print Assumptions C57_missing_site.
Example C57_missing_example : ided (mkS [(KInt 0, [(KStr "_site_id", VInt 0)])] []) /\
  exists x, In x (sites two (Some "B"%string)) /\ get_site_state (mkS [(KInt 0, [(KStr "_site_id", VInt 0)])] []) (KInt (s_id x)) = None.
Proof.
  split.
  - split; [repeat constructor; simpl; tauto|]. intros [z|z] d G; cbn in G; [|discriminate]. destruct z; try discriminate. now injection G as <-.
  - destruct two_sites as [_ G]. destruct (built_inv RA open_line two two_built) as [h I]. apply (inv_get_site RA open_line h two _ _ I) in G as [G _].
    exists (mkSite "B" [1%R] 1). split; [|reflexivity]. unfold sites in *. apply filter_In. split; [exact G|reflexivity].
Qed.

(** C58, part: the class is honoured when the analyzer was given the structure. Missing: analyzers without a structure (below). *)
Theorem C58_class_partial : forall F A (L : lattice F) s st c crit, built A L s -> ided st ->
  (forall i x, get_site s i = Some x -> In (KInt i) (site_ids st)) ->
  exists l, get_sites (Some s) st (Some c) (map on_state crit) = Ok (map VInt l) /\ forall i, In i l -> exists x, get_site s i = Some x /\ s_class x = c.
Proof. exact C58_lemma. Qed.
Print Assumptions C58_class_partial.
Example C58_class_example : ided (duo "a" "b") /\ s_class (mkSite "B" [1%R] 1) = "B"%string /\ get_site two 1 = Some (mkSite "B" [1%R] 1) /\ get_site two 0 = Some (mkSite "A" [0%R] 0).
Proof. split; [apply duo_discrete|]. split; [reflexivity|]. split; apply two_sites. Qed.

(** C58 is false: without a structure the class is ignored and sites of all other classes are returned. *)
Theorem C58_class_refuted : forall F A (L : lattice F) (s : structure F) st P c i x, built A L s -> configuration s st P -> get_site s i = Some x -> s_class x <> c ->
  exists l, get_sites (F := F) None st (Some c) [] = Ok l /\ In (VInt i) l.
Proof. exact C58_refuted_lemma. Qed.
Print Assumptions C58_class_refuted.
Example C58_example : exists x, get_site two 0 = Some x /\ s_class x <> "B"%string /\ configuration two (duo "a" "b") (fun _ _ => True).
Proof. destruct two_sites as [-> _]. eexists. split; [reflexivity|]. split; [discriminate|apply duo_config]. Qed.

(** C59. Phases, counts and fractions. *)
Theorem C59_counts : forall F (so : option (structure F)) st ord, discrete st -> suits so st -> any_order ord ->
  exists ps, phases_present ord st = Ok ps /\ NoDup ps /\ phase_count ord st = Ok (Z.of_nat (length ps)) /\
    (forall p, In p ps <-> exists k, In k (site_ids st) /\ site_entry st k (KStr "DISCRETE_OCCUPANCY") = Some p) /\
    (forall p, exists n, cell_count so st p = Ok n /\ n = occurrences st p /\ 0 <= n /\ (0 < n <-> In p ps)) /\
    zsum (map (occurrences st) ps) = size st /\
    (0 < size st -> exists fs, mapM (cell_fraction so RA st) ps = Ok fs /\ fold_right Rplus 0%R fs = 1%R /\ Forall (fun x => 0 < x)%R fs) /\
    (size st = 0 -> forall p, cell_fraction so RA st p = Err ZeroDivisionError).
Proof. exact C59_lemma. Qed.
Print Assumptions C59_counts.
Example C59_example : discrete (duo "a" "a") /\ any_order (fun l => l) /\ suits (Some two) (duo "a" "a") /\ phases_present (fun l => l) (duo "a" "a") = Ok [VStr "a"].
Proof.
  split; [apply duo_discrete|]. split; [intros l; reflexivity|]. split; [|reflexivity]. unfold suits. rewrite <- (map_map s_id KInt), two_ids. reflexivity.
Qed.

(** C59. Ratios of counts. *)
Theorem C59_ratio : forall F (so : option (structure F)) st p q, discrete st -> suits so st ->
  cell_ratio so RA st p q = if occurrences st q =? 0 then Err ZeroDivisionError else Ok (IZR (occurrences st p) / IZR (occurrences st q))%R.
Proof. exact C59_ratio_lemma. Qed.
Print Assumptions C59_ratio.
Example C59_ratio_example : discrete odd_phases /\ present odd_phases (VInt 1) /\ present odd_phases (VTuple [VInt 1; VStr "b"]) /\ cell_count (F := R) None odd_phases (VInt 1) = Ok 1.
Proof. split; [exact odd_discrete|]. split; [exists (KInt 0); simpl; auto|]. split; [exists (KInt 1); simpl; auto|reflexivity]. Qed.

(** C59. The fraction at a step is the number of sites of the phase over the number of sites in that step. *)
Theorem C59_fraction_at : forall (r : sresult) step st p, get_step r step = Ok st -> discrete st ->
  phase_fraction_at RA r step p = (if size st =? 0 then Err ZeroDivisionError else Ok (IZR (occurrences st p) / IZR (size st))%R) /\
  forall F (so : option (structure F)), suits so st -> cell_fraction so RA st p = phase_fraction_at RA r step p.
Proof. exact C59_at_lemma. Qed.
Print Assumptions C59_fraction_at.
Example C59_at_example : get_step (mkR (duo "a" "b") [] []) 0 = Ok (duo "a" "b") /\ discrete (duo "a" "b") /\ size (duo "a" "b") = 2.
Proof. split; [reflexivity|split; [apply duo_discrete|reflexivity]]. Qed.

(** C59. At a step that cannot be had the fraction raises the same exception. *)
Theorem C59_fraction_at_error : forall (r : sresult) step p e, get_step r step = Err e -> phase_fraction_at RA r step p = Err e.
Proof. exact C59_at_error_lemma. Qed.
Print Assumptions C59_fraction_at_error.
Example C59_at_error_example : exists e, get_step (mkR (duo "a" "b") [] []) 1 = Err e.
Proof. eexists. reflexivity. Qed.

(** C60, part: all_phases lists the phases of all steps but the last; the final fractions sum to 1 exactly when the last step has no other phase. Missing: the phases that only the last step has (below). *)
Theorem C60_phases_partial : forall init h T ord, course init (added h) T -> any_order ord ->
  let r := fold_left apply_rop h (new_result init) in let n := length (added h) in 0 < size (T n) ->
  exists ps fs, all_phases ord None r = Ok (ps, Some ps) /\ NoDup ps /\
    (forall p, In p ps <-> exists m, (m < n)%nat /\ present (T m) p) /\
    final_phase_fractions ord RA None r = Ok fs /\ dkeys fs = ps /\
    (forall p x, hashable p = true -> dget p fs = Some x -> x = (IZR (occurrences (T n) p) / IZR (size (T n)))%R) /\
    (fold_right Rplus 0%R (dvals fs) = 1%R <-> forall p, present (T n) p -> exists m, (m < n)%nat /\ present (T m) p).
Proof. exact C60_lemma. Qed.
Print Assumptions C60_phases_partial.
Example C60_example : course (duo "a" "b") (added [RAdd (paint 1 "c")]) duo_T.
Proof. exact duo_course. Qed.

(** C60 is false: a phase first present in the last step is missed and the fractions do not sum to 1. *)
Theorem C60_phases_refuted : forall init h T ord p, course init (added h) T -> any_order ord ->
  let r := fold_left apply_rop h (new_result init) in let n := length (added h) in
  present (T n) p -> (forall m, (m < n)%nat -> ~ present (T m) p) ->
  exists ps fs, all_phases ord None r = Ok (ps, Some ps) /\ ~ In p ps /\
    final_phase_fractions ord RA None r = Ok fs /\ dget p fs = None /\ fold_right Rplus 0%R (dvals fs) <> 1%R.
Proof. exact C60_refuted_lemma. Qed.
Print Assumptions C60_phases_refuted.
Example C60_refuted_example : present (duo_T 1) (VStr "c") /\ forall m, (m < 1)%nat -> ~ present (duo_T m) (VStr "c").
Proof.
  split; [exists (KInt 1); simpl; auto|]. intros m Hm (k & Hk & Ek). assert (m = 0%nat) by lia. subst m. destruct Hk as [<-|[<-|[]]]; discriminate.
Qed.

(** C60 is false: a result without recorded updates has no phases at all. *)
Theorem C60_no_steps_refuted : forall init ord, any_order ord -> all_phases ord None (new_result init) = Ok ([], Some []) /\ final_phase_fractions ord RA None (new_result init) = Ok [].
Proof. exact C60_empty_lemma. Qed.
Print Assumptions C60_no_steps_refuted.

(** C60 is false: steps added after the first call of all_phases are never looked at. *)
Theorem C60_cache_refuted : forall ord r l c u, all_phases ord None r = Ok (l, c) -> all_phases ord c (add_step r u) = Ok (l, c).
Proof. exact C60_cache_lemma. Qed.
Print Assumptions C60_cache_refuted.
Example C60_cache_example : exists l c, all_phases (fun l => l) None (add_step (add_step (new_result (duo "a" "b")) (paint 1 "c")) (paint 1 "c")) = Ok (l, c) /\ l = [VStr "a"; VStr "b"; VStr "c"] /\
  all_phases (fun l => l) (Some [VStr "a"; VStr "b"]) (add_step (add_step (new_result (duo "a" "b")) (paint 1 "c")) (paint 1 "c")) = Ok ([VStr "a"; VStr "b"], Some [VStr "a"; VStr "b"]).
Proof. do 2 eexists. split; [reflexivity|]. split; reflexivity. Qed.

(** C61. The steps chosen for plotting. *)
Theorem C61_plotted_steps : forall init h T, (forall n, (n <= length (added h))%nat -> replay init (added h) n = Ok (T n)) ->
  let r := fold_left apply_rop h (new_result init) in
  exists r' k idxs, get_steps_to_plot r = (r', Ok (idxs, map (fun i => T (Z.to_nat i)) idxs)) /\ 1 <= k /\
    (forall j, 0 <= j -> nth_error idxs (Z.to_nat j) = if j * k <? rlen r then Some (j * k) else None) /\
    Z.min (rlen r) 75 <= Z.of_nat (length idxs) <= 149 /\
    rlen r' = rlen r /\ (forall i, 0 <= i < rlen r -> get_step r' i = get_step r i).
Proof. exact C61_lemma. Qed.
Print Assumptions C61_plotted_steps.
Example C61_example : plot_interval 149 = 1 /\ plot_interval 150 = 2 /\ plot_interval 1001 = 10 /\ range_step 5 2 = [0; 2; 4].
Proof. repeat split. Qed.

(** C70. The lines of the plot of phase fractions. *)
Theorem C70_plot : forall init h T ord min_prevalence, course init (added h) T -> any_order ord -> (forall n, 0 < size (T n)) ->
  let r := fold_left apply_rop h (new_result init) in
  exists r' idxs kept, get_steps_to_plot r = (r', Ok (idxs, map (fun i => T (Z.to_nat i)) idxs)) /\
    plot_phase_fractions RA ord None r min_prevalence =
      (r', Ok ((0, last idxs 0), map (fun p => (p, idxs, map (fun i => IZR (occurrences (T (Z.to_nat i)) p) / IZR (size (T (Z.to_nat i))))%R idxs)) kept)) /\
    NoDup kept /\
    (forall p, In p kept <-> (exists n, (n < length (added h))%nat /\ present (T n) p) /\
                            exists i, In i idxs /\ (min_prevalence < IZR (occurrences (T (Z.to_nat i)) p) / IZR (size (T (Z.to_nat i))))%R).
Proof. exact C70_lemma. Qed.
Print Assumptions C70_plot.
Example C70_example : forall n, 0 < size (duo_T n).
Proof. intros [|n]; reflexivity. Qed.

(** C65. The state at a location. *)
Theorem C65_state_at : forall n vs per L calls s outs st, lattice_on n vs per L -> adds RA (struct_init L) calls = (s, outs) ->
  let acc := accepted calls outs in let sim := mkSim st s in
  (forall i c p q, nth_error acc i = Some (c, p) -> image n vs per p q -> state_at RA sim q = Ok (get_site_state st (KInt (Z.of_nat i)))) /\
  (forall q, length q = n ->
     (exists i c p, nth_error acc i = Some (c, p) /\ same_place n vs per p q /\ state_at RA sim q = Ok (get_site_state st (KInt (Z.of_nat i)))) \/
     ((forall c p, In (c, p) acc -> ~ same_place n vs per p q) /\ state_at RA sim q = Ok None)) /\
  (forall q, state_at RA sim q = match id_at RA s q with Ok (Some i) => Ok (get_site_state st (KInt i)) | Ok None => Ok None | Err e => Err e end).
Proof. exact C65_lemma. Qed.
Print Assumptions C65_state_at.
Example C65_state_at_example : lattice_on 1 line [false] open_line /\ (exists s, adds RA (struct_init open_line) [("A"%string, [0%R]); ("B"%string, [1%R])] = (s, [Ok 0; Ok 1])) /\
  state_at RA (mkSim (duo "a" "b") two) [1%R] = Ok (get_site_state (duo "a" "b") (KInt 1)) /\ get_site_state (duo "a" "b") (KInt 1) <> None.
Proof.
  split; [exact open_on|]. split; [destruct two_adds as (s & E & _); eauto|]. split; [|discriminate]. unfold state_at. cbn [sim_struct sim_state]. pose proof (two_at 1) as E. unfold id_at in E.
  destruct (site_at RA two [1%R]) as [[x|]|]; cbn in E; try discriminate. injection E as Ex. cbn. rewrite Ex. reflexivity.
Qed.

(** C65, part: simulations of settled sites (see C35) come back equal. Missing: sites whose rounded location leaves the cell (below). *)
Theorem C65_roundtrip_partial : forall n vs per L calls s outs st, lattice_on n vs per L ->
  adds RA (struct_init L) calls = (s, outs) -> Forall (fun x => settled n vs per (snd x)) (accepted calls outs) -> json_state st ->
  sim_from_dict RA (sim_json (mkSim st s)) = Ok (mkSim st s).
Proof. exact C65_roundtrip_lemma. Qed.
Print Assumptions C65_roundtrip_partial.
Example C65_roundtrip_example : adds RA (struct_init line_lattice) trio = (trio_built, [Ok 0; Ok 1; Err AssertionError]) /\
  Forall (fun x => settled 1 line [true] (snd x)) (accepted trio [Ok 0; Ok 1; Err AssertionError]) /\ json_state (duo "a" "b").
Proof.
  split; [exact trio_adds|]. split; [exact trio_settled|]. split; [|split; [|split; constructor]].
  - repeat constructor; simpl; intuition discriminate.
  - repeat constructor; cbn; try (now eexists); intuition (try discriminate; eauto).
Qed.

(** C65, part: if no period is shorter than 0.002, a simulation comes back equal exactly when all its sites are settled. *)
Theorem C65_exactly_when_partial : forall n vs per L calls s outs st, lattice_on n vs per L -> coarse n vs per ->
  adds RA (struct_init L) calls = (s, outs) -> json_state st ->
  (sim_from_dict RA (sim_json (mkSim st s)) = Ok (mkSim st s) <-> Forall (fun x => settled n vs per (snd x)) (accepted calls outs)).
Proof. exact C65_exact_lemma. Qed.
Print Assumptions C65_exactly_when_partial.
Example C65_exact_example : lattice_on 1 line [true] line_lattice /\ coarse 1 line [true].
Proof. split; [exact line_on|exact line_coarse]. Qed.

(** C65 is false: with a site at 0.9996 of a unit cell, state_at loses a site by a round trip. *)
Theorem C65_roundtrip_refuted : exists n vs per L calls s outs, lattice_on n vs per L /\ adds RA (struct_init L) calls = (s, outs) /\
  forall st, json_state st -> (forall x, In x (sites s None) -> get_site_state st (KInt (s_id x)) <> None) -> exists sim' p d, sim_from_dict RA (sim_json (mkSim st s)) = Ok sim' /\
    state_at RA (mkSim st s) p = Ok (Some d) /\ state_at RA sim' p = Ok None.
Proof. exact C65_refuted_lemma. Qed.
Print Assumptions C65_roundtrip_refuted.
