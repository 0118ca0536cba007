# pylattica: formal model and proofs (Rocq / Coq 8.16.1)

The model lives in `rocq/theories`.  Everything is a shallow embedding: each Python
function becomes a Gallina function that mirrors it branch by branch, exceptions are
values of a result type (`Ok v | Err exn`), mutation returns the new value (except in
`HeapModel`, where objects have identities).  Every definition of a model file carries a
comment with the file and lines in `/repo` it models (paths relative to the repository or
to `src/pylattica`); simplifications are stated in those comments and summarised below.

## Layers

| layer | model files | what |
|---|---|---|
| Python kernel | `Prelude`, `Dict`, `Val` | result monad, insertion-ordered dicts, dynamic values, `==` |
| core | `StateModel`, `ResultModel`, `RunnerModel`, `SimModel`, `JsonModel`, `HeapModel`, `ExnModel` | SimulationState, SimulationResult, merge_updates and the three runners, Simulation, JSON trees, aliasing |
| arithmetic | `Arith`, `RVec`, `RealArith`, `FloatArith` | record of number operations; exact reals; IEEE binary64 (Flocq) |
| geometry | `LatticeModel`, `StructModel`, `NbModel` | Lattice, PeriodicStructure, StructureBuilder, distance maps, neighbourhoods and their builders |
| grids | `GridModel`, `SetupModel` | square grid and honeycomb lattices, builders and neighbourhoods, DiscreteGridSetup |
| rules | `RulesModel` | Game of Life, growth and its setup, BasicController |
| analysis, drawing | `AnalyzerModel`, `VizModel` | StateAnalyzer, DiscreteStepAnalyzer, DiscreteResultAnalyzer, PhaseSet, cell artists, 2D/3D artists, GIFs |
| conversion | `PmgModel` | PymatgenStructureConverter |
| specifications | `Spec*` | small definitions the theorems are stated with, independent of the model |
| proofs | `*Facts`, `*More`, `GenRun`, `SyncFacts`, `Par*`, `Float*`, … | lemmas |
| examples | `*Demo` | concrete objects used by the `Example`s |
| theorems | `Prop*` | one theorem per claim, closed by `exact`, with `Print Assumptions` and an `Example` |

## Numbers

`LatticeModel`/`StructModel`/`NbModel`/`GridModel` are parameterised by a *record* of
arithmetic operations (not a module functor).  The geometric theorems use the instance `RA`
of exact real arithmetic; C30, C75, C79, C84, C86, C89 to C91, C95 to C97, C99, C100, C102, C103 and parts of C94, C106, C107 and C113, which are about what numpy really computes, use the
instance `FA` of IEEE-754 binary64, built on Flocq's `BinarySingleNaN` (pure Gallina, no
axioms of its own).  A theorem over `RA` says nothing about rounding; where rounding is
part of the code (`np.round(x, 3)`, modelled as `rint(1000*x)/1000`, ties to even) it is in
the model for both instances.

`np.linalg.inv` is, for the reals, *the* inverse matrix if there is one (LinAlgError
otherwise); in binary64 it is Gauss-Jordan elimination with partial pivoting.  LAPACK's
blocked LU may round differently in general; for the diagonal and
anti-diagonal matrices of square lattices (the only ones these properties speak about) both give the
correctly rounded reciprocals.  Sums of products (`np.dot`, `np.linalg.norm`) are rounded after every
operation, from the last term to the first; C89 and C90 need this order only for norms of up to three terms, and
their margins of 0.0006 cover every other order.
Numpy's dot products are evaluated from the right; for these matrices all but one summand
is zero, so neither order nor fused multiply-add matters.

## Simplifications, by file

* Values: `None`, booleans, integers, reals (as exact), strings, lists and dicts.  Other Python
  objects as site data are not modelled.  Keys of states and updates are integers or strings.
* Dict iteration order = insertion order; `list(set(...))` has an unspecified order, supplied
  by an oracle that the theorems quantify over.
* Randomness: every `random`/`numpy.random` draw is a universally quantified oracle or stream.
* rustworkx `PyDiGraph`: nodes, newest-first edge list; `neighbors` returns the distinct
  successors in an arbitrary order (oracle permutation).  Parallel edges are kept.
* Runners: controllers are arbitrary functions with a threaded hidden state, so a controller
  may use randomness or memory.  The asynchronous queue is a list.  The parallel runner has
  per-worker forked states and an arbitrary assignment of chunks to workers per step.
  A controller that mutates the state it is handed is outside the plain-value model;
  `HeapModel` covers what the library itself shares, and C105 proves that for controllers
  which do not mutate it the two models agree on every run.  `ExnModel` is the same code
  with the heap followed through exceptions (C108); a controller's own attributes are not
  followed through an exception.
* JSON: a tree; bytes and files are not modelled.  monty's `@module/@class` decoding is the
  identity on these trees apart from turning integer keys into strings and tuples into lists.
* Files in `to_gif`: a map from names to contents; encoding and PIL's rasterisation of text
  are opaque (labels paint an unspecified set of pixels inside the picture).
* matplotlib / plotly: the calls made are recorded (`plot`, `xlim`, voxel arrays); rendering
  is not modelled.
* pymatgen is outside the repository; its Lattice/Structure are records holding a matrix,
  species strings and fractional coordinates (`PmgModel` states what is assumed).
* `tqdm`, printing and timing are dropped; IPython's display functions are recorded calls.
* Not modelled: `core/utils.py:printif`, `plot_phase_counts` (reads `self.steps`, an attribute that does not exist).

## Trusted base

* Coq's kernel (8.16.1) and the axioms listed below.  Nothing of our own is assumed: no
  axioms, no section-less variables, no unfinished proofs.
* The reading of the Python code, and the assumed behaviour of CPython dictionaries, numpy,
  rustworkx, json/monty, PIL, pymatgen and multiprocessing as written in the model comments.
* The English of `properties.jsonl` against the `Spec*` vocabulary.

### What Print Assumptions lists

All axioms are the standard library's.

* no axioms ("Closed under the global context"):
  C01_set_site_state, C02_bookkeeping, C03_batch_full, C03_batch_sites, C04_sites_only_refuted, C05_api_edits, C05_copy_equal, C05_copy_isolated, C05_new_state, C05_original_isolated, C06_state_json, C07_get_step_replay, C08_exception_partial, C08_missing_step_partial, C08_negative_step_refuted, C09_kept_list, C09_kept_refuted, C09_steps_partial, C09_steps_refuted, C101_beyond, C101_other_steps, C101_play, C101_save, C104_discrete, C104_inherited_legend, C105_async, C105_sync, C106_lengths, C106_repeated, C108_agrees, C108_batch, C108_cache, C108_get_step, C108_interval, C108_load_steps, C108_run, C109_async_calls, C109_parallel_calls, C109_sync_calls, C10_async_reload_refuted, C10_exactly_when_partial, C10_general_reload_refuted, C10_parallel_reload_refuted, C10_result_json_partial, C10_sync_reload_refuted, C111_growth_missing, C111_life_missing, C112_equal, C112_equivalence, C112_updates, C11_cached_refuted, C11_edit_partial, C11_nested_refuted, C122_between, C124_between, C124_reached, C127_equal, C127_named, C127_phases, C128_batch, C128_merge, C128_merge_into, C129_load, C129_state, C12_async_steps, C130_constant, C130_same, C132_cell, C132_maps, C133_async, C133_nbhood, C133_parallel, C133_sync, C134_dimension, C134_empty, C135_memoryless, C136_async, C136_async_waiting, C136_parallel, C136_prefix, C136_split, C137_parallel_falls, C13_async_order, C13_exact_steps, C13_no_site, C14_conservation, C15_order_independent, C15_sync_simultaneous, C16_output_async_partial, C16_output_parallel_is_initial, C16_output_parallel_refuted, C16_output_sync_partial, C17_one_worker_partial, C17_parallel_fair_partial, C17_parallel_refuted, C17_parallel_stable_partial, C18_chunking, C19_int_keys, C19_none, C19_shapes_agree, C19_update_shapes, C20_merge_partial, C20_merge_refuted, C20_parallel_partial, C20_parallel_refuted, C20_serial_partial, C21_initial_state, C22_none_async_refuted, C22_none_parallel_refuted, C22_none_partial, C22_none_sync_refuted, C23_accepted, C28_ids_any_arithmetic, C28_unknown_ids, C31_refused_any_arithmetic, C34_size, C36_classes, C39_motif, C42_every, C42_stochastic, C43_dispatch, C46_points, C47_solid, C53_errors, C53_malformed, C53_variant, C54_constructed, C54_growth_rule, C54_ties, C56_growth_parallel_refuted, C57_get_sites, C57_get_sites_no_structure, C57_missing_site, C57_where_equal, C58_class_partial, C58_class_refuted, C60_cache_refuted, C61_plotted_steps, C62_colours_refuted, C62_helper, C62_legend, C64_bad_frequency, C64_failure, C64_gif_partial, C64_gif_refuted, C69_random_site_partial, C69_random_site_refuted, C72_batch, C72_get_step, C72_load_steps, C78_phase_set, C80_async_growth, C81_async_fills, C88_local_rules, C92_last, C92_minutes_partial, C92_same_minute_partial, C92_saved_partial, C92_saved_refuted, C93_async_paths.
* `Classical_Prop.classic`:
  C126_draws, C138_changes, C138_parallel, C138_serial, C55_growth_serial, C56_growth_fair_partial, C56_growth_parallel_partial, C62_colours_partial, C76_result_partial, C76_result_refuted, C76_state.
* `ClassicalDedekindReals.sig_forall_dec`:
  C23_constructor, C73_lattice_partial.
* `ClassicalDedekindReals.sig_forall_dec`, `FunctionalExtensionality.functional_extensionality_dep`:
  C73_lattice_refuted.
* `ClassicalDedekindReals.sig_forall_dec`, `ClassicalDedekindReals.sig_not_dec`, `FunctionalExtensionality.functional_extensionality_dep`:
  C26_width.
* `ClassicalDedekindReals.sig_forall_dec`, `ClassicalDedekindReals.sig_not_dec`, `Classical_Prop.classic`, `FunctionalExtensionality.functional_extensionality_dep`:
  C100_reload_axes, C100_reload_grids, C102_any_artist, C102_box, C102_calls, C102_drawing, C102_fitting, C102_label, C102_movie, C102_shell, C102_voxels, C102_wide, C103_final, C103_fraction, C103_order, C103_plot, C103_ratio, C103_sum, C106_float_difference, C106_float_partial, C106_float_refuted, C107_named_float, C110_async_float, C110_async_still_float, C113_grow_float, C113_nucleation_float, C115_chunk_float, C115_cube_root, C115_interval_float, C116_hexagons_float, C119_reload, C120_async_float, C121_builders_float, C123_draws, C123_grow, C123_hexagonal, C123_pentagonal, C124_float, C125_float, C126_stalls_float, C131_float, C134_float, C135_float, C30_adjacent_partial, C30_grids_partial, C30_lookup_partial, C30_lookup_refuted, C30_powers_of_two_partial, C75_grids_partial, C75_moore_partial, C75_moore_refuted, C75_motif_partial, C75_small_partial, C79_periodise_partial, C79_periodise_refuted, C84_life_float_every_size_partial, C84_life_float_partial, C84_life_float_refuted, C84_life_float_small_partial, C86_growth_float_partial, C86_growth_float_refuted, C86_growth_float_small_partial, C86_growth_grids_partial, C89_cutoffs_float, C89_guides_float, C90_circular_float, C91_lookup_float, C91_moore_float, C91_motif_float, C91_open_float, C91_state_float, C94_plane_float, C95_counts, C95_fair_partial, C95_nucleation_float_partial, C95_overflow, C95_ratio_refuted, C95_termination_refuted, C96_honeycomb_float, C96_inverse, C97_fills_partial, C97_grow_float_partial, C97_grow_refuted, C99_add_particle, C99_ball_partial, C99_ball_refuted, C99_coords, C99_coords_outside_partial, C99_interface, C99_noise, C99_particle, C99_random_balls_partial, C99_random_particles.
* `ClassicalDedekindReals.sig_forall_dec`, `ClassicalDedekindReals.sig_not_dec`, `ClassicalEpsilon.constructive_indefinite_description`, `Classical_Prop.classic`, `FunctionalExtensionality.functional_extensionality_dep`:
  C104_drawing, C106_difference, C106_periodize, C107_anneal, C107_named, C107_seeds, C107_uniform, C110_async_life, C110_async_plane, C110_async_still, C111_life_run, C113_grow, C113_nucleation, C114_no_room_partial, C114_room_refuted, C116_fills, C116_hexagons, C116_small, C117_honeycombs, C118_columns_refuted, C118_neighbours_partial, C118_rows_refuted, C120_async, C120_fills, C121_builders, C121_motif, C122_grow, C122_hexagonal, C122_pentagonal, C124_hexagonal, C125_pentagonal, C126_stalls, C131_hexagon, C131_plane, C132_drawing, C132_flat, C132_shell, C134_nuclei, C134_particles, C135_life, C137_async, C137_parallel, C137_serial, C139_exchange, C139_lasting, C139_order, C139_same, C23_coordinates, C23_dependent_vectors, C24_periodise, C25_distance, C26_attained_partial, C26_minimum_orthogonal_partial, C26_minimum_refuted, C26_mixed_refuted, C26_near_partial, C26_oblique_refuted, C27_scaled, C28_ids, C29_lookup, C31_no_duplicates, C32_exactly_when_partial, C32_reported_location_partial, C32_reported_location_refuted, C33_build_cartesian_partial, C33_build_cartesian_refuted, C33_build_fractional, C35_exactly_when_partial, C35_roundtrip_partial, C35_roundtrip_refuted, C37_distance, C37_images, C37_symmetric, C38_annular, C38_difference, C38_images, C39_motif_distances, C40_missing_offset, C40_open_boundaries_refuted, C41_moore, C41_symmetric, C41_von_neumann, C42_counts, C42_shapes, C44_honeycomb, C45_distance_map, C47_coords, C47_coords_missing, C47_interface, C47_noise, C47_noise_empty, C48_add_particle, C48_particle, C48_random, C49_random_sites, C50_fair_partial, C50_ratios_refuted, C50_upper_partial, C51_grow_fills, C52_life, C59_counts, C59_fraction_at, C59_fraction_at_error, C59_ratio, C60_no_steps_refuted, C60_phases_partial, C60_phases_refuted, C63_drawing, C63_label, C63_wide, C64_movie, C65_exactly_when_partial, C65_roundtrip_partial, C65_roundtrip_refuted, C65_state_at, C66_round_trip, C66_supercell, C66_to_pylattica, C66_to_pymatgen, C67_build, C67_grid, C67_points, C68_empty, C68_signed, C68_terminates_partial, C68_termination_refuted, C70_plot, C71_box, C71_calls, C71_fitting, C71_shell_refuted, C71_voxels_partial, C73_dimension, C74_from_struct, C77_images_partial, C77_images_refuted, C82_life_symmetry, C83_life_every_size_partial, C83_life_every_size_refuted, C85_growth_ball, C85_growth_diamond, C87_cutoffs, C87_guide, C88_life_light_cone, C94_known_patterns, C94_plane, C98_fills_partial, C98_fills_refuted, C98_grow_ball_partial.

Flocq contributes definitions and lemmas but no axioms.  ClassicalEpsilon's
`constructive_indefinite_description` is used to pick the inverse matrix and to compute
`floor` of reals; the others come with Coq's real numbers or classical case distinctions.

## Claims that are false of the code

`MANIFEST.json` marks these `partial`: the theorem named `…_refuted` shows a counterexample in
the faithful model, the theorems named `…_partial` say exactly how much does hold.  In short:

* C04 a batch with only the key "SITES" is stored as a site called "SITES".
* C08/C09 negative step numbers return the initial state; `steps()` never yields the last step,
  and `list(steps())` holds one object many times.
* C10 no result of an asynchronous or serial run with at least one step can be reloaded (the keys
  "SITES"/"GENERAL" are passed to `int`); recorded general updates are dropped on reloading.
* C11 a cached `get_step` returns the stored object itself, so editing it corrupts the result;
  returned states share nested mutable values with the recorded updates.
* C16 the parallel runner's output is the initial state.
* C17/C56 parallel runs can differ from serial ones: a worker that was idle in a step misses that
  step's updates; such a stale worker repaints occupied cells.
* C20 merging loses assignments: a second update of a site replaces the first one, even of another
  key; on conflicts the later site wins serially and the earlier one in parallel.
* C22 rules returning None make the runs raise or leave steps that cannot be read.
* C26 the periodic distance is not the smallest one in oblique cells (it is below half the smallest width of the cell, `SpecWide`).
* C30/C75 in binary64, n*(1/n) can round below 1 (first at n = 49): on such grids the point one
  step past the border finds no site, and building a Moore neighbourhood raises TypeError.  So the Game of Life (C84)
  and growth (C86) do not run there.
* C83 on grids with a side of 1 or 2 the Game of Life counts distinct neighbours.
* C79 in binary64, periodising a negative number closer to 0 than 2^-54 gives 1.0, not a number below 1.
* C32/C35/C65 a site near a cell edge (0.9996 of a unit cell) reports a rounded location where it is
  not found, and moves when the structure is reloaded.
* C33 Cartesian motifs on lattices with a non-symmetric matrix are tiled with the transpose.
* C40 motif neighbourhoods raise TypeError at open boundaries.
* C50/C68 a phase can be short of its share by any amount; with all ratios zero the selection
  loop of `setup_random_sites` never ends.
* C95 in binary64, amounts 7 and 18 with 25 nuclei give 8 and 17 (7/25*25 rounds to more than 7); if the sum of the
  amounts overflows the loop never ends.
* C114 `setup_random_sites` makes at most 1000 n + 1 attempts, so it can raise RuntimeError on a grid with room.
* C118 on honeycombs with 2 by m or n by 2 cells (the other side at least 3) some cells across an edge are not
  neighbours: their difference is half a box side up to the rounding of locations, so `periodic_distance` takes an
  image that is farther away.
* C58 without a structure the class filter is ignored.
* C60 `all_phases` misses phases first seen in the last step and caches its first answer.
* C62 colours repeat after 22 phases.
* C64 `to_gif` overwrites and deletes files of the user named like its temporary ones.
* C69 the default random site assumes ids 0..n-1.
* C92 `to_file()` names files by the minute and overwrites: a second save in the same minute loses the first.
* C71 with shell_only only the face y = 0 is drawn.
* C73 periodicity flags are lost in the conversion.

Further observations made while reading (not stated as properties): `grow` with a tuple
size raises TypeError; `DiscreteGridSetup` with a dimension other than 2 and 3 leaves
attributes unset; motifs given as lists are unhashable in the distance map; a class-based
builder over a stochastic builder raises TypeError; the 2D artist assumes square grids; `plot_phase_counts` reads `self.steps`,
which does not exist, so it always raises AttributeError; a label is painted over the first cells; `all_site_classes` has no defined order.

## Replaying the repository's tests

`ReplayCore`, `ReplayLattice`, `ReplayStruct` and `ReplayGrid` run the repository's own tests
on the model (geometry in binary64), one `Example` per test with the test's name.  The
code cannot be run here, so this is the check that the model behaves as the code does where
the authors wrote down what they expect.  All of them hold.  They are
tests of the model and support no claim in MANIFEST.json.  Grids are smaller than in the tests
and random draws are fixed; comments give the sizes used by the tests.  Left out: two tests of
neighbour counts (too slow for `coqchk`; C42, C87 and C89 prove their counts).
`ReplayDocs` does the same for the outputs recorded in the notebooks under `docs/guides`, which
were produced by running the code: printed coordinates, sites, states, neighbours with their
distances, and the size of a picture.  All of them agree with the model.

## Testing the theorems against wrong programs

`seeded/LOG.jsonl` records each attempt.  In a scratch copy one definition of the model is
edited the way a realistic bug would.  Everything is rebuilt; each lemma whose proof script
breaks is replaced by `Admitted` in the scratch copy so that the build can continue; then
`Print Assumptions` of every theorem tells which ones depend on a broken lemma
(`theorems_failed`).  A theorem that still proves although its claim became false is
tightened, or a property is added.
