{
 "claims": [
  {
   "property": "C01",
   "status": "proved",
   "theorems": [
    "C01_set_site_state"
   ],
   "note": ""
  },
  {
   "property": "C02",
   "status": "proved",
   "theorems": [
    "C02_bookkeeping"
   ],
   "note": ""
  },
  {
   "property": "C03",
   "status": "proved",
   "theorems": [
    "C03_batch_full",
    "C03_batch_sites"
   ],
   "note": ""
  },
  {
   "property": "C04",
   "status": "partial",
   "theorems": [
    "C04_sites_only_refuted"
   ],
   "note": "False of the code: a SITES-only batch creates a site named SITES and updates no listed site (refuted for every state and batch)."
  },
  {
   "property": "C05",
   "status": "proved",
   "theorems": [
    "C05_copy_equal",
    "C05_copy_isolated",
    "C05_original_isolated",
    "C05_api_edits",
    "C05_new_state"
   ],
   "note": "Proved on a heap model with object identity (HeapModel.v); 'edits' covers every in-place change and every API call by a client holding the copy (resp. the original). copy.deepcopy is modelled as a full copy."
  },
  {
   "property": "C06",
   "status": "proved",
   "theorems": [
    "C06_state_json"
   ],
   "note": ""
  },
  {
   "property": "C07",
   "status": "proved",
   "theorems": [
    "C07_get_step_replay"
   ],
   "note": ""
  },
  {
   "property": "C08",
   "status": "partial",
   "theorems": [
    "C08_missing_step_partial",
    "C08_exception_partial",
    "C08_negative_step_refuted"
   ],
   "note": "Steps at or above len(result) raise; negative step numbers return the initial state (refuted)."
  },
  {
   "property": "C09",
   "status": "partial",
   "theorems": [
    "C09_kept_list",
    "C09_kept_refuted",
    "C09_steps_partial",
    "C09_steps_refuted"
   ],
   "note": "steps() yields get_step(0..len-2) when each state is looked at before the next is requested; the last step is never yielded (refuted). A kept list holds one object showing the last state yielded (proved; refutes 'can be kept')."
  },
  {
   "property": "C10",
   "status": "partial",
   "theorems": [
    "C10_result_json_partial",
    "C10_exactly_when_partial",
    "C10_async_reload_refuted",
    "C10_sync_reload_refuted",
    "C10_parallel_reload_refuted",
    "C10_general_reload_refuted"
   ],
   "note": "Exactly the results whose recorded updates have neither a SITES nor a GENERAL part reload unchanged (C10_exactly_when_partial): a SITES part raises ValueError, a GENERAL part is dropped. The runners record such parts, so the full claim is refuted."
  },
  {
   "property": "C11",
   "status": "partial",
   "theorems": [
    "C11_edit_partial",
    "C11_cached_refuted",
    "C11_nested_refuted"
   ],
   "note": "Proved for steps that are not cached and updates without nested mutable values; refuted for cached steps (get_step returns the cached object) and for updates holding a list (the step shares it)."
  },
  {
   "property": "C12",
   "status": "proved",
   "theorems": [
    "C12_async_steps"
   ],
   "note": ""
  },
  {
   "property": "C13",
   "status": "proved",
   "theorems": [
    "C13_async_order",
    "C13_no_site",
    "C13_exact_steps"
   ],
   "note": ""
  },
  {
   "property": "C14",
   "status": "proved",
   "theorems": [
    "C14_conservation"
   ],
   "note": ""
  },
  {
   "property": "C15",
   "status": "proved",
   "theorems": [
    "C15_sync_simultaneous",
    "C15_order_independent"
   ],
   "note": ""
  },
  {
   "property": "C16",
   "status": "partial",
   "theorems": [
    "C16_output_sync_partial",
    "C16_output_async_partial",
    "C16_output_parallel_is_initial",
    "C16_output_parallel_refuted"
   ],
   "note": "Holds for serial and asynchronous runs; a parallel run's output is always the initial state (refuted)."
  },
  {
   "property": "C17",
   "status": "partial",
   "theorems": [
    "C17_parallel_fair_partial",
    "C17_parallel_stable_partial",
    "C17_one_worker_partial",
    "C17_parallel_refuted"
   ],
   "note": "Holds for schedules in which every worker used was used in all earlier steps, for one worker, and under every schedule for rules that always assign the same keys; false in general (refuted)."
  },
  {
   "property": "C18",
   "status": "proved",
   "theorems": [
    "C18_chunking"
   ],
   "note": ""
  },
  {
   "property": "C19",
   "status": "proved",
   "theorems": [
    "C19_update_shapes",
    "C19_none",
    "C19_shapes_agree",
    "C19_int_keys"
   ],
   "note": ""
  },
  {
   "property": "C20",
   "status": "partial",
   "theorems": [
    "C20_serial_partial",
    "C20_parallel_partial",
    "C20_merge_partial",
    "C20_merge_refuted",
    "C20_parallel_refuted"
   ],
   "note": "Serial runs: per site the last update wins as a whole, assignments to other keys of the same site are lost (refuted). Parallel runs: the first batch naming a site wins, within it the last answer, so conflicts are resolved the other way round (refuted). Both orders are characterised exactly."
  },
  {
   "property": "C21",
   "status": "proved",
   "theorems": [
    "C21_initial_state"
   ],
   "note": "For controllers whose own methods do not write to the objects they are handed; serial synchronous and asynchronous runs, on the heap model."
  },
  {
   "property": "C22",
   "status": "partial",
   "theorems": [
    "C22_none_partial",
    "C22_none_sync_refuted",
    "C22_none_async_refuted",
    "C22_none_parallel_refuted"
   ],
   "note": "Holds for serial runs where some site answers; all-None steps and asynchronous None answers raise TypeError (refuted)."
  },
  {
   "property": "C23",
   "status": "proved",
   "theorems": [
    "C23_coordinates",
    "C23_constructor",
    "C23_accepted",
    "C23_dependent_vectors"
   ],
   "note": ""
  },
  {
   "property": "C24",
   "status": "proved",
   "theorems": [
    "C24_periodise"
   ],
   "note": ""
  },
  {
   "property": "C25",
   "status": "proved",
   "theorems": [
    "C25_distance"
   ],
   "note": ""
  },
  {
   "property": "C26",
   "status": "partial",
   "theorems": [
    "C26_minimum_orthogonal_partial",
    "C26_attained_partial",
    "C26_near_partial",
    "C26_width",
    "C26_minimum_refuted",
    "C26_oblique_refuted",
    "C26_mixed_refuted"
   ],
   "note": "Minimum proved for all lattices whose periodic vectors are perpendicular to all others; on every lattice the value is the distance to some image; on every lattice an image nearer than half the width of the cell is found; false on every lattice with two oblique periodic vectors (e.g. all honeycombs) and on every lattice with a periodic vector oblique to an open one. Open between the two: two oblique periodic vectors so short that the rounding to 3 decimals hides the difference."
  },
  {
   "property": "C27",
   "status": "proved",
   "theorems": [
    "C27_scaled"
   ],
   "note": ""
  },
  {
   "property": "C28",
   "status": "proved",
   "theorems": [
    "C28_ids",
    "C28_ids_any_arithmetic",
    "C28_unknown_ids"
   ],
   "note": ""
  },
  {
   "property": "C29",
   "status": "proved",
   "theorems": [
    "C29_lookup"
   ],
   "note": ""
  },
  {
   "property": "C30",
   "status": "partial",
   "theorems": [
    "C30_lookup_partial",
    "C30_lookup_refuted",
    "C30_powers_of_two_partial",
    "C30_adjacent_partial",
    "C30_grids_partial"
   ],
   "note": "IEEE binary64 (Flocq), 2D square grids with sides up to 2^20 and integer points up to 2^30 (2D and 3D: 2^27). The full claim is false of the faithful model (refuted: a 49x49 grid does not find (49, y)); proved: exactly the points whose coordinate is a multiple of the side with a rounded-down product are lost, everything else resolves to the periodic image; sides that are powers of two lose nothing and sides up to 48 lose nothing one step past the border. np.linalg.inv is modelled by Gauss-Jordan with partial pivoting rather than LAPACK's blocked LU; for the anti-diagonal matrices here both compute 1/n. Missing: sides and points beyond the bounds."
  },
  {
   "property": "C31",
   "status": "proved",
   "theorems": [
    "C31_no_duplicates",
    "C31_refused_any_arithmetic"
   ],
   "note": ""
  },
  {
   "property": "C32",
   "status": "partial",
   "theorems": [
    "C32_reported_location_partial",
    "C32_exactly_when_partial",
    "C32_reported_location_refuted"
   ],
   "note": "Holds for sites whose rounded location stays inside the cell and is not a rounding tie; a site at 0.9996 of a unit cell is lost (refuted). With periods of at least 0.002 the condition is exact (C32_exactly_when_partial)."
  },
  {
   "property": "C33",
   "status": "partial",
   "theorems": [
    "C33_build_fractional",
    "C33_build_cartesian_partial",
    "C33_build_cartesian_refuted"
   ],
   "note": "Proved for fractional motifs on every lattice; Cartesian motifs only on lattices with symmetric matrix, because the code multiplies matrix @ coefficients (refuted otherwise)."
  },
  {
   "property": "C34",
   "status": "proved",
   "theorems": [
    "C34_size"
   ],
   "note": ""
  },
  {
   "property": "C35",
   "status": "partial",
   "theorems": [
    "C35_roundtrip_partial",
    "C35_exactly_when_partial",
    "C35_roundtrip_refuted"
   ],
   "note": "Holds for settled sites; sites that round onto the upper cell boundary move (refuted). With periods of at least 0.002 the condition is exact."
  },
  {
   "property": "C36",
   "status": "proved",
   "theorems": [
    "C36_classes"
   ],
   "note": ""
  },
  {
   "property": "C37",
   "status": "proved",
   "theorems": [
    "C37_distance",
    "C37_images",
    "C37_symmetric"
   ],
   "note": ""
  },
  {
   "property": "C38",
   "status": "proved",
   "theorems": [
    "C38_annular",
    "C38_images",
    "C38_difference"
   ],
   "note": ""
  },
  {
   "property": "C39",
   "status": "proved",
   "theorems": [
    "C39_motif_distances",
    "C39_motif"
   ],
   "note": "Whatever a motif builder returns is exact, in every arithmetic; it returns only when every offset of every site leads to a site (otherwise it raises, see C40)."
  },
  {
   "property": "C40",
   "status": "partial",
   "theorems": [
    "C40_missing_offset",
    "C40_open_boundaries_refuted"
   ],
   "note": "False: one offset without a site makes get() raise TypeError, for every lattice, structure and motif (C40_missing_offset)."
  },
  {
   "property": "C41",
   "status": "proved",
   "theorems": [
    "C41_moore",
    "C41_von_neumann",
    "C41_symmetric"
   ],
   "note": ""
  },
  {
   "property": "C42",
   "status": "proved",
   "theorems": [
    "C42_counts",
    "C42_shapes",
    "C42_stochastic",
    "C42_every"
   ],
   "note": ""
  },
  {
   "property": "C43",
   "status": "proved",
   "theorems": [
    "C43_dispatch"
   ],
   "note": ""
  },
  {
   "property": "C44",
   "status": "proved",
   "theorems": [
    "C44_honeycomb"
   ],
   "note": "Exact real arithmetic (sqrt 3 is the real square root); locations rounded to 3 decimals as in the code."
  },
  {
   "property": "C45",
   "status": "proved",
   "theorems": [
    "C45_distance_map"
   ],
   "note": ""
  },
  {
   "property": "C46",
   "status": "proved",
   "theorems": [
    "C46_points"
   ],
   "note": ""
  },
  {
   "property": "C47",
   "status": "proved",
   "theorems": [
    "C47_solid",
    "C47_interface",
    "C47_coords",
    "C47_coords_missing",
    "C47_noise",
    "C47_noise_empty"
   ],
   "note": "setup_interface compares x with half the first size; for tuples the x extent is the second size. Coordinates off the grid raise TypeError, an empty phase list IndexError."
  },
  {
   "property": "C48",
   "status": "proved",
   "theorems": [
    "C48_add_particle",
    "C48_particle",
    "C48_random"
   ],
   "note": ""
  },
  {
   "property": "C49",
   "status": "proved",
   "theorems": [
    "C49_random_sites"
   ],
   "note": ""
  },
  {
   "property": "C50",
   "status": "partial",
   "theorems": [
    "C50_fair_partial",
    "C50_upper_partial",
    "C50_ratios_refuted"
   ],
   "note": "Upper bound (less than one above the share) proved; false in general: a phase listed late can fall short of its share by any amount (refuted for every amount)."
  },
  {
   "property": "C51",
   "status": "proved",
   "theorems": [
    "C51_grow_fills"
   ],
   "note": "grow with an integer size, a Moore neighbourhood of radius >= 1 (or the default) and at least one nucleus; it may raise RuntimeError when the nuclei do not fit. A tuple size raises TypeError in range() and is outside the statement."
  },
  {
   "property": "C52",
   "status": "proved",
   "theorems": [
    "C52_life"
   ],
   "note": ""
  },
  {
   "property": "C53",
   "status": "proved",
   "theorems": [
    "C53_variant",
    "C53_errors",
    "C53_malformed"
   ],
   "note": ""
  },
  {
   "property": "C54",
   "status": "proved",
   "theorems": [
    "C54_growth_rule",
    "C54_ties",
    "C54_constructed"
   ],
   "note": ""
  },
  {
   "property": "C55",
   "status": "proved",
   "theorems": [
    "C55_growth_serial"
   ],
   "note": ""
  },
  {
   "property": "C56",
   "status": "partial",
   "theorems": [
    "C56_growth_parallel_partial",
    "C56_growth_fair_partial",
    "C56_growth_parallel_refuted"
   ],
   "note": "False: a pool worker whose copy missed an update can repaint an occupied cell. Proved under every schedule: occupied cells stay occupied, no new phases, same occupied region as serial runs; if every worker used was used in all earlier steps, phases are kept too."
  },
  {
   "property": "C57",
   "status": "proved",
   "theorems": [
    "C57_get_sites",
    "C57_get_sites_no_structure",
    "C57_where_equal",
    "C57_missing_site"
   ],
   "note": ""
  },
  {
   "property": "C58",
   "status": "partial",
   "theorems": [
    "C58_class_partial",
    "C58_class_refuted"
   ],
   "note": "False for analyzers made without a structure: the class is ignored. Proved when the structure is given."
  },
  {
   "property": "C59",
   "status": "proved",
   "theorems": [
    "C59_counts",
    "C59_ratio",
    "C59_fraction_at",
    "C59_fraction_at_error"
   ],
   "note": "Fractions in exact real arithmetic."
  },
  {
   "property": "C60",
   "status": "partial",
   "theorems": [
    "C60_phases_partial",
    "C60_phases_refuted",
    "C60_no_steps_refuted",
    "C60_cache_refuted"
   ],
   "note": "False: all_phases iterates steps(), which never yields the last state; results without updates have no phases; lru_cache keeps stale answers. Proved: exactly the phases of the earlier steps, and when the fractions sum to 1."
  },
  {
   "property": "C61",
   "status": "proved",
   "theorems": [
    "C61_plotted_steps"
   ],
   "note": "round(len/100) computed exactly (Python rounds the quotient to a float first)."
  },
  {
   "property": "C62",
   "status": "partial",
   "theorems": [
    "C62_colours_partial",
    "C62_colours_refuted",
    "C62_helper",
    "C62_legend"
   ],
   "note": "Holds for up to 22 phases; the 23rd colour repeats the 16th (refuted for every longer list)."
  },
  {
   "property": "C63",
   "status": "proved",
   "theorems": [
    "C63_drawing",
    "C63_label",
    "C63_wide"
   ],
   "note": "In exact real arithmetic; PIL's glyph shapes are arbitrary pixels right of the text position. Also proved: grids wider than high raise IndexError or have the border painted over cells (C63_wide), because the width is taken from vec_lengths[0]."
  },
  {
   "property": "C64",
   "status": "partial",
   "theorems": [
    "C64_gif_partial",
    "C64_movie",
    "C64_gif_refuted",
    "C64_bad_frequency",
    "C64_failure"
   ],
   "note": "False only for directories that already hold a file named like a temporary file, which is overwritten and removed (refuted). File names without directories, saving never fails."
  },
  {
   "property": "C65",
   "status": "partial",
   "theorems": [
    "C65_state_at",
    "C65_roundtrip_partial",
    "C65_exactly_when_partial",
    "C65_roundtrip_refuted"
   ],
   "note": "state_at proved; the round trip holds for sites whose rounded location stays in the cell and is false otherwise (inherited from C35)."
  },
  {
   "property": "C66",
   "status": "proved",
   "theorems": [
    "C66_to_pylattica",
    "C66_supercell",
    "C66_to_pymatgen",
    "C66_round_trip"
   ],
   "note": "Exact-real arithmetic. pymatgen itself is described by a small trusted model (matrix, species strings, fractional coordinates, coords = frac . matrix, 3x3 reshape); species strings are assumed to parse to themselves. Atoms count as coincident when their images agree after rounding to 3 decimals; the conversion then raises AssertionError."
  },
  {
   "property": "C67",
   "status": "proved",
   "theorems": [
    "C67_build",
    "C67_grid",
    "C67_points"
   ],
   "note": ""
  },
  {
   "property": "C68",
   "status": "partial",
   "theorems": [
    "C68_terminates_partial",
    "C68_signed",
    "C68_empty",
    "C68_termination_refuted"
   ],
   "note": "Proved for all arguments except: nuclei asked for and at least one ratio, all zero. There it is false: 0/0 is nan and the loop selecting nucleus phases never ends, for every size, count, buffer and fuel. Ratios of any sign are characterised (C68_signed)."
  },
  {
   "property": "C69",
   "status": "partial",
   "theorems": [
    "C69_random_site_partial",
    "C69_random_site_refuted"
   ],
   "note": "Proved for ids 0..n-1 (every state made for a structure); false otherwise (a state with the single id 5 is offered site 0)."
  },
  {
   "property": "C70",
   "status": "proved",
   "theorems": [
    "C70_plot"
   ],
   "note": "Fractions in exact real arithmetic; the plotly figure is modelled as its list of lines."
  },
  {
   "property": "C71",
   "status": "partial",
   "theorems": [
    "C71_voxels_partial",
    "C71_shell_refuted",
    "C71_calls",
    "C71_fitting",
    "C71_box"
   ],
   "note": "Proved without shell_only. shell_only compares coordinates with size instead of size - 1, so two of the three faces are never drawn (refuted). The matplotlib rendering is not modelled."
  },
  {
   "property": "C72",
   "status": "proved",
   "theorems": [
    "C72_batch",
    "C72_get_step",
    "C72_load_steps"
   ],
   "note": "Object-level model (HeapModel.v) against the plain-value model (StateModel.v, ResultModel.v)."
  },
  {
   "property": "C73",
   "status": "partial",
   "theorems": [
    "C73_lattice_partial",
    "C73_lattice_refuted",
    "C73_dimension"
   ],
   "note": "Vectors are kept; periodicity flags are dropped in both directions (refuted)."
  },
  {
   "property": "C74",
   "status": "proved",
   "theorems": [
    "C74_from_struct"
   ],
   "note": ""
  },
  {
   "property": "C75",
   "status": "partial",
   "theorems": [
    "C75_moore_partial",
    "C75_motif_partial",
    "C75_grids_partial",
    "C75_small_partial",
    "C75_moore_refuted"
   ],
   "note": "IEEE binary64 (Flocq). False of the faithful model: for a side n with fl(n*fl(1/n)) < 1 (49, 98, 103, 107, ...) the lookup one step past the border returns None and rustworkx refuses None as a node index (TypeError). Proved: the exact dichotomy for all sides and radii up to 2^20 in 2D and 3D, for Moore and von Neumann builders, success for sides up to 48, failure at 49. Missing: larger sides and radii."
  },
  {
   "property": "C76",
   "status": "partial",
   "theorems": [
    "C76_state",
    "C76_result_partial",
    "C76_result_refuted"
   ],
   "note": "Proved for states. For results: exactly the phases present before the last step are coloured, a phase first present in the last step is black (refuted), because all_phases iterates steps()."
  },
  {
   "property": "C77",
   "status": "partial",
   "theorems": [
    "C77_images_partial",
    "C77_images_refuted"
   ],
   "note": "Proved off the ties of the rounding on every lattice, and everywhere if the periodic vectors are perpendicular to all others; false at ties on every lattice with two oblique periodic vectors (refuted)."
  },
  {
   "property": "C78",
   "status": "proved",
   "theorems": [
    "C78_phase_set"
   ],
   "note": ""
  },
  {
   "property": "C79",
   "status": "partial",
   "theorems": [
    "C79_periodise_partial",
    "C79_periodise_refuted"
   ],
   "note": "Refuted for -2^-54 <= x < 0, which gives 1.0; characterised exactly for all values, infinities and nan included."
  },
  {
   "property": "C80",
   "status": "proved",
   "theorems": [
    "C80_async_growth"
   ],
   "note": "Sites must be numbered 0..m-1, as in every structure (see C69 for others)."
  },
  {
   "property": "C81",
   "status": "proved",
   "theorems": [
    "C81_async_fills"
   ],
   "note": ""
  },
  {
   "property": "C82",
   "status": "proved",
   "theorems": [
    "C82_life_symmetry"
   ],
   "note": ""
  },
  {
   "property": "C83",
   "status": "partial",
   "theorems": [
    "C83_life_every_size_partial",
    "C83_life_every_size_refuted"
   ],
   "note": "Refuted on the 2 x 2 grid. Proved for all sizes: the rule is applied to the number of distinct living neighbours; for sides of at least 3 this is the full claim (C52)."
  },
  {
   "property": "C84",
   "status": "partial",
   "theorems": [
    "C84_life_float_partial",
    "C84_life_float_small_partial",
    "C84_life_float_refuted",
    "C84_life_float_every_size_partial"
   ],
   "note": "IEEE binary64. Refuted at 49 x 49; proved: the exact dichotomy for all sides from 3 to 2^20, so the full claim for sides up to 48; for sides of 1 and 2 the rule applied to the distinct neighbours."
  },
  {
   "property": "C85",
   "status": "proved",
   "theorems": [
    "C85_growth_ball",
    "C85_growth_diamond"
   ],
   "note": ""
  },
  {
   "property": "C86",
   "status": "partial",
   "theorems": [
    "C86_growth_float_partial",
    "C86_growth_grids_partial",
    "C86_growth_float_small_partial",
    "C86_growth_float_refuted"
   ],
   "note": "IEEE binary64. Refuted at 49 x 49; proved: the exact dichotomy for all sides up to 2^20, in 2D and 3D with Moore and von Neumann neighbourhoods of every radius, so the full claim for sides up to 48."
  },
  {
   "property": "C87",
   "status": "proved",
   "theorems": [
    "C87_cutoffs",
    "C87_guide"
   ],
   "note": ""
  },
  {
   "property": "C88",
   "status": "proved",
   "theorems": [
    "C88_local_rules",
    "C88_life_light_cone"
   ],
   "note": ""
  },
  {
   "property": "C89",
   "status": "proved",
   "theorems": [
    "C89_cutoffs_float",
    "C89_guides_float"
   ],
   "note": "IEEE binary64. Dimension up to 3, sides up to 2^20; cutoffs within 0.0006 of an irrational length are left out (rounding to 3 decimals decides there)."
  },
  {
   "property": "C90",
   "status": "proved",
   "theorems": [
    "C90_circular_float"
   ],
   "note": "IEEE binary64, as C89, for the grids of the library with sides up to 2^20."
  },
  {
   "property": "C91",
   "status": "proved",
   "theorems": [
    "C91_motif_float",
    "C91_lookup_float",
    "C91_state_float",
    "C91_moore_float",
    "C91_open_float"
   ],
   "note": "IEEE binary64. Sides and offsets up to 2^20, any dimension. The neighbourhood theorems include sites on the cell border; the lookup theorems need them off the border (for sites on the border see C30)."
  },
  {
   "property": "C92",
   "status": "partial",
   "theorems": [
    "C92_saved_partial",
    "C92_minutes_partial",
    "C92_same_minute_partial",
    "C92_last",
    "C92_saved_refuted"
   ],
   "note": "False: the default name only has minutes, and files are overwritten (refuted for every pair of results). Proved for different paths and for different minutes. Results must survive JSON (see C10). Every file holds JSON and writing never fails."
  },
  {
   "property": "C93",
   "status": "proved",
   "theorems": [
    "C93_async_paths"
   ],
   "note": ""
  },
  {
   "property": "C94",
   "status": "proved",
   "theorems": [
    "C94_plane_float",
    "C94_plane",
    "C94_known_patterns"
   ],
   "note": ""
  },
  {
   "property": "C95",
   "status": "partial",
   "theorems": [
    "C95_nucleation_float_partial",
    "C95_counts",
    "C95_ratio_refuted",
    "C95_overflow",
    "C95_termination_refuted",
    "C95_fair_partial"
   ],
   "note": "IEEE binary64. False in two ways: amounts 7 and 18 with 25 nuclei give 8 and 17 (the share 7/25*25 rounds up), and if the sum of the amounts overflows the loop never ends. Proved up to a rounding error, for sums up to 2^1023 and (k + 1)(phases + 2) <= 2^44; the order of numpy's additions is left open."
  },
  {
   "property": "C96",
   "status": "proved",
   "theorems": [
    "C96_honeycomb_float",
    "C96_inverse"
   ],
   "note": "IEEE binary64, sides from 3 to 2^20. np.linalg.inv is a parameter of which only the accuracy is assumed; C96_inverse shows that the elimination of the model has it."
  },
  {
   "property": "C97",
   "status": "partial",
   "theorems": [
    "C97_grow_float_partial",
    "C97_fills_partial",
    "C97_grow_refuted"
   ],
   "note": "IEEE binary64. The claim fails where C75 fails (refuted: size 49); proved: the exact outcome for sides and radii up to 2^20, with the limits of C95 on the amounts."
  },
  {
   "property": "C98",
   "status": "partial",
   "theorems": [
    "C98_grow_ball_partial",
    "C98_fills_partial",
    "C98_fills_refuted"
   ],
   "note": "Exact arithmetic. False in 3D: with radius 1 the corner opposite to a single nucleus is 3*floor(size/2) steps away, more than the size steps that grow runs. Proved: exactly which cells are filled; everything if 3*floor(size/2) <= r*size, and always in 2D."
  },
  {
   "property": "C99",
   "status": "partial",
   "theorems": [
    "C99_interface",
    "C99_coords",
    "C99_coords_outside_partial",
    "C99_noise",
    "C99_add_particle",
    "C99_particle",
    "C99_random_particles",
    "C99_ball_partial",
    "C99_random_balls_partial",
    "C99_ball_refuted"
   ],
   "note": "IEEE binary64. Refuted for radii that are not multiples of 1/2 (a radius just above sqrt 2 misses cells at distance sqrt 2); proved: exactly the cells whose rounded distance is below the radius, which is the open ball for radii in halves. Coordinates outside the grid raise TypeError where C30 fails."
  },
  {
   "property": "C100",
   "status": "proved",
   "theorems": [
    "C100_reload_axes",
    "C100_reload_grids"
   ],
   "note": "IEEE binary64, sides up to 2^20, one site per cell at a position in thousandths. Locations are equal as numbers; a zero may change its sign."
  },
  {
   "property": "C101",
   "status": "proved",
   "theorems": [
    "C101_play",
    "C101_other_steps",
    "C101_beyond",
    "C101_save"
   ],
   "note": "The pictures themselves are those of an arbitrary artist; display, clear_output and sleep are recorded calls."
  },
  {
   "property": "C102",
   "status": "proved",
   "theorems": [
    "C102_drawing",
    "C102_any_artist",
    "C102_label",
    "C102_wide",
    "C102_movie",
    "C102_voxels",
    "C102_shell",
    "C102_calls",
    "C102_fitting",
    "C102_box"
   ],
   "note": ""
  },
  {
   "property": "C103",
   "status": "proved",
   "theorems": [
    "C103_fraction",
    "C103_order",
    "C103_sum",
    "C103_ratio",
    "C103_final",
    "C103_plot"
   ],
   "note": ""
  },
  {
   "property": "C104",
   "status": "proved",
   "theorems": [
    "C104_drawing",
    "C104_discrete",
    "C104_inherited_legend"
   ],
   "note": "Methods of artists are functions of the state that may raise; the theorems assume that they return colours and labels for the state at hand. Values equal in Python but not in the model (1, 1.0 and True) are a documented simplification."
  },
  {
   "property": "C105",
   "status": "proved",
   "theorems": [
    "C105_sync",
    "C105_async"
   ],
   "note": "Deep copies are modelled as copies of the whole heap (see C05). Controllers that modify existing objects in place are outside the discipline; mimics says what a controller may do."
  },
  {
   "property": "C106",
   "status": "partial",
   "theorems": [
    "C106_periodize",
    "C106_difference",
    "C106_lengths",
    "C106_repeated",
    "C106_float_partial",
    "C106_float_refuted",
    "C106_float_difference"
   ],
   "note": "Over the reals everything; in binary64 a coordinate just below 0 is moved to exactly 1.0, not below 1 (refuted); the result in [0, 1] and the bound 1/2 on differences are proved."
  },
  {
   "property": "C107",
   "status": "proved",
   "theorems": [
    "C107_named",
    "C107_seeds",
    "C107_anneal",
    "C107_uniform",
    "C107_named_float"
   ],
   "note": ""
  },
  {
   "property": "C108",
   "status": "proved",
   "theorems": [
    "C108_batch",
    "C108_load_steps",
    "C108_cache",
    "C108_interval",
    "C108_get_step",
    "C108_run",
    "C108_agrees"
   ],
   "note": ""
  },
  {
   "property": "C109",
   "status": "proved",
   "theorems": [
    "C109_sync_calls",
    "C109_async_calls",
    "C109_parallel_calls"
   ],
   "note": "Controllers are functions of their hidden state, the site and the state given; exceptions end the run (see C108)."
  },
  {
   "property": "C110",
   "status": "proved",
   "theorems": [
    "C110_async_float",
    "C110_async_still_float",
    "C110_async_life",
    "C110_async_plane",
    "C110_async_still"
   ],
   "note": ""
  },
  {
   "property": "C111",
   "status": "proved",
   "theorems": [
    "C111_growth_missing",
    "C111_life_missing",
    "C111_life_run"
   ],
   "note": ""
  },
  {
   "property": "C112",
   "status": "proved",
   "theorems": [
    "C112_equal",
    "C112_equivalence",
    "C112_updates"
   ],
   "note": ""
  },
  {
   "property": "C113",
   "status": "proved",
   "theorems": [
    "C113_nucleation",
    "C113_nucleation_float",
    "C113_grow",
    "C113_grow_float"
   ],
   "note": ""
  },
  {
   "property": "C114",
   "status": "partial",
   "theorems": [
    "C114_no_room_partial",
    "C114_room_refuted"
   ],
   "note": "The docstring's condition is sufficient (partial theorem) but not necessary: the limit of 1000 n + 1 draws can be reached although there is room (refuted: all draws equal). C113 states exactly when the exception is raised."
  },
  {
   "property": "C115",
   "status": "proved",
   "theorems": [
    "C115_chunk_float",
    "C115_interval_float",
    "C115_cube_root"
   ],
   "note": ""
  },
  {
   "property": "C116",
   "status": "proved",
   "theorems": [
    "C116_hexagons",
    "C116_hexagons_float",
    "C116_fills",
    "C116_small"
   ],
   "note": ""
  },
  {
   "property": "C117",
   "status": "proved",
   "theorems": [
    "C117_honeycombs"
   ],
   "note": ""
  },
  {
   "property": "C118",
   "status": "partial",
   "theorems": [
    "C118_neighbours_partial",
    "C118_rows_refuted",
    "C118_columns_refuted"
   ],
   "note": "False exactly if one side is 2 and the other at least 3 (both refuted for every such size); all other sizes are covered by the partial theorem."
  },
  {
   "property": "C119",
   "status": "proved",
   "theorems": [
    "C119_reload"
   ],
   "note": ""
  },
  {
   "property": "C120",
   "status": "proved",
   "theorems": [
    "C120_async",
    "C120_fills",
    "C120_async_float"
   ],
   "note": ""
  },
  {
   "property": "C121",
   "status": "proved",
   "theorems": [
    "C121_motif",
    "C121_builders",
    "C121_builders_float"
   ],
   "note": ""
  },
  {
   "property": "C122",
   "status": "proved",
   "theorems": [
    "C122_between",
    "C122_hexagonal",
    "C122_pentagonal",
    "C122_grow"
   ],
   "note": ""
  },
  {
   "property": "C123",
   "status": "proved",
   "theorems": [
    "C123_draws",
    "C123_hexagonal",
    "C123_pentagonal",
    "C123_grow"
   ],
   "note": ""
  },
  {
   "property": "C124",
   "status": "proved",
   "theorems": [
    "C124_reached",
    "C124_between",
    "C124_hexagonal",
    "C124_float"
   ],
   "note": ""
  },
  {
   "property": "C125",
   "status": "proved",
   "theorems": [
    "C125_pentagonal",
    "C125_float"
   ],
   "note": ""
  },
  {
   "property": "C126",
   "status": "proved",
   "theorems": [
    "C126_draws",
    "C126_stalls",
    "C126_stalls_float"
   ],
   "note": ""
  },
  {
   "property": "C127",
   "status": "proved",
   "theorems": [
    "C127_named",
    "C127_equal",
    "C127_phases"
   ],
   "note": ""
  },
  {
   "property": "C128",
   "status": "proved",
   "theorems": [
    "C128_merge",
    "C128_merge_into",
    "C128_batch"
   ],
   "note": ""
  },
  {
   "property": "C129",
   "status": "proved",
   "theorems": [
    "C129_load",
    "C129_state"
   ],
   "note": ""
  },
  {
   "property": "C130",
   "status": "proved",
   "theorems": [
    "C130_same",
    "C130_constant"
   ],
   "note": ""
  },
  {
   "property": "C131",
   "status": "proved",
   "theorems": [
    "C131_float",
    "C131_hexagon",
    "C131_plane"
   ],
   "note": ""
  },
  {
   "property": "C132",
   "status": "proved",
   "theorems": [
    "C132_cell",
    "C132_maps",
    "C132_drawing",
    "C132_flat",
    "C132_shell"
   ],
   "note": ""
  },
  {
   "property": "C133",
   "status": "proved",
   "theorems": [
    "C133_parallel",
    "C133_async",
    "C133_sync",
    "C133_nbhood"
   ],
   "note": ""
  },
  {
   "property": "C134",
   "status": "proved",
   "theorems": [
    "C134_float",
    "C134_dimension",
    "C134_empty",
    "C134_particles",
    "C134_nuclei"
   ],
   "note": ""
  },
  {
   "property": "C135",
   "status": "proved",
   "theorems": [
    "C135_life",
    "C135_float",
    "C135_memoryless"
   ],
   "note": ""
  },
  {
   "property": "C136",
   "status": "proved",
   "theorems": [
    "C136_prefix",
    "C136_split",
    "C136_async",
    "C136_async_waiting",
    "C136_parallel"
   ],
   "note": ""
  },
  {
   "property": "C137",
   "status": "proved",
   "theorems": [
    "C137_serial",
    "C137_async",
    "C137_parallel",
    "C137_parallel_falls"
   ],
   "note": ""
  },
  {
   "property": "C138",
   "status": "proved",
   "theorems": [
    "C138_serial",
    "C138_parallel",
    "C138_changes"
   ],
   "note": ""
  },
  {
   "property": "C139",
   "status": "proved",
   "theorems": [
    "C139_same",
    "C139_exchange",
    "C139_order",
    "C139_lasting"
   ],
   "note": ""
  }
 ]
}