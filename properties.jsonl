{"id": "C01", "title": "Setting a site's state changes only the named keys of that site", "statement": "After state.set_site_state(i, u): get_site_state(i) has u's value for every key of u and its previous value for every other key (a site seen for the first time starts from {'_site_id': i}); every other site and the general state are unchanged.", "quantifier": "every state, site id, update dictionary, other site and key", "why_tests_cant": "the frame condition ranges over all other sites/keys of arbitrary states", "anchors": ["src/pylattica/core/simulation_state.py:SimulationState.set_site_state", "src/pylattica/core/simulation_state.py:SimulationState.get_site_state"]}
{"id": "C02", "title": "Site bookkeeping stays consistent over every history", "statement": "After any history of set_site_state, set_general_state and batch_update calls on a fresh state, site_ids() lists every site ever updated exactly once in order of first update, size is its length, all_site_states() is aligned with it, get_site_state(i) is non-None exactly for listed ids, and '_site_id' of each listed site is its own id as long as no update writes that key.", "quantifier": "every finite history of API calls", "why_tests_cant": "unbounded operation sequences", "anchors": ["src/pylattica/core/simulation_state.py:SimulationState.site_ids", "src/pylattica/core/simulation_state.py:SimulationState.size", "src/pylattica/core/simulation_state.py:SimulationState.all_site_states", "src/pylattica/core/simulation_state.py:SimulationState.batch_update"]}
{"id": "C03", "title": "A batch update equals the individual updates it contains", "statement": "batch_update({'GENERAL': g, 'SITES': {i: u_i}}) and batch_update({i: u_i}) have exactly the effect of set_site_state(i, u_i) for every listed site (and set_general_state(g)), touch nothing else, and applying the same batch twice equals applying it once.", "quantifier": "every state and every batch in one of the two documented shapes", "why_tests_cant": "the effect must be right for arbitrary batches and states", "anchors": ["src/pylattica/core/simulation_state.py:SimulationState.batch_update", "src/pylattica/core/simulation_state.py:SimulationState.set_general_state"]}
{"id": "C04", "title": "A 'SITES'-only batch is treated as site updates", "statement": "batch_update({'SITES': {i: u_i}}) applies the per-site updates (runner code accepts this shape from controllers).", "quantifier": "every state and batch of that shape", "why_tests_cant": "shape dispatch depends on which top-level keys are present", "anchors": ["src/pylattica/core/simulation_state.py:SimulationState.batch_update", "src/pylattica/core/runner/common.py:merge_updates"]}
{"id": "C05", "title": "copy() isolates: mutating a copy never changes the original", "statement": "For c = s.copy(): no sequence of API mutations of c, nor in-place edits of dictionaries obtained from c, changes anything observable through s, and vice versa; and c == s right after the copy.", "quantifier": "every heap of states and every later sequence of mutations", "why_tests_cant": "aliasing only shows on particular later mutation histories", "anchors": ["src/pylattica/core/simulation_state.py:SimulationState.copy", "src/pylattica/core/simulation_state.py:SimulationState.__init__"]}
{"id": "C06", "title": "State serialisation round-trips through JSON", "statement": "SimulationState.from_dict(json(s.as_dict())) == s, for states whose site ids are integers and whose per-site data is JSON data with string keys; site ids come back as integers in the same order.", "quantifier": "every such state", "why_tests_cant": "integer ids become strings in JSON, so correctness depends on all ids/values", "anchors": ["src/pylattica/core/simulation_state.py:SimulationState.as_dict", "src/pylattica/core/simulation_state.py:SimulationState.from_dict"]}
{"id": "C07", "title": "get_step(i) is the replay of the first i recorded updates, whatever was cached", "statement": "At any point of any history of add_step, load_steps(k), get_step(j), last_step, first_step calls, get_step(i) with 0 <= i < len(result) returns the initial state with the first i recorded updates applied in order; caching by load_steps never changes an answer, and len(result) is 1 + number of add_step calls.", "quantifier": "every initial state, every interleaving of add_step/load_steps/get_step, every interval and index", "why_tests_cant": "cache transparency is a property of histories", "anchors": ["src/pylattica/core/simulation_result.py:SimulationResult.get_step", "src/pylattica/core/simulation_result.py:SimulationResult.load_steps", "src/pylattica/core/simulation_result.py:SimulationResult.add_step"]}
{"id": "C08", "title": "Asking for a step that does not exist is an error", "statement": "get_step(i) raises for every i outside 0..len(result)-1.", "quantifier": "every result and index", "why_tests_cant": "negative and out-of-range indices", "anchors": ["src/pylattica/core/simulation_result.py:SimulationResult.get_step"]}
{"id": "C09", "title": "steps() yields every step of the simulation", "statement": "Iterating result.steps() produces len(result) states, the i-th equal to get_step(i), and the produced list can be kept.", "quantifier": "every result", "why_tests_cant": "depends on generator laziness, aliasing and the final iteration", "anchors": ["src/pylattica/core/simulation_result.py:SimulationResult.steps"]}
{"id": "C10", "title": "Result serialisation round-trips", "statement": "SimulationResult.from_dict(json(r.as_dict())) has the same steps as r, for every result including those returned by the runners.", "quantifier": "every result with JSON-able contents", "why_tests_cant": "depends on the shape of every recorded update", "anchors": ["src/pylattica/core/simulation_result.py:SimulationResult.as_dict", "src/pylattica/core/simulation_result.py:SimulationResult.from_dict", "src/pylattica/core/simulation_result.py:SimulationResult.to_file"]}
{"id": "C11", "title": "Editing a returned step does not corrupt the result", "statement": "A state returned by get_step can be edited without changing what later get_step calls return.", "quantifier": "every result, step and edit", "why_tests_cant": "aliasing with the cache depends on the load_steps/get_step history", "anchors": ["src/pylattica/core/simulation_result.py:SimulationResult.get_step", "src/pylattica/core/simulation_result.py:SimulationResult.load_steps"]}
{"id": "C12", "title": "Asynchronous run: every update is computed from, and applied to, exactly the preceding step", "statement": "In the result of AsynchronousRunner.run, step i+1 is step i with the controller's response for the i-th visited site applied, that response having been computed on step i; result.output equals result.last_step; step 0 equals the initial state.", "quantifier": "every controller (stateful, random), initial state, number of steps", "why_tests_cant": "must hold along arbitrary runs of arbitrary controllers", "anchors": ["src/pylattica/core/runner/asynchronous_runner.py:AsynchronousRunner._run", "src/pylattica/core/runner/base_runner.py:Runner.run"]}
{"id": "C13", "title": "Asynchronous run visits sites in request order and stops exactly when it should", "statement": "Sites are visited in FIFO order of being requested (get_random_site answers and next_sites lists), the run records exactly num_steps steps unless the controller offers no further site, in which case it stops early; if the controller offers no site at the start, RuntimeError is raised and nothing is recorded.", "quantifier": "every controller and number of steps", "why_tests_cant": "queue behaviour over unbounded runs", "anchors": ["src/pylattica/core/runner/asynchronous_runner.py:AsynchronousRunner._run"]}
{"id": "C14", "title": "Asynchronous run conserves what each update conserves", "statement": "If a quantity of the state is unchanged by every single controller update, it is the same in every step of the run (e.g. moving value between neighbours conserves the total).", "quantifier": "every quantity, controller, run length", "why_tests_cant": "conservation is an invariant over runs", "anchors": ["src/pylattica/core/runner/asynchronous_runner.py:AsynchronousRunner._run"]}
{"id": "C15", "title": "Synchronous run updates all sites simultaneously", "statement": "In a (serial) SynchronousRunner step, every site's update is computed from the same previous step, each site's rule is applied exactly once, and all updates are applied together; for rules that only update their own site the resulting step does not depend on the order of sites.", "quantifier": "every controller, state, number of steps, site order", "why_tests_cant": "simultaneity and order-independence over all states", "anchors": ["src/pylattica/core/runner/synchronous_runner.py:SynchronousRunner._run", "src/pylattica/core/runner/synchronous_runner.py:_step_batch"]}
{"id": "C16", "title": "run() output is the last step", "statement": "result.output equals result.last_step after every run of every runner.", "quantifier": "every runner configuration and run", "why_tests_cant": "depends on which branch mutates the live state", "anchors": ["src/pylattica/core/runner/synchronous_runner.py:SynchronousRunner._run", "src/pylattica/core/runner/asynchronous_runner.py:AsynchronousRunner._run", "src/pylattica/core/runner/base_runner.py:Runner.run"]}
{"id": "C17", "title": "Parallel synchronous run equals the serial run", "statement": "SynchronousRunner(parallel=True) produces the same steps as the serial runner for pure rules that update their own site, for any number of workers and any assignment of chunks to workers.", "quantifier": "every controller, state, number of workers, number of steps and task schedule", "why_tests_cant": "the OS schedule of pool workers cannot be enumerated by tests", "anchors": ["src/pylattica/core/runner/synchronous_runner.py:SynchronousRunner._take_step_parallel", "src/pylattica/core/runner/synchronous_runner.py:_step_batch_parallel"]}
{"id": "C18", "title": "Chunking hands every site to exactly one task", "statement": "For every number of sites and workers, the batches built for a parallel step partition site_ids() in order, every batch is non-empty and at most ceil(n/workers) long, and there are at most `workers` batches.", "quantifier": "every list of sites and number of workers", "why_tests_cant": "arithmetic over all sizes", "anchors": ["src/pylattica/core/runner/synchronous_runner.py:SynchronousRunner._take_step_parallel", "src/pylattica/core/runner/synchronous_runner.py:SynchronousRunner._run"]}
{"id": "C19", "title": "All documented update shapes mean the same thing", "statement": "The shapes {key: val}, {site_id: {...}} and {'SITES': {...}, 'GENERAL': {...}} (either part optional) returned by a controller are normalised to the same full update; None means no change; applying the normalised update changes exactly the named sites/keys.", "quantifier": "every controller response in a documented shape", "why_tests_cant": "dispatch on key types over arbitrary dictionaries", "anchors": ["src/pylattica/core/runner/common.py:merge_updates"]}
{"id": "C20", "title": "Merging updates loses nothing", "statement": "Merging the updates of several sites into one step update keeps every (site, key) assignment made by any of them; on conflicts the later site wins, in serial and in parallel mode alike.", "quantifier": "every sequence of updates", "why_tests_cant": "conflicting updates for the same site from different rule applications", "anchors": ["src/pylattica/core/runner/common.py:merge_updates", "src/pylattica/core/runner/synchronous_runner.py:SynchronousRunner._take_step_parallel"]}
{"id": "C21", "title": "A run does not modify the caller's initial state", "statement": "After run() returns, the initial_state object passed in is unchanged, and step 0 of the result still equals it, for serial and asynchronous runs and for every later edit of the initial state by the caller.", "quantifier": "every controller that does not itself write to the objects it is handed, and every run", "why_tests_cant": "aliasing between initial state, live state and result", "anchors": ["src/pylattica/core/runner/base_runner.py:Runner.run"]}
{"id": "C22", "title": "Rules that return None leave the step unchanged", "statement": "If the rule returns None for a site, that site's application contributes no change and the run continues, in every runner.", "quantifier": "every controller", "why_tests_cant": "None may occur for any subset of sites", "anchors": ["src/pylattica/core/runner/common.py:merge_updates", "src/pylattica/core/runner/asynchronous_runner.py:AsynchronousRunner._run", "src/pylattica/core/runner/synchronous_runner.py:_step_batch"]}
{"id": "C23", "title": "Fractional and Cartesian coordinates convert back and forth", "statement": "get_cartesian_coords(get_fractional_coords(p)) = p and get_fractional_coords(get_cartesian_coords(f)) = f for every lattice with independent vectors, in any dimension.", "quantifier": "every dimension, invertible lattice and point", "why_tests_cant": "all lattices/dimensions", "anchors": ["src/pylattica/core/lattice.py:Lattice.get_cartesian_coords", "src/pylattica/core/lattice.py:Lattice.get_fractional_coords"]}
{"id": "C24", "title": "Periodising moves a point into the cell by whole lattice vectors", "statement": "get_periodized_cartesian_coords(p) differs from p by an integer combination of the periodic lattice vectors only, has fractional coordinates in [0,1) along periodic directions and unchanged ones along the others, is idempotent, and is the same for all periodic images of p.", "quantifier": "every lattice, periodicity flags and point", "why_tests_cant": "all real points and lattices", "anchors": ["src/pylattica/core/lattice.py:periodize", "src/pylattica/core/lattice.py:Lattice.get_periodized_cartesian_coords"]}
{"id": "C25", "title": "Periodic distance is symmetric and image-invariant", "statement": "cartesian_periodic_distance(p,q) = cartesian_periodic_distance(q,p) >= 0, is 0 for periodic images of the same point, and on lattices with orthogonal vectors does not change when p or q is replaced by a periodic image.", "quantifier": "every lattice and pair of points", "why_tests_cant": "all pairs of points, ties of rounding", "anchors": ["src/pylattica/core/lattice.py:pbc_diff_cart", "src/pylattica/core/lattice.py:pbc_diff_frac_vec", "src/pylattica/core/lattice.py:Lattice.cartesian_periodic_distance"]}
{"id": "C26", "title": "Periodic distance is the smallest distance over all periodic images", "statement": "cartesian_periodic_distance(p,q) is the minimum Euclidean distance between p and all periodic images of q (rounded to 3 decimals), as the guide promises.", "quantifier": "every lattice, pair of points and periodic image", "why_tests_cant": "minimum over infinitely many images", "anchors": ["src/pylattica/core/lattice.py:pbc_diff_cart", "docs/guides/constructing_lattices.ipynb"]}
{"id": "C27", "title": "Scaling a lattice multiplies its periods", "statement": "get_scaled_lattice(n) keeps the periodicity flags, and two points are images of each other in it exactly when they differ by integer combinations of n_i * v_i over periodic directions.", "quantifier": "every lattice and multipliers", "why_tests_cant": "all lattices/multipliers/points", "anchors": ["src/pylattica/core/lattice.py:Lattice.get_scaled_lattice"]}
{"id": "C28", "title": "Site ids are dense, stable and never reused", "statement": "Over every history of add_site calls (including failing ones) the ids returned are 0,1,2,..., site_ids lists them in order, and get_site(i) returns for ever the class given and the location given (periodised and rounded to 3 decimals).", "quantifier": "every history of add_site calls", "why_tests_cant": "histories", "anchors": ["src/pylattica/core/periodic_structure.py:PeriodicStructure.add_site", "src/pylattica/core/periodic_structure.py:PeriodicStructure.get_site"]}
{"id": "C29", "title": "A site can be found at its location and at every periodic image of it", "statement": "After add_site(c, p) succeeded with id i, site_at(q) returns site i for q = p and every periodic image q of p, at any later time; site_at/id_at/class_at agree; site_at returns None exactly when no added site has the same periodised location up to rounding.", "quantifier": "every history, point and periodic image", "why_tests_cant": "infinitely many images, all histories", "anchors": ["src/pylattica/core/periodic_structure.py:PeriodicStructure.site_at", "src/pylattica/core/periodic_structure.py:PeriodicStructure.add_site", "src/pylattica/core/periodic_structure.py:PeriodicStructure.id_at", "src/pylattica/core/periodic_structure.py:PeriodicStructure.class_at"]}
{"id": "C30", "title": "Periodic lookup works in floating point too", "statement": "On a periodic n x n square grid, site_at((x, y)) finds a site for all integers x, y when computed in IEEE binary64 as numpy does.", "quantifier": "every grid size n and integer point", "why_tests_cant": "rounding of n*(1/n) fails only for particular n", "anchors": ["src/pylattica/core/periodic_structure.py:PeriodicStructure._transformed_coords", "src/pylattica/core/lattice.py:periodize", "src/pylattica/core/neighborhood_builders.py:MotifNeighborhoodBuilder.get_neighbors"]}
{"id": "C31", "title": "No two sites at the same place; a refused site changes nothing", "statement": "add_site at a location that coincides (after periodising and rounding) with an existing site raises and leaves the structure exactly as it was; two successfully added sites never coincide.", "quantifier": "every structure and location", "why_tests_cant": "all histories", "anchors": ["src/pylattica/core/periodic_structure.py:PeriodicStructure.add_site"]}
{"id": "C32", "title": "A site can be found at the location it reports", "statement": "site_at(site_location(i)) returns site i for every site of every structure.", "quantifier": "every structure and site", "why_tests_cant": "rounding at cell edges and ties", "anchors": ["src/pylattica/core/periodic_structure.py:PeriodicStructure.site_location", "src/pylattica/core/periodic_structure.py:PeriodicStructure.site_at"]}
{"id": "C33", "title": "Building tiles the motif over all cells", "statement": "build_from(lattice, n, motif) creates one site of class c for each cell of the n_1 x ... x n_d tiling and each motif position of c, located at cell origin + position (both Cartesian and fractional motifs), hence prod(n) * |motif| sites, enumerated cell by cell in lexicographic order.", "quantifier": "every lattice, size vector and motif that does not collide", "why_tests_cant": "all lattices, sizes, motifs", "anchors": ["src/pylattica/core/periodic_structure.py:PeriodicStructure.build_from", "src/pylattica/core/coordinate_utils.py:get_points_in_box"]}
{"id": "C34", "title": "A size of the wrong dimension is rejected, an integer size means a cube", "statement": "StructureBuilder.build(size) raises ValueError for a tuple whose length differs from the lattice dimension, and build(k) equals build((k,...,k)).", "quantifier": "every builder and size", "why_tests_cant": "all dimensions", "anchors": ["src/pylattica/core/structure_builder.py:StructureBuilder.build"]}
{"id": "C35", "title": "Structure serialisation round-trips", "statement": "PeriodicStructure.from_dict(json(s.as_dict())) has the same sites (ids, classes, locations) and answers site_at identically.", "quantifier": "every structure", "why_tests_cant": "re-adding re-periodises and re-rounds every location", "anchors": ["src/pylattica/core/periodic_structure.py:PeriodicStructure.as_dict", "src/pylattica/core/periodic_structure.py:PeriodicStructure.from_dict"]}
{"id": "C36", "title": "Site classes partition the sites", "statement": "sites(c) returns exactly the sites of class c in id order, the lists for all_site_classes() partition sites(), and each class is listed once.", "quantifier": "every structure and class", "why_tests_cant": "all structures", "anchors": ["src/pylattica/core/periodic_structure.py:PeriodicStructure.sites", "src/pylattica/core/periodic_structure.py:PeriodicStructure.all_site_classes"]}
{"id": "C37", "title": "Distance neighbourhoods contain exactly the other sites closer than the cutoff", "statement": "neighbors_of(i) contains j iff j != i and their periodic distance is < cutoff, each once, with that distance as weight; the relation is symmetric and grows with the cutoff. Where the periodic vectors are perpendicular to all others, and on every lattice for cutoffs below half the width of the cell, these are the other sites with a periodic image closer than the cutoff, weighted with the distance to the nearest image.", "quantifier": "every structure, cutoff, pair of sites", "why_tests_cant": "all structures", "anchors": ["src/pylattica/core/neighborhood_builders.py:DistanceNeighborhoodBuilder.get_neighbors", "src/pylattica/core/neighborhood_builders.py:NeighborhoodBuilder.get", "src/pylattica/core/neighborhoods.py:Neighborhood.neighbors_of"]}
{"id": "C38", "title": "Annular neighbourhoods are differences of distance neighbourhoods", "statement": "neighbors_of(i) contains j iff j != i and inner < distance < outer; symmetric; equals the outer distance neighbourhood minus the sites at distance <= inner.", "quantifier": "every structure and radii", "why_tests_cant": "all structures", "anchors": ["src/pylattica/core/neighborhood_builders.py:AnnularNeighborhoodBuilder.get_neighbors"]}
{"id": "C39", "title": "Motif neighbourhoods contain exactly the sites at the given offsets", "statement": "neighbors_of(i) is the set of sites found at location(i)+v for v in the motif, excluding i itself.", "quantifier": "every structure and motif", "why_tests_cant": "all structures/motifs", "anchors": ["src/pylattica/core/neighborhood_builders.py:MotifNeighborhoodBuilder.get_neighbors"]}
{"id": "C40", "title": "Motif neighbourhoods work at non-periodic boundaries", "statement": "For structures that are not periodic in some direction, sites near the boundary simply have fewer motif neighbours.", "quantifier": "every structure with a non-periodic direction", "why_tests_cant": "boundary sites with missing neighbours", "anchors": ["src/pylattica/core/neighborhood_builders.py:MotifNeighborhoodBuilder.get_neighbors", "src/pylattica/core/neighborhood_builders.py:NeighborhoodBuilder.get"]}
{"id": "C41", "title": "Moore and von Neumann neighbourhoods on square grids are the textbook ones", "statement": "On any 2D/3D periodic square grid the Moore neighbourhood of size r of the cell at x is the set of cells at x+d with max|d_k| <= r, the von Neumann one those with sum|d_k| <= r, periodically wrapped, excluding x; both are symmetric and translation invariant; when the grid is at least 2r+1 wide they have (2r+1)^d - 1 and 2r(r+1) (2D) members.", "quantifier": "every grid size, radius and cell", "why_tests_cant": "all sizes and radii including wrap-around", "anchors": ["src/pylattica/structures/square_grid/neighborhoods.py:MooreNbHoodBuilder", "src/pylattica/structures/square_grid/neighborhoods.py:VonNeumannNbHood2DBuilder", "src/pylattica/structures/square_grid/neighborhoods.py:VonNeumannNbHood3DBuilder"]}
{"id": "C42", "title": "Stochastic neighbourhoods always return one of their alternatives", "statement": "Each neighbors_of call of a StochasticNeighborhood returns the complete neighbour list of one of the candidate neighbourhoods; the pseudo-hexagonal/pseudo-pentagonal builders give 6 (2D), 8 (3D) and 5 neighbours, for every random choice, on grids at least 3 wide; on square grids of every size their neighbours are the cells along the axes and along one diagonal (hexagonal), or the half of the Moore neighbourhood facing one axis direction (pentagonal); every alternative can be drawn.", "quantifier": "every structure and random choice", "why_tests_cant": "randomness", "anchors": ["src/pylattica/core/neighborhoods.py:StochasticNeighborhood", "src/pylattica/core/neighborhood_builders.py:StochasticNeighborhoodBuilder", "src/pylattica/structures/square_grid/neighborhoods.py:PseudoHexagonalNeighborhoodBuilder2D", "src/pylattica/structures/square_grid/neighborhoods.py:PseudoHexagonalNeighborhoodBuilder3D", "src/pylattica/structures/square_grid/neighborhoods.py:PseudoPentagonalNeighborhoodBuilder"]}
{"id": "C43", "title": "Class-based neighbourhoods dispatch on the site's class", "statement": "neighbors_of(i) of a SiteClassNeighborhood is what the builder registered for i's class gives for i, and empty for classes without builder.", "quantifier": "every structure, builders, site", "why_tests_cant": "all structures", "anchors": ["src/pylattica/core/neighborhoods.py:SiteClassNeighborhood", "src/pylattica/core/neighborhood_builders.py:SiteClassNeighborhoodBuilder.get"]}
{"id": "C44", "title": "Every cell of a honeycomb tiling has exactly six neighbours", "statement": "HoneycombNeighborhoodBuilder().get(HoneycombTilingBuilder().build((n,m))) gives every site exactly 6 neighbours when n, m >= 3.", "quantifier": "every size n,m >= 3 and site", "why_tests_cant": "all sizes, rounding of irrational coordinates", "anchors": ["src/pylattica/structures/honeycomb/neighborhoods.py", "src/pylattica/structures/honeycomb/lattice.py", "src/pylattica/structures/honeycomb/structure_builders.py"]}
{"id": "C45", "title": "Distance maps hold the distance of every listed offset", "statement": "get_dist(v) is the Euclidean (rounded to 2 decimals) or Manhattan length of v for every listed v, and None for any other.", "quantifier": "every list of offsets", "why_tests_cant": "all offsets", "anchors": ["src/pylattica/core/distance_map.py"]}
{"id": "C46", "title": "Points in a box: all of them, once, in order", "statement": "get_points_in_box(lbs, ubs) lists every integer point with lb_k <= p_k < ub_k exactly once, in lexicographic order; get_points_in_cube is the cube case.", "quantifier": "every dimension and bounds", "why_tests_cant": "all dimensions/bounds", "anchors": ["src/pylattica/core/coordinate_utils.py"]}
{"id": "C47", "title": "Grid setups produce the described configuration", "statement": "setup_solid_phase fills every site; setup_interface puts p1 exactly on cells with x < floor(size/2) and p2 elsewhere; setup_coords puts each phase at its coordinates (wrapped; last listed wins) and background elsewhere; setup_noise gives every site one of the given phases for every random choice.", "quantifier": "every size, phases, coordinates and random choices", "why_tests_cant": "all sizes and random streams", "anchors": ["src/pylattica/structures/square_grid/grid_setup.py:DiscreteGridSetup"]}
{"id": "C48", "title": "Particles fill exactly the ball around their centre", "statement": "add_particle_to_state changes exactly the sites whose (non-periodic) distance to the centre is < radius; setup_random_particles yields only bulk/particle phases.", "quantifier": "every grid, centre, radius, random choices", "why_tests_cant": "all inputs", "anchors": ["src/pylattica/structures/square_grid/grid_setup.py:DiscreteGridSetup.add_particle_to_state", "src/pylattica/structures/square_grid/grid_setup.py:DiscreteGridSetup.setup_particle", "src/pylattica/structures/square_grid/grid_setup.py:DiscreteGridSetup.setup_random_particles"]}
{"id": "C49", "title": "Random nucleation terminates with the requested, well separated nuclei or an error", "statement": "For every random choice sequence setup_random_sites finishes after at most 1000*n+2 attempts, either raising RuntimeError or returning a state in which exactly num_sites_desired sites hold nucleus phases, no two of them within `buffer` (Moore distance, periodic), and all other sites hold the background.", "quantifier": "every size, non-negative count, buffer, ratios (non-negative, not all zero, background not among them) and random stream", "why_tests_cant": "random streams; termination", "anchors": ["src/pylattica/structures/square_grid/grid_setup.py:DiscreteGridSetup.setup_random_sites"]}
{"id": "C50", "title": "Nucleation respects the requested ratios", "statement": "The number of nuclei of each phase differs from its ideal share num_sites * ratio/sum by less than one.", "quantifier": "every ratio dictionary and count", "why_tests_cant": "all ratio vectors", "anchors": ["src/pylattica/structures/square_grid/grid_setup.py:DiscreteGridSetup.setup_random_sites"]}
{"id": "C51", "title": "Growth fills the whole grid", "statement": "GrowthSetup.grow with at least one nucleus and a Moore neighbourhood returns a simulation with no background cell left, whatever the schedule of the parallel workers.", "quantifier": "every size, nuclei, schedule", "why_tests_cant": "schedules and sizes", "anchors": ["src/pylattica/structures/square_grid/growth_setup.py:GrowthSetup.grow", "src/pylattica/models/growth/growth_controller.py"]}
{"id": "C52", "title": "Game of Life controller implements the B/S rule on the torus", "statement": "After k synchronous steps on an n x m grid (n,m >= 3) every cell is alive iff the mathematical life-like automaton given by the variant says so; states stay alive/dead.", "quantifier": "every grid, initial pattern, variant, number of steps", "why_tests_cant": "all patterns and step counts", "anchors": ["src/pylattica/models/game_of_life/controller.py:GameOfLifeController"]}
{"id": "C53", "title": "Variant strings parse to the listed neighbour counts", "statement": "process_variant_string('B<digits>/S<digits>') returns exactly the listed digits, for every digit sequences.  A string without a slash raises IndexError if everything after its first character is a digit; any other character before or after the first slash (beyond the first of each half) raises ValueError; whatever follows a second slash is ignored.", "quantifier": "every digit string", "why_tests_cant": "all strings", "anchors": ["src/pylattica/models/game_of_life/controller.py:process_variant_string"]}
{"id": "C54", "title": "Growth changes only background cells, to a most common neighbouring phase", "statement": "GrowthController leaves non-background sites unchanged, leaves background sites without occupied neighbours unchanged, and otherwise sets the site to a phase that is maximal in count among occupied neighbours, of several the one met first in the list of neighbours.", "quantifier": "every state, neighbourhood, neighbour order", "why_tests_cant": "ties depend on hash order", "anchors": ["src/pylattica/models/growth/growth_controller.py:GrowthController.get_state_update"]}
{"id": "C55", "title": "Occupied cells never change during serial growth, and growth spreads one neighbourhood per step", "statement": "In a serial growth run an occupied cell keeps its phase for ever, and a cell is occupied at step k iff an initially occupied cell is reachable in at most k neighbour hops; no new phases appear.", "quantifier": "every initial state, neighbourhood, number of steps", "why_tests_cant": "runs", "anchors": ["src/pylattica/models/growth/growth_controller.py", "src/pylattica/core/runner/synchronous_runner.py:SynchronousRunner._run"]}
{"id": "C56", "title": "In a parallel growth run occupied cells never change", "statement": "In SynchronousRunner(parallel=True) growth runs an occupied cell keeps its phase.", "quantifier": "every schedule", "why_tests_cant": "worker schedules", "anchors": ["src/pylattica/core/runner/synchronous_runner.py:_step_batch_parallel", "src/pylattica/models/growth/growth_controller.py"]}
{"id": "C57", "title": "State queries return exactly the matching sites", "statement": "StateAnalyzer.get_sites(state, site_class, criteria) returns exactly the ids of the sites (of that class) whose state satisfies all criteria, in order, and the counts are the lengths; get_sites_where_equal matches dictionary entries.", "quantifier": "every state, structure, criteria", "why_tests_cant": "all predicates/states", "anchors": ["src/pylattica/core/analyzer.py:StateAnalyzer"]}
{"id": "C58", "title": "Site class filter is honoured without a structure", "statement": "get_sites(state, site_class=c) never returns sites not of class c.", "quantifier": "every analyzer", "why_tests_cant": "depends on how the analyzer was constructed", "anchors": ["src/pylattica/core/analyzer.py:StateAnalyzer.get_sites"]}
{"id": "C59", "title": "Phase counts and fractions are consistent", "statement": "For every non-empty state with occupancies the counts over phases_present add up to size, the fractions to 1, each present phase has positive count and absent ones 0; phase_count is the number of distinct phases.", "quantifier": "every state", "why_tests_cant": "all states", "anchors": ["src/pylattica/discrete/discrete_step_analyzer.py"]}
{"id": "C60", "title": "all_phases and final_phase_fractions cover the whole simulation", "statement": "all_phases() contains every phase present in any step and final_phase_fractions() sums to 1.", "quantifier": "every result", "why_tests_cant": "phases appearing only in the last step", "anchors": ["src/pylattica/discrete/discrete_state_result_analyzer.py:DiscreteResultAnalyzer.all_phases", "src/pylattica/discrete/discrete_state_result_analyzer.py:DiscreteResultAnalyzer.final_phase_fractions"]}
{"id": "C61", "title": "Plotted steps are valid, evenly spaced and bounded in number", "statement": "The steps selected for plotting start at 0, increase by a constant >= 1, are all < len(result), are never more than 149, and each plotted state is get_step of its index.", "quantifier": "every result length", "why_tests_cant": "all lengths, banker's rounding", "anchors": ["src/pylattica/discrete/discrete_state_result_analyzer.py:DiscreteResultAnalyzer._get_steps_to_plot"]}
{"id": "C62", "title": "Colour maps give distinct colours", "statement": "build_color_map_from_phase_list gives every listed phase a colour, distinct phases distinct colours; unknown phases are black; legends show each label with its colour.", "quantifier": "every phase list", "why_tests_cant": "list length vs palette", "anchors": ["src/pylattica/visualization/cell_artist.py", "src/pylattica/visualization/colors.py"]}
{"id": "C63", "title": "2D drawing: each cell's block has its cell's colour and nothing is drawn out of bounds", "statement": "In the image of an n x n grid drawn without a label every pixel of the block of cell (x,y) (y pointing up) has the colour of that cell's state, the legend's swatches have the colours of the values present in the order of their sorted labels and do not overlap the grid, and all pixel writes are inside the image; a label changes only the pixels its text covers.", "quantifier": "every grid size, cell size, state, legend", "why_tests_cant": "all sizes", "anchors": ["src/pylattica/visualization/square_grid_artist_2D.py"]}
{"id": "C64", "title": "GIF frames are the requested steps in order and temporary files are removed", "statement": "to_gif writes one frame per draw_freq-th step, in order, starting with step 0, and leaves no temporary file behind and no other file changed.", "quantifier": "every result, draw_freq and directory contents", "why_tests_cant": "directory contents", "anchors": ["src/pylattica/visualization/result_artist.py"]}
{"id": "C65", "title": "Simulation.state_at returns the state of the site at the location", "statement": "state_at(p) is get_site_state(id_at(p)), None where there is no site; Simulation serialisation round-trips state and structure together.", "quantifier": "every simulation and location", "why_tests_cant": "all locations", "anchors": ["src/pylattica/core/simulation.py"]}
{"id": "C66", "title": "pymatgen conversion keeps every atom", "statement": "to_pylattica_structure_and_state yields one site per atom with the atom's species at the atom's position, and to_pymatgen_structure returns the same species with the same fractional positions up to rounding.", "quantifier": "every crystal without coincident atoms", "why_tests_cant": "all crystals", "anchors": ["src/pylattica/atomic/pymatgen_struct_converter.py"]}
{"id": "C67", "title": "Square grids are discrete tori", "statement": "Building SimpleSquare2D/3DStructureBuilder with any positive size succeeds and gives prod(size) sites of class _A, located exactly at the integer points of the box whose x and y extents are the first two sizes swapped; site_at/id_at of any integer point finds a site, and two integer points give the same id iff they agree modulo the extents. At any other point, site_at finds the cell of an integer point nearer than 1/2000 along every axis, except just below a multiple of the extent, and finds nothing farther than 1/2000 from every integer point.", "quantifier": "every positive 2D/3D size, every pair of integer points and every real point", "why_tests_cant": "all sizes and wrap-around, exact real arithmetic", "anchors": ["src/pylattica/structures/square_grid/lattice.py", "src/pylattica/structures/square_grid/structure_builders.py", "src/pylattica/core/structure_builder.py:StructureBuilder.build", "src/pylattica/core/periodic_structure.py:PeriodicStructure.site_at"]}
{"id": "C68", "title": "setup_random_sites terminates for every ratio dictionary", "statement": "setup_random_sites with any non-empty ratio dictionary and any count returns or raises after finitely many loop turns.", "quantifier": "every ratio dictionary and count", "why_tests_cant": "non-termination", "anchors": ["src/pylattica/structures/square_grid/grid_setup.py:DiscreteGridSetup.setup_random_sites"]}
{"id": "C69", "title": "The default random site is a site of the state", "statement": "BasicController.get_random_site(state) returns the id of a site of the state and can return every one of them; it raises ValueError when there is none.", "quantifier": "every state", "why_tests_cant": "all states and random draws", "anchors": ["src/pylattica/core/basic_controller.py:BasicController.get_random_site"]}
{"id": "C70", "title": "plot_phase_fractions draws the phase fractions of the plotted steps", "statement": "The figure of plot_phase_fractions has, for each phase seen before the last step whose fraction exceeds min_prevalence at some plotted step, exactly one line through the points (i, fraction of the phase in step i) for the plotted steps i; the x axis ends at the last plotted step.", "quantifier": "every result with non-empty states, every min_prevalence", "why_tests_cant": "all results", "anchors": ["src/pylattica/discrete/discrete_state_result_analyzer.py:DiscreteResultAnalyzer.plot_phase_fractions"]}
{"id": "C71", "title": "3D drawing: each voxel has its cell's colour", "statement": "In the voxel data of an n x n x n grid every voxel (x,y,z) is drawn in the colour of the state of the cell at (x,y,z) and in no other; with shell_only exactly the voxels of the three faces towards the viewer (y = 0, x = n-1, z = n-1) are drawn; all other voxels of the cube are drawn in translucent grey.", "quantifier": "every n, state and colour map", "why_tests_cant": "all sizes", "anchors": ["src/pylattica/visualization/square_grid_artist_3D.py"]}
{"id": "C72", "title": "Sharing of objects never changes what updates, get_step and load_steps compute", "statement": "batch_update, get_step and load_steps, run on real objects with arbitrary sharing between states, recorded updates and cached steps, give exactly the states and errors of the corresponding computation on plain values; get_step and load_steps change no existing object, batch_update only the two dictionaries of its own state.", "quantifier": "every heap, result, update and step", "why_tests_cant": "all sharing patterns between states and updates", "anchors": ["src/pylattica/core/simulation_state.py:SimulationState.batch_update", "src/pylattica/core/simulation_result.py:SimulationResult.get_step", "src/pylattica/core/simulation_result.py:SimulationResult.load_steps"]}
{"id": "C73", "title": "Lattices survive the conversion to pymatgen and back", "statement": "to_pylattica_lattice(to_pymatgen_lattice(L)) has the vectors and the periodicity of L; lattices and structures that are not three-dimensional are refused.", "quantifier": "every lattice", "why_tests_cant": "all lattices and periodicity flags", "anchors": ["src/pylattica/atomic/pymatgen_struct_converter.py:PymatgenStructureConverter.to_pymatgen_lattice", "src/pylattica/atomic/pymatgen_struct_converter.py:PymatgenStructureConverter.to_pylattica_lattice"]}
{"id": "C74", "title": "A state made from a structure lists exactly its sites", "statement": "SimulationState.from_struct(structure) has one entry for each site of the structure, in the order of the site ids, each holding only the site's id, and empty general state.", "quantifier": "every structure", "why_tests_cant": "all structures", "anchors": ["src/pylattica/core/simulation_state.py:SimulationState.from_struct"]}
{"id": "C75", "title": "Moore neighbourhoods can be built in floating point", "statement": "On every n x m square grid MooreNbHoodBuilder(size=r, dim=2).get(structure), computed in IEEE binary64 as numpy does, returns the torus Moore neighbourhood of radius r.", "quantifier": "every grid size up to 2^20 and radius up to 2^20", "why_tests_cant": "the failure depends on whether n*(1/n) rounds to 1; the first side that fails is 49 and the tests use small grids", "anchors": ["src/pylattica/structures/square_grid/neighborhoods.py:MooreNbHoodBuilder", "src/pylattica/core/neighborhood_builders.py:MotifNeighborhoodBuilder.get_neighbors", "src/pylattica/core/periodic_structure.py:PeriodicStructure.id_at"]}
{"id": "C76", "title": "Artists made from a state or a result know all its phases", "statement": "DiscreteCellArtist.from_discrete_state(state) and from_discrete_result(result) colour every site of the state, or of every step of the result, in a colour other than black, which stands for unknown phases; for up to 22 phases two sites of the state have the same colour exactly if they hold the same phase.", "quantifier": "every state with phases, every result", "why_tests_cant": "all results, phases that appear late", "anchors": ["src/pylattica/visualization/cell_artist.py:DiscreteCellArtist.from_discrete_state", "src/pylattica/visualization/cell_artist.py:DiscreteCellArtist.from_discrete_result", "src/pylattica/discrete/discrete_state_result_analyzer.py:DiscreteResultAnalyzer.all_phases"]}
{"id": "C77", "title": "Periodic distance does not depend on the chosen images", "statement": "cartesian_periodic_distance(p', q') = cartesian_periodic_distance(p, q) whenever p' is a periodic image of p and q' one of q.", "quantifier": "every lattice, pair of points and images", "why_tests_cant": "ties of the rounding on oblique lattices", "anchors": ["src/pylattica/core/lattice.py:pbc_diff_frac_vec", "src/pylattica/core/lattice.py:pbc_diff_cart"]}
{"id": "C78", "title": "A phase set lists every given phase once", "statement": "PhaseSet(phases).phases contains each of the given phases exactly once and nothing else.", "quantifier": "every list of phases", "why_tests_cant": "all lists", "anchors": ["src/pylattica/discrete/phase_set.py:PhaseSet"]}
{"id": "C79", "title": "Periodised coordinates lie in [0, 1) in floating point", "statement": "periodize(f, periodic), computed in IEEE binary64 as numpy does, leaves the coordinates of open directions alone and replaces every coordinate x of a periodic direction by a number in [0, 1) that differs from x by a whole number; periodising the result again changes nothing.", "quantifier": "every list of finite floats", "why_tests_cant": "only negative values closer to 0 than 2^-54 come out as 1.0", "anchors": ["src/pylattica/core/lattice.py:periodize"]}
{"id": "C80", "title": "Asynchronous growth runs visit one drawn site per step and keep occupied cells", "statement": "AsynchronousRunner().run(initial_state, GrowthController(...), n) records exactly n steps; step t visits the site drawn at random for it, changes no other site, leaves it alone if it is occupied or has no occupied neighbour, and otherwise gives it a most common phase among its occupied neighbours. Occupied cells never change, no phase appears that was not there at the start, and growth spreads at most one neighbourhood per step.", "quantifier": "every neighbourhood, state with ids 0..m-1, sequence of draws and number of steps", "why_tests_cant": "all sequences of random draws", "anchors": ["src/pylattica/core/runner/asynchronous_runner.py:AsynchronousRunner", "src/pylattica/models/growth/growth_controller.py:GrowthController", "src/pylattica/core/basic_controller.py:BasicController.get_random_site"]}
{"id": "C81", "title": "Asynchronous growth eventually fills everything connected to a nucleus", "statement": "If the random draws offer every site again and again, then in every sufficiently long asynchronous growth run every site connected to an initially occupied one ends up occupied.", "quantifier": "every neighbourhood, state and fair sequence of draws", "why_tests_cant": "no bound on the number of steps", "anchors": ["src/pylattica/core/runner/asynchronous_runner.py:AsynchronousRunner", "src/pylattica/models/growth/growth_controller.py:GrowthController"]}
{"id": "C82", "title": "The Game of Life has no preferred place or direction", "statement": "If the initial state is translated, mirrored or turned on the torus, every step of the run is the correspondingly translated, mirrored or turned step of the original run, for every life-like variant, serial or parallel.", "quantifier": "every 2D grid with sides of at least 3, pattern, variant, symmetry and number of steps", "why_tests_cant": "all patterns and symmetries; site ids are numbered in one direction", "anchors": ["src/pylattica/models/game_of_life/controller.py:GameOfLifeController", "src/pylattica/structures/square_grid/neighborhoods.py:MooreNbHoodBuilder"]}
{"id": "C83", "title": "The Game of Life follows the B/S rule on grids of every size", "statement": "On every n x m grid, also with sides of 1 or 2, each step of a Game of Life run shows the next generation of the pattern repeated over the plane, for every life-like variant.", "quantifier": "every n, m >= 1, variant, pattern and number of steps", "why_tests_cant": "narrow grids: the same cell is a neighbour from both sides", "anchors": ["src/pylattica/models/game_of_life/controller.py:GameOfLifeController", "src/pylattica/core/neighborhoods.py:SiteClassNeighborhood"]}
{"id": "C84", "title": "The Game of Life runs in floating point", "statement": "On every n x m grid with n, m >= 3, built in IEEE binary64 as numpy does, each step of a Game of Life run, serial or parallel, shows the next generation of the pattern, for every life-like variant.", "quantifier": "every grid with sides from 3 to 2^20, variant, pattern and number of steps", "why_tests_cant": "the first side that fails is 49; the tests use small grids", "anchors": ["src/pylattica/models/game_of_life/controller.py:GameOfLifeController", "src/pylattica/core/periodic_structure.py:PeriodicStructure.id_at"]}
{"id": "C85", "title": "The grown region is the ball around the nuclei", "statement": "After t steps of a growth run, serial or parallel, a cell of a square grid is occupied exactly if an initially occupied cell lies within r*t cells of it on the torus, in the maximum metric for Moore neighbourhoods of radius r (radius 1 is the default) and in the sum metric for von Neumann neighbourhoods.", "quantifier": "every 2D and 3D grid, radius, initial state, schedule and number of steps", "why_tests_cant": "all grids, states and worker schedules", "anchors": ["src/pylattica/models/growth/growth_controller.py:GrowthController", "src/pylattica/structures/square_grid/neighborhoods.py:MooreNbHoodBuilder"]}
{"id": "C86", "title": "Growth runs in floating point", "statement": "On every 2D or 3D grid built in IEEE binary64 as numpy does, GrowthController can be made with its default neighbourhood and with Moore and von Neumann neighbourhoods of any radius r, and after t steps a cell is occupied exactly if an initially occupied cell lies within r*t cells of it on the torus.", "quantifier": "every grid with sides up to 2^20, initial state and number of steps", "why_tests_cant": "the first side that fails is 49; the tests use small grids", "anchors": ["src/pylattica/models/growth/growth_controller.py:GrowthController", "src/pylattica/core/periodic_structure.py:PeriodicStructure.id_at"]}
{"id": "C87", "title": "Distance cutoffs give the von Neumann and Moore neighbourhoods of the guides", "statement": "On a square lattice with any choice of periodic and open sides, built with one site per cell, DistanceNeighborhoodBuilder(c) gives exactly the other sites whose cell is reached by an offset of squared length at most K, where c lies between the square roots of K and K + 1 (rounded to 3 decimals); offsets roll over exactly along the periodic sides. In 2D, 1 < c <= 1.414 gives the von Neumann and 1.414 < c <= 2 the Moore neighbourhood. AnnularNeighborhoodBuilder gives the sites in between in the same way.", "quantifier": "every dimension, size, choice of periodic sides, position of the site in its cell (in thousandths) and cutoff", "why_tests_cant": "all sizes, flags and cutoffs; the guide shows a 3 x 3 grid", "anchors": ["src/pylattica/core/neighborhood_builders.py:DistanceNeighborhoodBuilder", "src/pylattica/core/neighborhood_builders.py:AnnularNeighborhoodBuilder", "src/pylattica/core/periodic_structure.py:PeriodicStructure.build_from"]}
{"id": "C88", "title": "The future state of a site is determined by its neighbours", "statement": "If a rule looks only at its site, its neighbours and the general state, then the state of a site after t synchronous steps is determined by the initial states of the sites at most t hops away. In the Game of Life two runs whose initial states agree within t cells of a cell agree there after t steps.", "quantifier": "every local own-site rule, pair of initial states, site and number of steps", "why_tests_cant": "all rules, states and distances", "anchors": ["src/pylattica/core/runner/synchronous_runner.py:SynchronousRunner", "src/pylattica/models/game_of_life/controller.py:GameOfLifeController"]}
{"id": "C89", "title": "Distance cutoffs work in floating point", "statement": "In IEEE binary64, a square lattice of dimension up to 3 with any choice of periodic and open sides, built with one site per cell at a position given in thousandths, has exactly one site per cell. DistanceNeighborhoodBuilder(c) never fails on it and gives exactly the other sites whose cell is reached by an offset of squared length at most K, if c is above sqrt(K) and at most the next possible length, by 0.0006 or, at whole numbers, by any amount. In 2D, 1 < c <= 1.4136 gives the von Neumann and 1.4149 <= c <= 2 the Moore neighbourhood, as the guides use it. AnnularNeighborhoodBuilder gives the sites in between in the same way, and the stored distances are the true ones up to 0.0006.", "quantifier": "every dimension up to 3, side up to 2^20, choice of periodic sides, position of the site in its cell (in thousandths) and cutoff clear of the lengths", "why_tests_cant": "rounding errors grow with the size of the grid; the tests use small grids", "anchors": ["src/pylattica/core/neighborhood_builders.py:DistanceNeighborhoodBuilder", "src/pylattica/core/neighborhood_builders.py:AnnularNeighborhoodBuilder", "src/pylattica/core/periodic_structure.py:PeriodicStructure.build_from", "src/pylattica/core/lattice.py:Lattice.get_periodized_cartesian_coords"]}
{"id": "C90", "title": "Circular neighbourhoods on the library's square grids work in floating point", "statement": "On the 2D and 3D square grids of the library, built in IEEE binary64 with sides up to 2^20, CircularNeighborhoodBuilder(c) never fails and gives exactly the other sites reached by an offset on the torus of squared length at most K, if c is clear of the possible lengths. (The Moore and von Neumann builders can fail there, see C75.)", "quantifier": "every 2D and 3D grid with sides up to 2^20 and cutoff", "why_tests_cant": "rounding errors depend on the size of the grid", "anchors": ["src/pylattica/structures/square_grid/neighborhoods.py:CircularNeighborhoodBuilder", "src/pylattica/structures/square_grid/lattice.py:SquareGridLattice2D", "src/pylattica/core/lattice.py:Lattice.get_periodized_cartesian_coords"]}
{"id": "C91", "title": "Motif neighbourhoods are safe in floating point if the sites are off the cell borders", "statement": "In IEEE binary64, on a square lattice of any dimension whose site is at least 0.001 away from the lower cell border along the periodic sides (e.g. in the middle of the cell), looking up a location finds the site of the wrapped cell, even if the location is off by 2^-20 (so Simulation.state_at gives its state), and None if it is outside along an open side. MotifNeighborhoodBuilder with integer offsets gives exactly the sites reached by the offsets if none of them leaves the structure, and raises TypeError otherwise. In particular MooreNbHoodBuilder always works on periodic lattices, and never if a side is open. If sites do lie on the cell border, exactly the offsets whose coordinate falls short there (see C75) also raise TypeError.", "quantifier": "every dimension, side up to 2^20, choice of periodic sides, position off the border, integer motif with offsets up to 2^20", "why_tests_cant": "rounding depends on the size; contrast C75, where sites lie on the cell border", "anchors": ["src/pylattica/core/neighborhood_builders.py:MotifNeighborhoodBuilder", "src/pylattica/core/periodic_structure.py:PeriodicStructure.id_at", "src/pylattica/structures/square_grid/neighborhoods.py:MooreNbHoodBuilder"]}
{"id": "C92", "title": "Saving a result without a path never loses an earlier one", "statement": "SimulationResult.to_file() without a path writes a new file: after any series of saves, every result can be loaded with from_file from the path its save returned.", "quantifier": "every series of saves, times and files present", "why_tests_cant": "two saves in the same minute are needed; the tests always give a path", "anchors": ["src/pylattica/core/simulation_result.py:SimulationResult.to_file", "src/pylattica/core/simulation_result.py:SimulationResult.from_file"]}
{"id": "C93", "title": "Asynchronous growth follows the paths that were drawn in order", "statement": "After t steps of an asynchronous growth run a site is occupied exactly if there is a path of neighbours from an initially occupied site to it whose further sites were drawn in this order during the first t steps.", "quantifier": "every neighbourhood, state, sequence of draws and number of steps", "why_tests_cant": "all draws; the order in which sites are drawn decides", "anchors": ["src/pylattica/core/runner/asynchronous_runner.py:AsynchronousRunner", "src/pylattica/models/growth/growth_controller.py:GrowthController"]}
{"id": "C94", "title": "Small patterns on large grids live as on the infinite plane", "statement": "As long as the living cells of a finite pattern fit into a box two cells smaller than the grid in both directions, a run of the Game of Life (or of a variant that never gives birth at 0 neighbours), serial or parallel, shows at each step exactly the cells that live on the infinite plane. In particular, with B3/S23, a block stays as it is on every grid with sides of at least 4, and on grids with sides of at least 5 a blinker turns at each step and a glider is moved by one cell along both axes every 4 steps, for ever, across the borders.", "quantifier": "every grid, pattern, history, variant without birth at 0, placement, schedule and number of steps", "why_tests_cant": "all patterns and unbounded runs; the wrap-around must not be noticed", "anchors": ["src/pylattica/models/game_of_life/controller.py:GameOfLifeController", "src/pylattica/structures/square_grid/structure_builders.py:SimpleSquare2DStructureBuilder"]}
{"id": "C95", "title": "Nucleation in floating point ends with the requested nuclei and ratios", "statement": "In IEEE binary64, with finite amounts that are not negative and not all zero, setup_random_sites on a 2D or 3D grid always ends, in whatever order numpy adds up the amounts: with RuntimeError, with TypeError if the Moore neighbourhood of the buffer cannot be built, or with exactly the requested number of nuclei, any two of them further apart on the torus than the buffer. No phase gets its share plus one or more.", "quantifier": "every grid with sides up to 2^20, amounts, buffer, number of nuclei, random choices and order of additions", "why_tests_cant": "shares are computed with rounding errors and compared with whole numbers; the tests use two phases with simple ratios", "anchors": ["src/pylattica/structures/square_grid/grid_setup.py:DiscreteGridSetup.setup_random_sites"]}
{"id": "C96", "title": "Honeycomb tilings have six neighbours in floating point", "statement": "In IEEE binary64 a honeycomb tiling with sides of at least 3 has one site per cell, within 0.0006 of the centre of its hexagon, and HoneycombNeighborhoodBuilder gives each site exactly the six cells around it on the torus, at distances within 0.003 of 1. This only needs np.linalg.inv to invert the lattice vectors up to a relative error of 2^-44, which Gauss-Jordan elimination with partial pivoting does.", "quantifier": "all sides from 3 to 2^20, every inversion routine of this accuracy", "why_tests_cant": "the side sqrt(3)/2 is not a float, the matrix is oblique and the errors depend on the size; the tests use one small tiling", "anchors": ["src/pylattica/structures/honeycomb/structure_builders.py:HoneycombTilingBuilder", "src/pylattica/structures/honeycomb/neighborhoods.py:HoneycombNeighborhoodBuilder", "src/pylattica/core/lattice.py:Lattice"]}
{"id": "C97", "title": "grow gives the same kind of result in floating point", "statement": "In IEEE binary64, GrowthSetup(phase_set, dim).grow(size, n, bg, amounts, builder, buffer) in 2D or 3D, with the default neighbourhood or a Moore or von Neumann builder of radius r, either raises RuntimeError because the nuclei do not fit, or returns a simulation in which every site has the background phase or one of the given phases and exactly the cells within r*size of one of n nuclei, placed with the buffer between them, are occupied. With at least one nucleus and the default neighbourhood no background is left.", "quantifier": "every dimension 2 or 3, size and radius up to 2^20, number of nuclei, amounts, buffer, builder, random choices and worker schedule", "why_tests_cant": "rounding depends on the size; the tests use one small grid", "anchors": ["src/pylattica/structures/square_grid/growth_setup.py:GrowthSetup.grow", "src/pylattica/structures/square_grid/grid_setup.py:DiscreteGridSetup.setup_random_sites", "src/pylattica/models/growth/growth_controller.py:GrowthController"]}
{"id": "C98", "title": "grow leaves no background with von Neumann neighbourhoods", "statement": "GrowthSetup(phase_set, dim).grow(size, n, bg, amounts, builder) with a von Neumann builder of radius at least 1 and at least one nucleus leaves no site in the background phase.", "quantifier": "every dimension 2 or 3, size, radius, number of nuclei, amounts, random choices and worker schedule", "why_tests_cant": "the number of steps equals the size, which suffices in 2D but not in 3D; the tests only use Moore neighbourhoods", "anchors": ["src/pylattica/structures/square_grid/growth_setup.py:GrowthSetup.grow", "src/pylattica/structures/square_grid/neighborhoods.py:VonNeumannNbHood3DBuilder"]}
{"id": "C99", "title": "Starting states come out the same in floating point", "statement": "On 2D and 3D grids built in IEEE binary64, setup_interface gives the first phase to exactly the cells with x below half the first size rounded down; setup_coords gives each listed cell the last phase listed for it and the background to all others; setup_noise draws from the list; add_particle_to_state, setup_particle and setup_random_particles give the particle phase to exactly the cells whose distance from the centre is below the radius.", "quantifier": "every 2D and 3D grid with sides up to 2^20, phase, coordinate list, radius and random draws", "why_tests_cant": "distances are rounded before they are compared with the radius; the tests use a few radii", "anchors": ["src/pylattica/structures/square_grid/grid_setup.py:DiscreteGridSetup.setup_interface", "src/pylattica/structures/square_grid/grid_setup.py:DiscreteGridSetup.setup_particle", "src/pylattica/structures/square_grid/grid_setup.py:DiscreteGridSetup.setup_random_particles", "src/pylattica/structures/square_grid/grid_setup.py:DiscreteGridSetup.add_particle_to_state", "src/pylattica/structures/square_grid/grid_setup.py:DiscreteGridSetup.setup_coords"]}
{"id": "C100", "title": "Structures and simulations survive serialisation in floating point", "statement": "In IEEE binary64, for a grid of the square_grid package or any axis-aligned structure with one site per cell, PeriodicStructure.from_dict(s.as_dict()) and Simulation.from_dict(sim.as_dict()) give back the same lattice, the same site ids in the same order with the same classes and locations, the same answer of id_at for every location, and the same state.", "quantifier": "every dimension, choice of open sides, side up to 2^20, position of the site in the cell (in thousandths) and state", "why_tests_cant": "reloading moves each site back into the cell and rounds again; the tests reload one small structure", "anchors": ["src/pylattica/core/periodic_structure.py:PeriodicStructure.from_dict", "src/pylattica/core/periodic_structure.py:PeriodicStructure.as_dict", "src/pylattica/core/simulation.py:Simulation.from_dict", "src/pylattica/core/simulation.py:Simulation.as_dict"]}
{"id": "C101", "title": "Notebooks show the steps of a result in order", "statement": "ResultArtist.jupyter_play displays one picture per step, for the steps 0 to len(result) - 1 in order, each labelled with its number, clearing the output before and waiting after it; each is the picture that jupyter_show_step(n) displays. A step at or beyond len(result) raises. StructureArtist.save_img writes the same picture to the file that jupyter_show displays, changes no other file and returns the file name.", "quantifier": "every artist, result, cell size, waiting time, state and file", "why_tests_cant": "the notebook functions are excluded from the tests (pragma: no cover)", "anchors": ["src/pylattica/visualization/result_artist.py:ResultArtist.jupyter_play", "src/pylattica/visualization/result_artist.py:ResultArtist.jupyter_show_step", "src/pylattica/visualization/structure_artist.py:StructureArtist.save_img", "src/pylattica/visualization/structure_artist.py:StructureArtist.jupyter_show"]}
{"id": "C102", "title": "Grids are drawn the same way in floating point", "statement": "In IEEE binary64, the picture of a 2D square grid at most as wide as high shows each cell as a square of cell_size pixels in the colour of its phase, at its place counted from the lower left corner, next to a white border and a legend of the phases in alphabetical order; a label only changes its own pixels; frame k of to_gif shows step k*draw_freq. Grids that are wider than high lose cells under the border or raise IndexError. SquareGridArtist3D marks each cell of a cube in the colour of its phase and nothing else; with shell_only only the cells with y = 0, the others grey; boxes with a side longer than the rounded cube root of the number of sites raise IndexError.", "quantifier": "every grid with sides up to 2^20, cell size up to 2^30, artist, state, label and result", "why_tests_cant": "pixel positions are computed from floats and truncated; the tests draw one small grid", "anchors": ["src/pylattica/visualization/square_grid_artist_2D.py:SquareGridArtist2D._draw_image", "src/pylattica/visualization/square_grid_artist_3D.py:SquareGridArtist3D._draw_image", "src/pylattica/visualization/result_artist.py:ResultArtist.to_gif"]}
{"id": "C103", "title": "Phase fractions in floating point are exact enough to count with", "statement": "In IEEE binary64, DiscreteStepAnalyzer.cell_fraction is between 0 and 1 and within 2^-54 of the exact share; it is 0 exactly if no site has the phase and 1 exactly if all have it, and two fractions of a state compare like the numbers of sites. The fractions of the phases present add up to 1 within 2^-54 for each phase. cell_ratio is the rounded quotient of the counts, or ZeroDivisionError if the second phase is absent. final_phase_fractions and plot_phase_fractions give these fractions, and the plot shows exactly the phases whose rounded fraction exceeds min_prevalence at a plotted step.", "quantifier": "every state with fewer than 2^53 sites, phase, result and threshold", "why_tests_cant": "all counts and sizes; rounding could make a small fraction 0 or a large one 1", "anchors": ["src/pylattica/discrete/discrete_step_analyzer.py:DiscreteStepAnalyzer.cell_fraction", "src/pylattica/discrete/discrete_step_analyzer.py:DiscreteStepAnalyzer.cell_ratio", "src/pylattica/discrete/discrete_state_result_analyzer.py:DiscreteResultAnalyzer.final_phase_fractions", "src/pylattica/discrete/discrete_state_result_analyzer.py:DiscreteResultAnalyzer.plot_phase_fractions"]}
{"id": "C104", "title": "Artists of every kind are drawn in their own colours with their own legend", "statement": "The picture of a 2D grid at most as wide as high shows each cell in the colour that the artist's get_color_from_cell_state gives to the cell's state, and a swatch for each entry of its get_legend, sorted by label, in that entry's colour. A DiscreteCellArtist colours the values under its state_key, which may be anything hashable, by its color_map, values not in the map black; a legend given to it is used as it is, otherwise the legend has each label once. An artist that inherits get_legend shows each label in the colour of the first site that has it.", "quantifier": "every artist, 2D grid, cell size, state, colour map, state_key and legend", "why_tests_cant": "users write their own artists and state keys; the tests only draw phases under the default key", "anchors": ["src/pylattica/visualization/cell_artist.py:CellArtist.get_legend", "src/pylattica/visualization/cell_artist.py:DiscreteCellArtist", "src/pylattica/visualization/square_grid_artist_2D.py:SquareGridArtist2D._draw_image", "docs/guides/runners.ipynb"]}
{"id": "C105", "title": "Sharing objects between controller, state and result does no harm", "statement": "SynchronousRunner (serial) and AsynchronousRunner pass dictionaries around without copying them: a controller may return the same dictionary again and again, keep it, or return a dictionary it found in the state, and the runner stores it in the state and in the result. As long as the controller does not itself modify objects that exist and does not hand out the state's own two dictionaries, the run returns exactly the result and output it would return if every value were copied at every step, or raises the same exception, and no object that existed before the run is changed.", "quantifier": "every controller with that discipline (with or without state of its own), initial state, number of steps and initial sharing between objects", "why_tests_cant": "sharing shows only when a later step changes an object that an earlier step still refers to; tests compare values of a few runs", "anchors": ["src/pylattica/core/runner/synchronous_runner.py:SynchronousRunner._run", "src/pylattica/core/runner/asynchronous_runner.py:AsynchronousRunner._run", "src/pylattica/core/runner/common.py:merge_updates", "src/pylattica/core/simulation_state.py:SimulationState.batch_update"]}
{"id": "C106", "title": "Fractional coordinates are wrapped into the cell and subtracted along the shortest way", "statement": "periodize(f, periodic) adds a whole number to each coordinate along a periodic axis such that it lies in [0, 1), and leaves the other coordinates; one flag stands for all axes. pbc_diff_frac_vec(f1, f2, periodic) is, along each periodic axis, the difference to the nearest image (at most 1/2), and the plain difference along the others; swapping f1 and f2 negates it. Flags of another length than the coordinates raise ValueError unless one of the lengths is 1. The same holds in IEEE binary64 up to rounding.", "quantifier": "every dimension, coordinates and flags; in binary64 all numbers below 2^997", "why_tests_cant": "rounding near whole numbers and at exact halves; the tests use a few vectors", "anchors": ["src/pylattica/core/lattice.py:periodize", "src/pylattica/core/lattice.py:pbc_diff_frac_vec"]}
{"id": "C107", "title": "The named life-like variants behave as they are known to", "statement": "GameOfLifeController with the variants Life, Maze, Anneal, Diamoeba and Seeds follows the rules of these names (cells are born with 3; 3; 4, 6, 7 or 8; 3 or 5 to 8; 2 living neighbours and stay alive with 2 or 3; 1 to 5; 3 or 5 to 8; 5 to 8; none). Hence in Seeds no cell lives in two consecutive steps, Anneal treats living and dead cells alike (exchanging them at the start exchanges them in every step), an empty grid stays empty in all five, and a full grid stays full in Anneal and Diamoeba and is empty after one step in the others. Serial and parallel runs agree on this.", "quantifier": "every 2D grid with sides from 3, initial pattern, number of steps, random choices and worker schedule", "why_tests_cant": "the tests run each variant for a few steps without looking at the cells", "anchors": ["src/pylattica/models/game_of_life/controller.py:Life", "src/pylattica/models/game_of_life/controller.py:Seeds", "src/pylattica/models/game_of_life/controller.py:Anneal", "src/pylattica/models/game_of_life/controller.py:GameOfLifeController.get_state_update"]}
{"id": "C108", "title": "A call that raises leaves behind only what it had done before", "statement": "If SimulationState.batch_update raises (an entry is not a dictionary), the state shows exactly the entries for sites that stand before the failing one, completely and in order, and no other object is changed; a batch that is no dictionary changes nothing. If SimulationResult.load_steps raises, exactly the steps at multiples of the interval before the failing one are cached besides the initial state and what was cached before, and later get_step calls are right (C07); with interval 0 only the initial state is added to the cache. get_step, and runs of SynchronousRunner (serial) and AsynchronousRunner, leave the initial state and all objects that existed before as they were even if the controller or an update makes them raise.", "quantifier": "every state, batch, result, interval and step number, and every controller that only makes new objects, whichever call raises and whenever", "why_tests_cant": "tests stop at the exception; what is left behind shows only when the objects are used afterwards", "anchors": ["src/pylattica/core/simulation_state.py:SimulationState.batch_update", "src/pylattica/core/simulation_result.py:SimulationResult.load_steps", "src/pylattica/core/simulation_result.py:SimulationResult.get_step", "src/pylattica/core/runner/synchronous_runner.py:SynchronousRunner._run", "src/pylattica/core/runner/asynchronous_runner.py:AsynchronousRunner._run"]}
{"id": "C109", "title": "Controllers are consulted in a fixed order, each call finding them as the last one left them", "statement": "A serial synchronous run calls pre_run once on the initial state and then get_state_update exactly once for every site of every step, in site order and always on the step before; each site gets the answer that was made for it. An asynchronous run calls pre_run and get_random_site once, then get_state_update at the site that has been pending longest, on the current step, and get_random_site again exactly when nothing is pending. In a parallel run every worker has its own controller and state: its controller is asked about the batches given to that worker, in order, and its state follows the updates sent along with these batches.", "quantifier": "every controller with hidden state (such as a random number generator), state, number of steps, schedule", "why_tests_cant": "the order of calls matters only for controllers with hidden state, e.g. seeded generators", "anchors": ["src/pylattica/core/runner/synchronous_runner.py:SynchronousRunner._run", "src/pylattica/core/runner/synchronous_runner.py:_step_batch", "src/pylattica/core/runner/asynchronous_runner.py:AsynchronousRunner._run"]}
{"id": "C110", "title": "Asynchronous Game of Life changes one drawn cell at a time", "statement": "An asynchronous run of GameOfLifeController on any 2D grid performs exactly num_steps steps; each draws one cell, gives it the value that the variant's rule gives for its current distinct living neighbours, and leaves every other cell as it was. On grids with sides from 3 this is the rule on the periodic plane, so a pattern that the rule leaves alone stays for ever, whichever cells are drawn.", "quantifier": "every 2D grid, initial pattern, variant, number of steps and sequence of draws", "why_tests_cant": "every sequence of random cells; the tests only run the synchronous runner", "anchors": ["src/pylattica/models/game_of_life/controller.py:GameOfLifeController", "src/pylattica/core/runner/asynchronous_runner.py:AsynchronousRunner._run", "src/pylattica/core/basic_controller.py:BasicController.get_random_site"]}
{"id": "C111", "title": "Rules raise on states in which a site they look at is missing", "statement": "GrowthController and GameOfLifeController raise TypeError for a site that the state does not have, or as soon as they reach a neighbour that it does not have, and KeyError if that site has no phase. Growth at an occupied site looks at no neighbour. Life looks at the neighbours before the site, counts those with exactly the value alive, and makes a cell alive only if it is alive with a surviving count or dead with a bearing count, so other values become dead. Before pre_run life raises AttributeError. A serial or parallel Game of Life run on a state that covers some but not all cells of its grid raises TypeError.", "quantifier": "every state, site, neighbourhood and order of neighbours", "why_tests_cant": "incomplete states are never tested", "anchors": ["src/pylattica/models/growth/growth_controller.py:GrowthController.get_state_update", "src/pylattica/models/game_of_life/controller.py:GameOfLifeController.get_state_update"]}
{"id": "C112", "title": "States compare equal exactly if they show the same", "statement": "state1 == state2 holds exactly if both have the same sites, the same keys with equal values for every site and in the general state, irrespective of the order in which sites and keys were added (nested dictionaries likewise; lists and tuples element by element). It is reflexive, symmetric and transitive. set_site_state leaves a state equal to what it was exactly if the site exists and already has these values, and updates of different sites can be exchanged.", "quantifier": "every pair of states and every update", "why_tests_cant": "all orders of insertion and nested values; the tests compare a few states", "anchors": ["src/pylattica/core/simulation_state.py:SimulationState.__eq__", "src/pylattica/core/simulation_state.py:SimulationState.set_site_state"]}
{"id": "C113", "title": "Nuclei are the first drawn sites that are far enough from those taken before", "statement": "setup_random_sites tries the sites it draws in order and takes each unless it was taken already or lies within the buffer (Moore distance on the torus) of one taken before. If fewer than n are taken in the first 1000 n + 1 draws it raises RuntimeError; otherwise exactly the first n taken are nuclei, and they get their phases in turn: in round k (0, 1, ...) each phase whose share n * amount / total exceeds k comes once, in the order of the dictionary. grow raises RuntimeError in the same cases and otherwise fills the cells within reach of these nuclei. In binary64 the same holds with the shares as computed.", "quantifier": "every 2D or 3D grid, number of nuclei, ratios, buffer and sequence of draws", "why_tests_cant": "every sequence of random draws; tests only count the nuclei of some runs", "anchors": ["src/pylattica/structures/square_grid/grid_setup.py:DiscreteGridSetup.setup_random_sites", "src/pylattica/structures/square_grid/growth_setup.py:GrowthSetup.grow"]}
{"id": "C114", "title": "Nucleation fails exactly if the nuclei do not fit", "statement": "setup_random_sites raises RuntimeError exactly if no n sites of the grid are farther apart than the buffer.", "quantifier": "every 2D or 3D grid, number of nuclei, ratios, buffer and sequence of draws", "why_tests_cant": "every sequence of random draws", "anchors": ["src/pylattica/structures/square_grid/grid_setup.py:DiscreteGridSetup.setup_random_sites"]}
{"id": "C115", "title": "Quotients and cube roots of whole numbers come out exactly in floating point", "statement": "For fewer than 2^53 sites and workers, math.ceil(num_sites / PROCESSES) is the smallest c with num_sites <= c * PROCESSES, although the division rounds. For results with fewer than 2^52 steps the spacing of the plotted steps is 1 up to 100 steps and otherwise the whole number nearest to len(result) / 100, the even one of two equally near. For cubes with sides n up to 2^17, round(state.size ** (1 / 3)) is n, whatever power function is used, if its relative error is at most 2^-20.", "quantifier": "every number of sites, workers and steps below the stated bounds, every accurate power function", "why_tests_cant": "rounding goes wrong for isolated large values, if at all", "anchors": ["src/pylattica/core/runner/synchronous_runner.py:SynchronousRunner._run", "src/pylattica/discrete/discrete_state_result_analyzer.py:DiscreteResultAnalyzer._get_steps_to_plot", "src/pylattica/visualization/square_grid_artist_3D.py:SquareGridArtist3D._draw_image"]}
{"id": "C116", "title": "Growth on honeycombs fills hexagons", "statement": "On an n by m honeycomb (both at least 3), with HoneycombNeighborhoodBuilder, a serial or parallel run of GrowthController performs all its steps, and after t steps exactly those cells are occupied that lie within t hexagonal steps (on the torus) of an initially occupied cell. Offsets (a, b) are as many steps apart as the largest of |a|, |b| and |a + b|. So once any cell is occupied, all cells are after n // 2 + m // 2 steps. The hexagons also arise if a side is 1 or both are 2. The same hexagons arise with all distances computed in binary64 (sides up to 2^20).", "quantifier": "every honeycomb with sides from 3, initial state, background phase, number of steps, workers, order of neighbours and choice among ties", "why_tests_cant": "all sizes and shapes; growth on honeycombs is never tested", "anchors": ["src/pylattica/models/growth/growth_controller.py:GrowthController.get_state_update", "src/pylattica/structures/honeycomb/neighborhoods.py:HoneycombNeighborhoodBuilder", "src/pylattica/structures/honeycomb/structure_builders.py:HoneycombTilingBuilder"]}
{"id": "C117", "title": "Every cell of a honeycomb is found at its centre and all its images, and honeycombs reload as they were", "statement": "Over exact arithmetic, HoneycombTilingBuilder builds n by m cells for all n, m from 1 on: n*m sites of class A. site_at finds at every centre (i, j), also outside the box, the site with id (i mod n) * m + (j mod m), whose location is the centre in the box rounded to three decimals; a site is only found at points within 1/1000 of a centre. from_dict of as_dict gives back the structure, and a Simulation on it, itself. state_at reads the state of that site.", "quantifier": "all n, m >= 1, all integers i, j, all points, all states", "why_tests_cant": "infinitely many sizes and points; the tests build one honeycomb", "anchors": ["src/pylattica/structures/honeycomb/structure_builders.py:HoneycombTilingBuilder", "src/pylattica/core/periodic_structure.py:PeriodicStructure.site_at", "src/pylattica/core/periodic_structure.py:PeriodicStructure.from_dict", "src/pylattica/core/simulation.py:Simulation.state_at"]}
{"id": "C118", "title": "On honeycombs of every size the neighbours are the cells across an edge", "statement": "For all n, m >= 1 (exact arithmetic) HoneycombNeighborhoodBuilder makes the neighbours of each cell of an n by m honeycomb exactly the cells sharing an edge with it on the torus, other than itself.", "quantifier": "all n, m >= 1 and all cells", "why_tests_cant": "infinitely many sizes; the tests use one", "anchors": ["src/pylattica/structures/honeycomb/neighborhoods.py:HoneycombNeighborhoodBuilder", "src/pylattica/core/neighborhood_builders.py:DistanceNeighborhoodBuilder.get_neighbors"]}
{"id": "C119", "title": "Honeycombs survive being written out and read back in floating point", "statement": "Take an n by m honeycomb built with binary64 numbers (sides 3 to 2^20). PeriodicStructure.from_dict(as_dict) succeeds and gives a structure with the same lattice, dimension and ids, whose sites have the same classes and, as numbers, the same locations; in it id_at finds every site at its stored location, and HoneycombNeighborhoodBuilder gives the same six neighbours as before. Writing that out and reading it back once more gives the same sites and the same answers of id_at at all points. A Simulation comes back with its state and this structure.", "quantifier": "all sides from 3 to 2^20, all points looked up, all JSON-able states", "why_tests_cant": "sizes up to 2^40 cells and all points; rounding errors depend on the size; no test reloads a honeycomb", "anchors": ["src/pylattica/core/periodic_structure.py:PeriodicStructure.from_dict", "src/pylattica/core/periodic_structure.py:PeriodicStructure.as_dict", "src/pylattica/structures/honeycomb/structure_builders.py:HoneycombTilingBuilder", "src/pylattica/core/simulation.py:Simulation.from_dict"]}
{"id": "C120", "title": "Asynchronous growth on honeycombs", "statement": "On an n by m honeycomb (both sides at least 3, or one of them 1, or both 2), with HoneycombNeighborhoodBuilder, an asynchronous run of GrowthController performs all its steps. After t steps a cell is occupied exactly if the randomly drawn sites contain, in this order, the cells of some path from an initially occupied cell to it, each cell of the path sharing an edge with the one before; so it lies within t hexagonal steps of an initially occupied cell. If every site is drawn again and again and some cell is occupied, all cells are occupied from some number of steps on. The same holds with distances computed in binary64 (sides 3 to 2^20).", "quantifier": "every such honeycomb, initial state, background phase, sequence of draws, number of steps, order of neighbours", "why_tests_cant": "all sequences of random draws and all sizes; never tested", "anchors": ["src/pylattica/models/growth/growth_controller.py:GrowthController.get_state_update", "src/pylattica/core/runner/asynchronous_runner.py:AsynchronousRunner", "src/pylattica/structures/honeycomb/neighborhoods.py:HoneycombNeighborhoodBuilder"]}
{"id": "C121", "title": "Square-grid neighbourhoods cannot be built on honeycombs", "statement": "For an n by m honeycomb, every motif containing an offset one up or one down fails to become a neighbourhood: nb_builder.get raises TypeError (a site without a partner is None). So MooreNbHoodBuilder and VonNeumannNbHood2DBuilder with every distance from 1 raise, GrowthController without an explicit builder cannot be constructed, and GameOfLifeController raises in pre_run, before any step, under the serial, asynchronous and parallel runners. In exact arithmetic for all n, m >= 1; in binary64 for sides 3 to 2^20.", "quantifier": "all sizes of honeycomb, all distances, all motifs with such an offset, all variants of life, states, workers and schedules", "why_tests_cant": "infinitely many sizes; whether a point happens to be a centre depends on how multiples of sqrt(3)/2 round", "anchors": ["src/pylattica/core/neighborhood_builders.py:MotifNeighborhoodBuilder.get_neighbors", "src/pylattica/core/neighborhood_builders.py:NeighborhoodBuilder.get", "src/pylattica/models/growth/growth_controller.py:GrowthController.__init__", "src/pylattica/models/game_of_life/controller.py:GameOfLifeController.pre_run"]}
{"id": "C122", "title": "Growth with neighbourhoods drawn anew stays between the von Neumann and the Moore ball", "statement": "PseudoHexagonal neighbourhoods are drawn anew at every site and step. Under serial and parallel growth on a square grid, whatever is drawn, after t steps every cell within t of an initially occupied cell in the sum metric is occupied, and every occupied cell is within t of one in the maximum metric. With pseudo-pentagonal neighbourhoods occupied cells stay occupied and the upper bound holds. So the two-dimensional grow with the pseudo-hexagonal builder either raises RuntimeError or returns a state without background, in which every phase is one of the requested ones. More generally, growth stays between the balls of any relations between which the neighbourhoods lie.", "quantifier": "all sizes, initial states, numbers of steps, draws, set orders, workers and schedules", "why_tests_cant": "every site draws its neighbourhood at every step, so there are exponentially many executions even on a small grid", "anchors": ["src/pylattica/structures/square_grid/neighborhoods.py:PseudoHexagonalNeighborhoodBuilder2D", "src/pylattica/structures/square_grid/neighborhoods.py:PseudoHexagonalNeighborhoodBuilder3D", "src/pylattica/structures/square_grid/neighborhoods.py:PseudoPentagonalNeighborhoodBuilder", "src/pylattica/core/neighborhoods.py:StochasticNeighborhood", "src/pylattica/models/growth/growth_controller.py:GrowthController.get_state_update", "src/pylattica/structures/square_grid/growth_setup.py:GrowthSetup.grow"]}
{"id": "C123", "title": "Drawn neighbourhoods and growth with them on binary64 grids", "statement": "On the library's square grids built in binary64, with sides 1 to 2^20: if no side m falls short (float m * (1 / m) not below 1), the pseudo-hexagonal builders (2D, 3D) and the pseudo-pentagonal builder give neighbourhoods that draw exactly the shapes of the exact model at every call, each shape being possible; and growth with them, serial or parallel, satisfies the same bounds as in exact arithmetic: with pseudo-hexagonal neighbourhoods the occupied region after t steps lies between the von Neumann and the Moore balls of radius t around the initially occupied cells, with pseudo-pentagonal ones occupied cells stay occupied and the region lies within the Moore ball. If some side falls short (49, say) building the neighbourhood raises TypeError. The two-dimensional grow with the pseudo-hexagonal builder accordingly raises RuntimeError or returns a state without background if size does not fall short, and raises RuntimeError or TypeError if it does.", "quantifier": "all sides up to 2^20, initial states, steps, draws, set orders, workers, schedules and summation orders", "why_tests_cant": "which sides fall short depends on the rounding of 1 / m and of m times it; draws differ at every site and step", "anchors": ["src/pylattica/structures/square_grid/neighborhoods.py:PseudoHexagonalNeighborhoodBuilder2D", "src/pylattica/structures/square_grid/neighborhoods.py:PseudoHexagonalNeighborhoodBuilder3D", "src/pylattica/structures/square_grid/neighborhoods.py:PseudoPentagonalNeighborhoodBuilder", "src/pylattica/core/neighborhood_builders.py:StochasticNeighborhoodBuilder", "src/pylattica/core/lattice.py:Lattice.get_periodized_cartesian_coords", "src/pylattica/structures/square_grid/growth_setup.py:GrowthSetup.grow"]}
{"id": "C124", "title": "Asynchronous growth with any neighbourhood, drawn anew or not", "statement": "Asynchronous growth on sites 0 .. m-1 with any neighbourhood that has neighbours within the sites, including one that is drawn anew at every visit: after t steps a site is occupied exactly if it was occupied at the start or it was the site drawn at some step k < t while one of the neighbours drawn at that visit was already reached before step k (the site drawn at step k being draw number c0 + 2k modulo m). If every neighbourhood that can be drawn lies between two relations, a walk along the smaller relation whose sites were drawn in order from an occupied site occupies its end, and every occupied site is the end of such a walk along the larger. With the pseudo-hexagonal builders on square grids, exact or binary64 with sides up to 2^20 that do not fall short, the relations are: within 1 in the sum of the offsets (von Neumann), and within 1 in every offset (Moore).", "quantifier": "all neighbourhoods, phase states, steps, draws of sites and of neighbourhoods, set orders, grid sizes", "why_tests_cant": "the site visited and the neighbourhood it has are both drawn at every step; the order of draws decides everything", "anchors": ["src/pylattica/core/runner/asynchronous_runner.py:AsynchronousRunner", "src/pylattica/models/growth/growth_controller.py:GrowthController", "src/pylattica/core/basic_controller.py:BasicController.get_random_site", "src/pylattica/core/neighborhoods.py:StochasticNeighborhood", "src/pylattica/structures/square_grid/neighborhoods.py:PseudoHexagonalNeighborhoodBuilder2D", "src/pylattica/structures/square_grid/neighborhoods.py:PseudoHexagonalNeighborhoodBuilder3D"]}
{"id": "C125", "title": "Asynchronous growth with pseudo-pentagonal neighbourhoods, which can stall", "statement": "On two-dimensional square grids (exact, or binary64 with sides up to 2^20 that do not fall short) asynchronous growth with the pseudo-pentagonal builder never raises, occupied cells stay occupied, and every occupied cell is the end of a walk of Moore steps from an initially occupied cell whose cells were drawn in order.  No lower bound on growth holds: if both sides are at least 3 and one cell is occupied at the start, then for every sequence of drawn sites and every number of steps there are legal draws of neighbourhoods under which no other cell is ever occupied.", "quantifier": "all sizes, phase states, nuclei, steps, draws of sites and of neighbourhoods, set orders", "why_tests_cant": "every neighbourhood drawn leaves out three of the eight cells around, and a run in which the nucleus is always left out is never seen in tests", "anchors": ["src/pylattica/structures/square_grid/neighborhoods.py:PseudoPentagonalNeighborhoodBuilder", "src/pylattica/core/neighborhoods.py:StochasticNeighborhood", "src/pylattica/models/growth/growth_controller.py:GrowthController", "src/pylattica/core/runner/asynchronous_runner.py:AsynchronousRunner"]}
{"id": "C126", "title": "Serial growth draws a neighbourhood for every site of every step, in order", "statement": "In a serial run of growth with any neighbourhood, drawn anew or not, on states whose dictionaries have no repeated keys: the k-th site of the state is updated at step t with the neighbourhood drawn at call number c0 + t * (number of sites) + k.  An occupied site keeps its phase; an empty one stays empty if all neighbours of that draw are empty, and otherwise takes a phase with the greatest count among them.  On square grids with sides at least 3 (exact, or binary64 with sides up to 2^20 that do not fall short), with pseudo-pentagonal neighbourhoods and one nucleus, there are legal draws for which the nucleus is still alone after any number of steps.", "quantifier": "all neighbourhoods, states, draws, set orders, steps and sizes", "why_tests_cant": "the draw a site gets depends on how many calls were made before it, over all earlier steps", "anchors": ["src/pylattica/core/runner/synchronous_runner.py:SynchronousRunner", "src/pylattica/models/growth/growth_controller.py:GrowthController.get_state_update", "src/pylattica/core/neighborhoods.py:StochasticNeighborhood", "src/pylattica/structures/square_grid/neighborhoods.py:PseudoPentagonalNeighborhoodBuilder"]}
{"id": "C127", "title": "Searching and counting in states whose dictionaries are malformed", "statement": "get_sites_where_equal and get_site_count_where_equal without a structure look up the id stored in each dictionary: if every stored id names a site, the ids returned are those of the named sites that have the asked entries (a missing entry counts as None), in order.  Otherwise the first dictionary that fails decides: KeyError if it has no id, TypeError if the id is a list or dictionary, AttributeError if the id is None or names no site and some entry is asked for.  phases_present and phase_count raise KeyError if some site has no occupancy, TypeError if all have one and some occupancy is unhashable, and succeed otherwise.", "quantifier": "all states, search pairs, site classes and set orders", "why_tests_cant": "tests only analyze well-formed states", "anchors": ["src/pylattica/core/analyzer.py:StateAnalyzer.get_sites_where_equal", "src/pylattica/core/analyzer.py:StateAnalyzer.get_site_count_where_equal", "src/pylattica/discrete/discrete_step_analyzer.py:DiscreteStepAnalyzer.phases_present", "src/pylattica/discrete/discrete_step_analyzer.py:DiscreteStepAnalyzer.phase_count"]}
{"id": "C128", "title": "Malformed updates and batches raise the stated exceptions", "statement": "merge_updates raises TypeError for a number or truth value, and for a SITES or GENERAL entry that is None, a number or a truth value while the collected updates are sound; KeyError or AttributeError if the collected updates lack the SITES or GENERAL entry or it is no dictionary; TypeError if they are neither None nor a dictionary and the update is one that is merged; ValueError for an update without SITES and GENERAL that is empty or has a string key when no site id is given.  batch_update raises TypeError for None, numbers and truth values, for site entries and general entries that are no dictionaries, AttributeError if GENERAL is present and SITES is no dictionary, and accepts every other batch.", "quantifier": "all states, updates, collected updates and batches", "why_tests_cant": "tests pass only well-formed updates", "anchors": ["src/pylattica/core/runner/common.py:merge_updates", "src/pylattica/core/simulation_state.py:SimulationState.batch_update"]}
{"id": "C129", "title": "Reloading malformed dictionaries raises the stated exceptions", "statement": "SimulationResult.from_dict raises TypeError for anything but a dictionary, KeyError if the diffs or the initial state are missing, whatever loading the initial state raises, TypeError if the diffs are None, a truth value or a number, AttributeError if they are a dictionary or string that is not empty, and for a list or tuple of diffs fails at the first bad diff: AttributeError if it is no dictionary, ValueError if a key other than GENERAL is an empty string or contains a letter.  If the keys of all diffs other than GENERAL are integers or strings of digits, maybe behind a minus sign, reloading succeeds.  SimulationState.from_dict raises TypeError unless it gets a dictionary whose state is one, KeyError if the state or its SITES are missing, AttributeError if SITES is no dictionary, ValueError if a site key is empty or contains a letter.", "quantifier": "all values", "why_tests_cant": "tests reload only what they saved", "anchors": ["src/pylattica/core/simulation_result.py:SimulationResult.from_dict", "src/pylattica/core/simulation_state.py:SimulationState.from_dict"]}
{"id": "C130", "title": "Runs depend on controllers only through the answers of their methods", "statement": "If from related hidden states the methods of two controllers always give the same answers or raise the same exceptions and leave related hidden states, then serial, asynchronous and parallel runs with the two are equal, results, live states and exceptions included.  In particular growth with a stochastic neighbourhood whose draws always pick the same member gives the same runs as growth with that member.", "quantifier": "all pairs of controllers, relations between hidden states, states, steps, processes and schedules", "why_tests_cant": "two controllers can only be compared on single runs by tests", "anchors": ["src/pylattica/core/runner/synchronous_runner.py:SynchronousRunner", "src/pylattica/core/runner/asynchronous_runner.py:AsynchronousRunner", "src/pylattica/core/basic_controller.py:BasicController", "src/pylattica/core/neighborhoods.py:StochasticNeighborhood"]}
{"id": "C131", "title": "Pseudo-hexagonal growth makes hexagons when the same diagonal is always drawn", "statement": "On square grids of two or three dimensions, if the draws always pick the k-th member of the pseudo-hexagonal neighbourhood, then after t steps of serial or parallel growth a cell is occupied exactly if an initially occupied cell lies at an offset made of t unit steps along the axes and along the k-th diagonal.  In the plane these are the offsets (x, y) with |x|, |y| and |x - y| at most t for the first member, and |x|, |y| and |x + y| at most t for the second.  On grids built in binary64 the same holds, unless the border of some axis falls short (C30), where the neighbourhood cannot be built.", "quantifier": "all sizes, initial states, steps, processes, schedules and set orders", "why_tests_cant": "the shape is only seen over many steps and with the draws fixed", "anchors": ["src/pylattica/structures/square_grid/neighborhoods.py:PseudoHexagonalNeighborhoodBuilder2D", "src/pylattica/structures/square_grid/neighborhoods.py:PseudoHexagonalNeighborhoodBuilder3D", "src/pylattica/models/growth/growth_controller.py:GrowthController", "src/pylattica/core/runner/synchronous_runner.py:SynchronousRunner"]}
{"id": "C132", "title": "What drawing raises", "statement": "A cell that the state does not know, one without a colour map and one whose value is unhashable raise TypeError, a cell without the drawn entry KeyError.  Making a colour map raises TypeError exactly if some phase is unhashable; the helper color_map does so for the first 70 phases and otherwise raises IndexError for more than 70.  Drawing a plane grid passes on what the legend raises, raises ValueError for negative cell sizes, gives an empty image for cell size 0, and on grids at most as wide as high passes on the exception of the first cell that has no colour.  The voxel artist never draws plane grids: it raises ValueError if the cells fit and IndexError otherwise.  With shell_only it raises IndexError exactly on boxes whose second or third side exceeds the cube root, and otherwise draws exactly the cells at y = 0.", "quantifier": "all artists, states, phases, sizes, cell sizes, label and glyph functions", "why_tests_cant": "exceptions depend on the order of sites and on sizes", "anchors": ["src/pylattica/visualization/cell_artist.py:DiscreteCellArtist", "src/pylattica/visualization/helpers.py:color_map", "src/pylattica/visualization/square_grid_artist_2D.py:SquareGridArtist2D", "src/pylattica/visualization/square_grid_artist_3D.py:SquareGridArtist3D"]}
{"id": "C133", "title": "What runs and neighbourhoods raise when controllers or builders misbehave", "statement": "Asynchronous runs of at least one step pass on what pre_run, get_random_site or the first update raise; they raise ValueError if the first answer is a tuple of another length than two, and TypeError if its update or its next sites are None or a number.  Serial synchronous runs pass on what pre_run raises and what the first failing site of the first step raises; an answer that is a number raises TypeError, and so does a step in which every site answers None.  Parallel runs pass on what pre_run raises and, if all failing sites of the first step raise the same, what they raise, whichever worker gets which batch; no processes raise ZeroDivisionError, a negative number of them and, for at least one step, a state without sites raise ValueError.  If every site answers None, one parallel step is accepted and its result cannot be loaded, and two steps raise TypeError.  Asking a stochastic or class-based builder for the neighbourhood of one class raises TypeError, also inside a class-based builder, and a stochastic neighbourhood without members raises IndexError when asked for neighbours.", "quantifier": "all controllers, hidden states, states, numbers of steps, structures and builders", "why_tests_cant": "tests use well-behaved controllers", "anchors": ["src/pylattica/core/runner/asynchronous_runner.py:AsynchronousRunner", "src/pylattica/core/runner/synchronous_runner.py:SynchronousRunner", "src/pylattica/core/neighborhood_builders.py:StochasticNeighborhoodBuilder", "src/pylattica/core/neighborhoods.py:StochasticNeighborhood"]}
{"id": "C134", "title": "What grid setups do with unusable dimensions and sizes", "statement": "For dimensions other than 2 and 3 every setup method raises AttributeError, and for a tuple of the wrong length ValueError.  A size with an entry of zero or less is accepted: the structure has no sites and interfaces, particles, noise and coordinate setups without coordinates give the empty state.  Random particles then raise ValueError if the first entry is zero, otherwise IndexError if there are no phases, and nucleation raises IndexError unless no nuclei are asked for.", "quantifier": "all dimensions, sizes, phases, radii, random choices and amounts", "why_tests_cant": "degenerate sizes are not tested", "anchors": ["src/pylattica/structures/square_grid/grid_setup.py:DiscreteGridSetup", "src/pylattica/core/structure_builder.py:StructureBuilder.build", "src/pylattica/core/periodic_structure.py:PeriodicStructure.build_from"]}
{"id": "C135", "title": "Runs of life-like automata, and of controllers without memory, repeat", "statement": "For every grid, variant and initial pattern of the Game of Life there are a first step and a period, together at most 2 to the number of cells, such that in every serial and every parallel run, however long, the step that comes one period after any step from the first one on shows the same pattern.  If a controller that keeps no memory is run serially and two steps are equal states, the steps that follow them are equal too.", "quantifier": "every grid, variant, pattern, number of steps, number of workers and schedule; every memoryless rule", "why_tests_cant": "the number of patterns is exponential in the number of cells", "anchors": ["src/pylattica/models/game_of_life/controller.py:GameOfLifeController", "src/pylattica/core/runner/synchronous_runner.py:SynchronousRunner"]}
{"id": "C136", "title": "Longer runs extend shorter ones, and runs can be split", "statement": "For every controller, a serial, parallel (same schedule of batches) or asynchronous run of m steps shows at every step of the run of n <= m steps the state that run shows, and raises whatever that run raises; an asynchronous run that recorded fewer steps than asked for is not changed by asking for more.  With a controller that keeps no memory a serial run of n + m steps is the run of n steps followed by the run of m steps from its output: same exception, same output, same states at every step.  The same holds for asynchronous runs of memoryless controllers that ask for one site at a time and name no sites to visit next; otherwise the sites still waiting are forgotten.  A parallel run of a rule that always assigns the same keys is continued by running, in parallel, from its last step (its output is the initial state).", "quantifier": "every controller, initial state, pair of step counts, number of workers and schedule; every memoryless rule", "why_tests_cant": "tests run a few fixed step counts", "anchors": ["src/pylattica/core/runner/synchronous_runner.py:SynchronousRunner", "src/pylattica/core/runner/asynchronous_runner.py:AsynchronousRunner", "src/pylattica/core/runner/base_runner.py:Runner.run"]}
{"id": "C137", "title": "Growth makes the background's fraction fall and the others rise", "statement": "In serial and asynchronous growth runs the fraction the analyzer reports for the background phase never rises from one step to a later one, and that of every other phase never falls; it can be had at every step.  In parallel runs the background's fraction never rises, but another phase can lose cells.  The same holds of the fractions computed in binary64 on grids of fewer than 2^53 cells.", "quantifier": "every neighbourhood, background, starting state, oracle, number of steps, pair of steps, phase, number of workers and schedule", "why_tests_cant": "tests look at final states only", "anchors": ["src/pylattica/models/growth/growth_controller.py:GrowthController", "src/pylattica/discrete/discrete_state_result_analyzer.py:DiscreteResultAnalyzer"]}
{"id": "C138", "title": "Growth comes to rest", "statement": "If the neighbourhood does not depend on draws, a serial growth run changes nothing any more after as many steps as there were background cells at the start, and once a step has changed nothing no later step changes anything.  The same holds of the cells left as background in parallel runs, for every number of workers and schedule.  With every neighbourhood, also one drawn anew, the steps of a serial or asynchronous run that change anything are at most as many as there were background cells at the start.", "quantifier": "every neighbourhood, background, starting state, number of steps, number of workers and schedule", "why_tests_cant": "a test stops after finitely many steps of a few grids", "anchors": ["src/pylattica/models/growth/growth_controller.py:GrowthController", "src/pylattica/core/runner/synchronous_runner.py:SynchronousRunner"]}
{"id": "C139", "title": "How runs of different life-like variants compare", "statement": "On grids at least three cells wide and high, in serial and parallel runs: variants that list the same neighbour counts behave the same, however the counts are ordered or repeated; if a count is one of birth in one variant exactly if its complement to eight is not one of survival in the other, and the other way round, exchanging living and dead cells turns runs of one variant into runs of the other; if more living neighbours never harm, patterns that contain others keep containing them; living cells never die if all counts survive and always die if none does, dead cells stay dead if no count gives birth and always come to life if all do.", "quantifier": "every pair of variants that parse, grid, pattern, number of steps, number of workers and schedule", "why_tests_cant": "tests run one variant on one pattern", "anchors": ["src/pylattica/models/game_of_life/controller.py:GameOfLifeController", "src/pylattica/core/runner/synchronous_runner.py:SynchronousRunner"]}
