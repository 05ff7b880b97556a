{
 "claims": [
  {
   "property": "C01",
   "status": "proved",
   "theorems": [
    "C01_parent_of_make_loc",
    "C01_name_of_make_loc",
    "C01_make_loc_injective",
    "C01_decompose"
   ],
   "note": "make_loc/parent_loc/name round trip and injectivity."
  },
  {
   "property": "C02",
   "status": "proved",
   "theorems": [
    "C02_get_is_walk",
    "C02_get_own_locator",
    "C02_locators_unique",
    "C02_get_terminates"
   ],
   "note": "Lookup equals the segment walk; own-locator lookup under consistent locators."
  },
  {
   "property": "C03",
   "status": "partial",
   "theorems": [
    "C03_create_last_registered",
    "C03_enumeration",
    "C03_enumeration_no_duplicates",
    "C03_unregister_frame",
    "C03_unregister_frame_refuted"
   ],
   "note": "Creation, enumeration and frame proved for all histories; the non-interference clause is false of the code (unregistering erases by key) and refuted with a witness."
  },
  {
   "property": "C04",
   "status": "partial",
   "theorems": [
    "C04_loaded_iff_history",
    "C04_load_failure_no_change",
    "C04_unload_failure_no_change",
    "C04_load_twice_noop",
    "C04_reference_counts",
    "C04_reference_counts_refuted",
    "C04_scope_guard_partial",
    "C04_scope_guard_refuted",
    "C04_scope_guard_preloaded_refuted",
    "C04_scope_guard_nested_refuted",
    "C04_directory_partial",
    "C04_directory_refuted"
   ],
   "note": "Bookkeeping and failure clauses proved for all histories; scope-guard and directory clauses are false of the code in general: refuted, with the conditions under which they hold proved."
  },
  {
   "property": "C05",
   "status": "partial",
   "theorems": [
    "C05_access_iff_initialized",
    "C05_at_most_one_alive",
    "C05_user_checked_calls",
    "C05_user_load_refuted",
    "C05_user_after_shutdown_refuted"
   ],
   "note": "Proved for every ContextInstance subsystem and the checked user calls; asset calls before init (null dereference) and after shutdown (accepted) are refuted."
  },
  {
   "property": "C06",
   "status": "partial",
   "theorems": [
    "C06_entries_exist",
    "C06_query",
    "C06_order",
    "C06_latest_load",
    "C06_never_loaded",
    "C06_positions_stable",
    "C06_invalid_name_rejected",
    "C06_failed_creation_unchanged",
    "C06_no_undefined_behaviour",
    "C06_last_successful_refuted",
    "C06_serialized_name_refuted"
   ],
   "note": "Asset group as an ordered map for every history: query, order, stability, rejection. The clauses 'last successfully loaded' and 'names are validated' are false of the code (a failed construct stays registered, load_serialized does not validate) and refuted."
  },
  {
   "property": "C07",
   "status": "partial",
   "theorems": [
    "C07_replace_leaves_no_stale_reference",
    "C07_new_asset_keeps_references",
    "C07_traversal_terminates",
    "C07_lookup_exception_refuted"
   ],
   "note": "After a successful replacement no reported reference seen from the root is stale and the old instance is released; proved for every heap and construct. Refuted when a name query of the new instance raises during the update."
  },
  {
   "property": "C08",
   "status": "partial",
   "theorems": [
    "C08_failed_creation_changes_nothing_partial",
    "C08_failed_construct_frame_partial",
    "C08_failed_construct_refuted",
    "C08_failed_construct_new_refuted"
   ],
   "note": "The property is false of the code: a failing construct leaves the half-constructed instance registered and the old one released (refuted with witnesses). Proved: loads failing before construction change nothing; a failing construct leaves all other components untouched."
  },
  {
   "property": "C09",
   "status": "proved",
   "theorems": [
    "C09_state_round_trip",
    "C09_unregistered_class_refuted"
   ],
   "note": "Byte-level round trip for every hierarchy, with deferred resolution of weak references; weak references must denote components owned by the saved hierarchy. Additional finding refuted: a class that is not registered when loading is dropped silently."
  },
  {
   "property": "C10",
   "status": "proved",
   "theorems": [
    "C10_round_trip",
    "C10_prefix_free",
    "C10_truncation_detected"
   ],
   "note": "Round trip, prefix-freeness and detection of truncation by induction over a universe of types."
  },
  {
   "property": "C11",
   "status": "partial",
   "theorems": [
    "C11_export_import",
    "C11_outside_reference_refused",
    "C11_sibling_prefix_refuted"
   ],
   "note": "Relocation proved for all hierarchies and surroundings; refusal proved for every reference whose locator does not begin with the asset's locator. A reference to a sibling whose name extends the asset's name is accepted: refuted."
  },
  {
   "property": "C12",
   "status": "partial",
   "theorems": [
    "C12_structures",
    "C12_survives_partial",
    "C12_alpha_refuted",
    "C12_volume_refuted",
    "C12_medium_refuted",
    "C12_color_refuted",
    "C12_seed_refuted",
    "C12_uninitialised_refuted",
    "C12_bidirectional_refuted",
    "C12_incomplete_refuted"
   ],
   "note": "C12_structures: every serialised structure reads back exactly what was written. C12_survives_partial: every component class whose archive lists all members its methods read behaves the same after saving and loading, for every state. Refuted for the classes listed in ClassSpec.incomplete (alpha of constant textures, constant volumes, medium albedo, scene medium, raycast colour, seeds and sampling modes, environment scale, all of the bidirectional renderers). The uninitialised flag of primitive nodes is assumed initialised. The byte format itself is C10."
  },
  {
   "property": "C13",
   "status": "partial",
   "theorems": [
    "C13_first_has_priority",
    "C13_empty_right",
    "C13_empty_left",
    "C13_associative",
    "C13_non_objects_rejected_partial",
    "C13_null",
    "C13_non_objects_rejected_refuted"
   ],
   "note": "Priority, identity and associativity proved as equalities of objects. Rejection of non-objects holds only with assertions compiled in; refuted for release builds."
  },
  {
   "property": "C14",
   "status": "partial",
   "theorems": [
    "C14_required",
    "C14_missing_reported",
    "C14_unconvertible_raises_partial",
    "C14_unconvertible_is_invalid_argument_refuted",
    "C14_default",
    "C14_optional",
    "C14_vector_round_trip",
    "C14_matrix_round_trip",
    "C14_wrong_length_rejected",
    "C14_component_reference",
    "C14_component_reference_reported",
    "C14_component_reference_or_null"
   ],
   "note": "Exact characterisation of every accessor over a universe of types, vectors and matrices of every size. The claimed error kind for unconvertible values is false (the JSON library's type_error escapes): refuted."
  },
  {
   "property": "C15",
   "status": "proved",
   "theorems": [
    "C15_atomic",
    "C15_exact",
    "C15_bad_reference_refuted",
    "C15_add_primitive_refuted"
   ],
   "note": "Atomicity without hypotheses; exact success and failure given that the locators can be looked up. Findings: bad references are dropped silently beside a good one; add_primitive leaves an orphan group behind on failure."
  },
  {
   "property": "C16",
   "status": "proved",
   "theorems": [
    "C16_well_formed",
    "C16_only_groups_have_children",
    "C16_imported_env_light_refuted"
   ],
   "note": "For every history of calls, models with nodes numbered by position. Finding: environment lights of imported models are not recorded."
  },
  {
   "property": "C17",
   "status": "proved",
   "theorems": [
    "C17_each_path_once",
    "C17_primitives",
    "C17_terminates",
    "C17_only_primitives_refuted"
   ],
   "note": "Calls correspond one to one, in order, to the paths from the root; traversal ends exactly on graphs without cycle or missing child. Finding: the visitor is called for groups too."
  },
  {
   "property": "C18",
   "status": "partial",
   "theorems": [
    "C18_sound_links_partial",
    "C18_missing_child_refuted",
    "C18_cycle_refuted"
   ],
   "note": "Preservation proved for links that are sound. The full claim is false: missing children and cycles are accepted without a message (refuted)."
  },
  {
   "property": "C19",
   "status": "proved",
   "theorems": [
    "C19_lights",
    "C19_index_of_last",
    "C19_lookup_inverse",
    "C19_instanced_lookup_refuted",
    "C19_selection_valid",
    "C19_selection_uniform",
    "C19_no_lights_refuted"
   ],
   "note": "Light list, lookup and selection. The lookup clause holds when no light node is reached twice and is refuted under instancing; without lights the selection gives index -1 and an infinite probability."
  },
  {
   "property": "C20",
   "status": "proved",
   "theorems": [
    "C20_import",
    "C20_import_nodes",
    "C20_add_child_from_model"
   ],
   "note": "Traversal of the copy is the relabelled traversal of the model, for all models without missing children; nodes one by one; primitives added below a group."
  },
  {
   "property": "C21",
   "status": "proved",
   "theorems": [
    "C21_each_pixel_sample_once",
    "C21_never_twice",
    "C21_time_based"
   ],
   "note": "For all image sizes, sample counts, thread counts and schedules of the loop machine; also runs that raise."
  },
  {
   "property": "C22",
   "status": "proved",
   "theorems": [
    "C22_consecutive",
    "C22_time_based"
   ],
   "note": "For all clock behaviours as an oracle, thread counts and schedules."
  },
  {
   "property": "C23",
   "status": "proved",
   "theorems": [
    "C23_each_once",
    "C23_at_most_once",
    "C23_rethrow",
    "C23_terminates",
    "C23_thread_count_refuted",
    "C23_thread_count"
   ],
   "note": "Small-step machine of the OpenMP loop; exactly once, at most once, rethrow, deadlock freedom and a bound on the number of moves. Finding: a negative thread count is accepted."
  },
  {
   "property": "C24",
   "status": "partial",
   "theorems": [
    "C24_monotone",
    "C24_first_loop_partial",
    "C24_every_loop_partial",
    "C24_second_loop_refuted"
   ],
   "note": "Monotone in every loop; bounded by the work done in the first loop of a process, and up to the counters left over in later loops. The full claim is false because the thread-local counter survives a loop (refuted)."
  },
  {
   "property": "C25",
   "status": "proved",
   "theorems": [
    "C25_no_splat_lost",
    "C25_no_splat_lost_any"
   ],
   "note": "CasModel.v: compare-and-swap loops with spurious failures, sequentially consistent interleaving, real arithmetic."
  },
  {
   "property": "C26",
   "status": "proved",
   "theorems": [
    "C26_atomic",
    "C26_atomic_always",
    "C26_lock_free"
   ],
   "note": "Linearizability of the pixel operations for any value type with a sound comparison, at every moment and at the end; lock-freedom."
  },
  {
   "property": "C27",
   "status": "proved",
   "theorems": [
    "C27_construct",
    "C27_set_pixel",
    "C27_splat_pixel",
    "C27_update_pixel",
    "C27_clear",
    "C27_rescale",
    "C27_accum",
    "C27_accum_mismatch",
    "C27_buffer",
    "C27_buffer_empty_refuted",
    "C27_export",
    "C27_flip",
    "C27_unchecked_refuted"
   ],
   "note": "One operation at a time (concurrency: C25, C26); rescale under every complete run of the parallel loop. Findings: the buffer of an empty film is undefined, coordinates are not checked. Overflow of w*h not modelled."
  },
  {
   "property": "C28",
   "status": "partial",
   "theorems": [
    "C28_in_film",
    "C28_defined",
    "C28_defined_refuted",
    "C28_contains",
    "C28_clamped",
    "C28_bijective",
    "C28_splat"
   ],
   "note": "Range, containment, clamping and bijectivity proved; 'for every raster position' is refuted for positions whose scaled coordinate does not fit an int (undefined conversion)."
  },
  {
   "property": "C29",
   "status": "proved",
   "theorems": [
    "C29_mean",
    "C29_any_order_refuted"
   ],
   "note": "Mean for samples fed in index order; other orders refuted (finding: a parallel scheduler may deliver index 1 before 0)."
  },
  {
   "property": "C30",
   "status": "partial",
   "theorems": [
    "C30_bytes",
    "C30_monotone",
    "C30_zero",
    "C30_one",
    "C30_value",
    "C30_range_refuted",
    "C30_sanity_partial",
    "C30_sanity_refuted",
    "C30_save"
   ],
   "note": "Byte range, monotonicity and end points for values in [0, 2^50]; refuted for negative and huge values (undefined conversion). Sanity check proved for the floats it inspects; refuted for the full image (it looks at w*h of 3*w*h floats, and its result is ignored by save)."
  },
  {
   "property": "C31",
   "status": "proved",
   "theorems": [
    "C31_probability",
    "C31_outside",
    "C31_sums_to_one",
    "C31_sample",
    "C31_interval",
    "C31_one_refuted",
    "C31_empty_refuted"
   ],
   "note": "Including the binary search of upper_bound. Findings: u = 1 may return an index of zero weight; sampling an empty distribution is undefined."
  },
  {
   "property": "C32",
   "status": "partial",
   "theorems": [
    "C32_sample",
    "C32_integral_partial",
    "C32_upper_edge",
    "C32_right_edge",
    "C32_zero_row_refuted",
    "C32_reinit_refuted"
   ],
   "note": "Sampling proved for all tables; integral proved when every row has positive weight. Refuted: the density in a zero-weight row is NaN (0/0), and a second init keeps the old marginal."
  },
  {
   "property": "C33",
   "status": "partial",
   "theorems": [
    "C33_merge",
    "C33_merge_point",
    "C33_merge_laws",
    "C33_neutral",
    "C33_neutral_refuted",
    "C33_conservative",
    "C33_exact_partial",
    "C33_exact_refuted",
    "C33_center",
    "C33_area"
   ],
   "note": "Least upper bounds, laws and conservativeness proved for all inputs, with infinities and NaN modelled. Refuted: the default box is neutral only up to 10^10. Exactness and the range proved except where a zero direction component meets an origin on a face, where it is refuted (NaN)."
  },
  {
   "property": "C34",
   "status": "proved",
   "theorems": [
    "C34_terminates",
    "C34_progress",
    "C34_completes",
    "C34_safe",
    "C34_tree",
    "C34_once",
    "C34_empty",
    "C34_no_workers_refuted"
   ],
   "note": "All schedules, any number of workers and triangles (up to the int range); sort is any permutation. Findings: zero workers (hardware_concurrency() = 0) build nothing (refuted variant); no triangles throw std::length_error; done is read without the lock (a data race in C++, modelled as sequentially consistent)."
  },
  {
   "property": "C35",
   "status": "partial",
   "theorems": [
    "C35_nearest_partial",
    "C35_nearest_small_partial",
    "C35_deep_refuted"
   ],
   "note": "Nearest hit proved for every built tree of height at most 98, so for every scene of at most 99 triangles. Refuted beyond: for 101 nested triangles every query through their corner overruns the fixed stack of 99 entries."
  },
  {
   "property": "C36",
   "status": "partial",
   "theorems": [
    "C36_sound",
    "C36_complete_partial",
    "C36_complete_refuted",
    "C36_box"
   ],
   "note": "Soundness proved; completeness for determinants of at least 10^-8 and refuted below (small triangles are never hit)."
  },
  {
   "property": "C37",
   "status": "proved",
   "theorems": [
    "C37_frame",
    "C37_round_trip",
    "C37_twosided"
   ],
   "note": "Frames, round trip and two-sided frame for every unit normal over the reals."
  },
  {
   "property": "C38",
   "status": "proved",
   "theorems": [
    "C38_reflection",
    "C38_refraction",
    "C38_total",
    "C38_sines"
   ],
   "note": "Refraction returns exactly the Snell direction; total reflection iff none exists (grazing counts as total)."
  },
  {
   "property": "C39",
   "status": "proved",
   "theorems": [
    "C39_optimised",
    "C39_optimised_sum",
    "C39_optimised_densities",
    "C39_scene",
    "C39_power",
    "C39_balance",
    "C39_balance_zero"
   ],
   "note": "Power heuristic of Path::eval_mis_weight, the two-technique balance heuristic, and the weights renderer_bdptopt.cpp computes from the densities cached during the walk (C39_optimised, C39_optimised_sum; C39_optimised_densities: with single-component materials these densities are those of the path API. The probabilities of selecting components are left out of the optimised weights: they still sum to one). C39_scene: the functions of a scene meet the assumptions."
  },
  {
   "property": "C40",
   "status": "proved",
   "theorems": [
    "C40_vertices",
    "C40_index",
    "C40_connects"
   ],
   "note": "Connection order, index symmetry, and exactly when a connection succeeds, for every implementation of the scene functions."
  },
  {
   "property": "C41",
   "status": "partial",
   "theorems": [
    "C41_optimised_partial",
    "C41_optimised_ends",
    "C41_optimised_scene",
    "C41_limit_partial",
    "C41_continues",
    "C41_ends",
    "C41_one_refuted",
    "C41_scene"
   ],
   "note": "Limit and termination for every maximum except one, for both tracers; for a maximum of one the walk returns up to two vertices (C41_one_refuted)."
  },
  {
   "property": "C42",
   "status": "partial",
   "theorems": [
    "C42_camera_rays",
    "C42_camera_direct_partial",
    "C42_camera_direct_refuted",
    "C42_light_rays",
    "C42_light_directions",
    "C42_light_positions",
    "C42_light_direct",
    "C42_material_weights_partial",
    "C42_alpha_mask_refuted",
    "C42_path_light_rays",
    "C42_path_camera_rays",
    "C42_path_direct_light",
    "C42_path_direct_camera_partial",
    "C42_path_directions_partial",
    "C42_path_components",
    "C42_path_positions_partial",
    "C42_path_positions_refuted",
    "C42_path_instanced_refuted",
    "C42_phase"
   ],
   "note": "Materials, cameras, lights, phase functions and the path functions over the scene. Exceptions, each proved as a refuted theorem: the pass-through component of the OBJ material, camera connections outside of the view, positions on one of several lights, lights instanced more than once."
  },
  {
   "property": "C43",
   "status": "partial",
   "theorems": [
    "C43_single",
    "C43_rr_selection",
    "C43_marginalized_selection",
    "C43_glass_selection",
    "C43_obj_selection",
    "C43_rr_components",
    "C43_marginalized_density",
    "C43_marginalized_specular",
    "C43_marginalized_sampling",
    "C43_obj_sampling",
    "C43_total",
    "C43_reflectance",
    "C43_glass_in_mixture_refuted",
    "C43_nested_refuted"
   ],
   "note": "Selection probabilities, values, densities, total and reflectance of both mixtures, glass and the OBJ material for any number of entries. Refuted: an entry with several components (glass) contributes only its component 0; nested marginalized mixtures reuse one random number, so an entry may never be sampled."
  },
  {
   "property": "C44",
   "status": "proved",
   "theorems": [
    "C44_look_at",
    "C44_matrix",
    "C44_round_trip",
    "C44_inverse",
    "C44_frustum",
    "C44_importance",
    "C44_density",
    "C44_field_of_view",
    "C44_aspect"
   ],
   "note": "Round trip both ways, frustum, importance, density (area element of the map), field of view, aspect, for all proper cameras; both constructions. Finding: the aspect parameter is width / height, documented as height / width."
  },
  {
   "property": "C45",
   "status": "partial",
   "theorems": [
    "C45_lookup",
    "C45_periodic",
    "C45_pixels",
    "C45_alpha",
    "C45_load",
    "C45_constant",
    "C45_grey_refuted"
   ],
   "note": "Proved for images of three or more components (all coordinates). C45_grey_refuted: images of one or two components are read beyond their end."
  },
  {
   "property": "C46",
   "status": "proved",
   "theorems": [
    "C46_index",
    "C46_exact",
    "C46_vertex",
    "C46_in_range"
   ],
   "note": "Integer index resolution, the text of a face vertex in all four forms, and the range of every index in the meshes of a well-formed file."
  },
  {
   "property": "C47",
   "status": "partial",
   "theorems": [
    "C47_simple_partial",
    "C47_long_line_refuted",
    "C47_polygon_refuted",
    "C47_tiny_partial",
    "C47_tiny_refuted"
   ],
   "note": "objloader::simple: triangles of the meshes, with materials and in order, are exactly those of the statements of the file (character-level parser). Refuted for lines of 4096 or more characters (the rest of the file is silently ignored), for faces of more than four vertices, and for the tinyobjloader plugin (the first face after a change of material is lost)."
  },
  {
   "property": "C48",
   "status": "proved",
   "theorems": [
    "C48_output",
    "C48_unique",
    "C48_scope_restores",
    "C48_unbalanced"
   ],
   "note": "Programs of log calls, severity changes and nested blocks, also left by exceptions. Clock-dependent header text is a parameter."
  },
  {
   "property": "C49",
   "status": "partial",
   "theorems": [
    "C49_mux",
    "C49_delay_partial",
    "C49_delay_refuted"
   ],
   "note": "Multiplexer proved; delayed reporter proved with the threshold the code has (delay + 1 ms, because durations are truncated to ms before the comparison); C49_delay_refuted shows the claim fails by less than 1 ms."
  },
  {
   "property": "C50",
   "status": "partial",
   "theorems": [
    "C50_restores_partial",
    "C50_other_platforms",
    "C50_refuted"
   ],
   "note": "Restored when entered with exceptions enabled or off Windows; C50_refuted: a guard entered with exceptions disabled enables them on exit."
  },
  {
   "property": "C51",
   "status": "partial",
   "theorems": [
    "C51_geometry_term",
    "C51_geometry_value",
    "C51_convert_partial",
    "C51_convert_refuted",
    "C51_convert_area",
    "C51_correction"
   ],
   "note": "Geometry term, area conversion and shading-normal correction proved. The conversion to projected solid angle is proved except at points at infinity, where it reads an uninitialised normal (C51_convert_refuted)."
  },
  {
   "property": "C52",
   "status": "partial",
   "theorems": [
    "C52_ratio_unbiased",
    "C52_delta_unbiased",
    "C52_homogeneous_unbiased",
    "C52_density",
    "C52_majorant",
    "C52_defined",
    "C52_multi",
    "C52_multi_color",
    "C52_multi_missing_refuted",
    "C52_sphere",
    "C52_gaussian_bound_partial",
    "C52_gaussian_bound_refuted",
    "C52_homogeneous",
    "C52_homogeneous_multiplicative",
    "C52_homogeneous_sampling",
    "C52_delta_tracking",
    "C52_tracking_ends",
    "C52_ratio_tracking",
    "C52_default_bound_refuted"
   ],
   "note": "Volumes of any nesting; homogeneous media in full, including the distribution of sampled events; for heterogeneous media the range, termination and soundness of tracking, and that ratio and delta tracking have the right means for every volume that can be constructed (C52_density: the density of spheres, checkers, gaussians and their sums is piecewise continuous along every ray). Refuted: wide gaussians are cut off by their bound, constant volumes without bounds are empty, missing references of a multi volume are dereferenced."
  },
  {
   "property": "C53",
   "status": "partial",
   "theorems": [
    "C53_domains",
    "C53_disk",
    "C53_hemisphere",
    "C53_sphere",
    "C53_triangle",
    "C53_light_area_partial",
    "C53_light_area_refuted"
   ],
   "note": "Domains, bijectivity and densities of all four warps proved. Area light density under a transform holds for rigid transforms only (C53_light_area_refuted: scaling)."
  },
  {
   "property": "C54",
   "status": "proved",
   "theorems": [
    "C54_foreach",
    "C54_at",
    "C54_agree",
    "C54_number",
    "C54_interpolation",
    "C54_raw",
    "C54_obj",
    "C54_mixed_undefined"
   ],
   "note": "Raw and OBJ meshes, for all meshes whose indices name vertices; interpolation of an OBJ face needs that all or none of its vertices have normals and texture coordinates (else undefined, see C54_mixed_undefined)."
  },
  {
   "property": "C55",
   "status": "proved",
   "theorems": [
    "C55_blank",
    "C55_raycast",
    "C55_shading",
    "C55_center",
    "C55_windows",
    "C55_camera",
    "C55_own_pixel",
    "C55_path"
   ],
   "note": "Blank, ray casting for every schedule, windows, and pixel mode of the path tracer. set_pixel and splat calls are taken as atomic (C26)."
  },
  {
   "property": "C56",
   "status": "proved",
   "theorems": [
    "C56_path_rounds",
    "C56_volume_rounds",
    "C56_light_rounds",
    "C56_path_splats",
    "C56_roulette",
    "C56_rr_prob_refuted"
   ],
   "note": "Bounds by the numbers of drawn rounds and splats; roulette with any floor below 1. With rr_prob = 1 the volumetric path tracers lose paths (C56_rr_prob_refuted). A black throughput survives with probability 0."
  },
  {
   "property": "C57",
   "status": "partial",
   "theorems": [
    "C57_intersect",
    "C57_visible",
    "C57_visible_infinite",
    "C57_far_points_refuted",
    "C57_symmetric_partial",
    "C57_buildable",
    "C57_symmetric_refuted",
    "C57_transmittance_vacuum",
    "C57_transmittance_medium",
    "C57_transmittance_infinite_refuted",
    "C57_distance",
    "C57_distance_weight",
    "C57_distance_vacuum_refuted",
    "C57_sound_media"
   ],
   "note": "Nearest hit versus environment is proved for every sound scene, ray and range (C57_intersect), and visibility, transmittance and distance sampling are characterised by it. Such structures exist for every sound scene (C57_buildable). The claim as stated fails in three ways: visibility is not symmetric (C57_symmetric_refuted, with the exact condition in C57_symmetric_partial), the environment occludes points further apart than 10^10 (C57_far_points_refuted), and distances cannot be sampled without a medium. Missing: hits with a determinant below 10^-8 (C36), trees deeper than the query stack (C35), transforms that are not affine."
  },
  {
   "property": "C58",
   "status": "proved",
   "theorems": [
    "C58_pointer_round_trip"
   ],
   "note": "Hex text round trip as written by libstdc++."
  },
  {
   "property": "C59",
   "status": "partial",
   "theorems": [
    "C59_replaces_partial",
    "C59_refuted"
   ],
   "note": "Covered if the second message is not shorter; C59_refuted: Progress and ProgressEnd have the same enumerator value so padding is discarded after every message."
  },
  {
   "property": "C60",
   "status": "proved",
   "theorems": [
    "C60_parameters",
    "C60_last"
   ],
   "note": "Character-level model of the MTL parser; values of numbers are an arbitrary function of their text."
  },
  {
   "property": "C61",
   "status": "proved",
   "theorems": [
    "C61_reciprocity",
    "C61_nonnegative",
    "C61_defined",
    "C61_glass_energy"
   ],
   "note": "All diffuse and glossy materials, both mixtures of them to any depth and the OBJ material; energy split of glass."
  },
  {
   "property": "C62",
   "status": "proved",
   "theorems": [
    "C62_reflection",
    "C62_pass",
    "C62_refraction",
    "C62_same_side"
   ],
   "note": "Mirror, glass, mask, and all reflecting materials."
  },
  {
   "property": "C63",
   "status": "proved",
   "theorems": [
    "C63_renderable"
   ],
   "note": "For every history of scene operations (models' own nodes numbered)."
  },
  {
   "property": "C64",
   "status": "partial",
   "theorems": [
    "C64_projection",
    "C64_matrix_refuted"
   ],
   "note": "Proved for cameras placed by look-at. C64_matrix_refuted: a camera constructed from a matrix leaves the up vector uninitialised, which the view matrix reads."
  },
  {
   "property": "C65",
   "status": "partial",
   "theorems": [
    "C65_density",
    "C65_value",
    "C65_map",
    "C65_sample_partial",
    "C65_weights_partial",
    "C65_refuted"
   ],
   "note": "Density, value, weights and the map of the sphere are proved for all images; sampling cover is proved under the hypothesis that the table of weights is non-negative with positive total. C65_refuted is the finding that the weights themselves can be negative: the row is computed by real division, so the right half of the last row gets negative weights and a white 3x1 map samples only its first pixel."
  },
  {
   "property": "C66",
   "status": "proved",
   "theorems": [
    "C66_cover",
    "C66_rays",
    "C66_density"
   ],
   "note": "Directional and constant environment lights and the disk used by the environment map."
  },
  {
   "property": "C67",
   "status": "partial",
   "theorems": [
    "C67_henyey_greenstein_partial",
    "C67_covers",
    "C67_isotropic",
    "C67_small_refuted",
    "C67_one_refuted"
   ],
   "note": "Holds for |g| < 1 with g = 0 or |g| >= 1/1000, and for the isotropic function. C67_small_refuted: for 0 < |g| < 1/1000 the samples are uniform but the reported density is not. C67_one_refuted: g = 1 is documented as valid but gives a 0/0 density."
  },
  {
   "property": "C68",
   "status": "proved",
   "theorems": [
    "C68_sampling",
    "C68_evaluation",
    "C68_endpoints",
    "C68_absent",
    "C68_light_flags",
    "C68_is_light"
   ],
   "note": "For the dispatch of the path functions; what the components compute is C42, C62 and C67."
  },
  {
   "property": "C69",
   "status": "proved",
   "theorems": [
    "C69_bound",
    "C69_lights_reach"
   ],
   "note": "Proved for every sound scene and its traversal, in exact arithmetic. Transforms are affine (Mat4 with last row 0 0 0 1)."
  },
  {
   "property": "C70",
   "status": "proved",
   "theorems": [
    "C70_weight",
    "C70_usable"
   ],
   "note": "For every implementation of the scene functions; C70_usable says which strategies can sample a path. Examples on a concrete scene."
  },
  {
   "property": "C71",
   "status": "partial",
   "theorems": [
    "C71_contribution_partial",
    "C71_scene_partial",
    "C71_connects",
    "C71_missed_partial",
    "C71_sample",
    "C71_splat_partial",
    "C71_raster_partial"
   ],
   "note": "Proved for every strategy that connects two subpaths, with the list of splats of a sample (C71_sample), when a strategy splats and why not (C71_connects, C71_missed_partial), where (C71_raster_partial) and that each splat is contribution over the sum of all densities (C71_splat_partial, vertices with one component). Finding: where one subpath is the whole path (a camera path that hits a light) the value is divided by the probability of selecting the component at its last vertex, which the strategy does not use: emitters with several material components are counted once per component. The theorem states the remaining factor. Materials as in C61, proper selection of components assumed as in C43."
  },
  {
   "property": "C72",
   "status": "proved",
   "theorems": [
    "C72_materials",
    "C72_total_reflection_refuted",
    "C72_lights",
    "C72_camera",
    "C72_phases"
   ],
   "note": "All materials, lights, cameras and phase functions; for glass the component asked for must be one that can be selected: asked for refraction under total reflection it returns the zero vector (C72_total_reflection_refuted)."
  },
  {
   "property": "C73",
   "status": "partial",
   "theorems": [
    "C73_positions",
    "C73_rays",
    "C73_density_partial",
    "C73_cover",
    "C73_value",
    "C73_direct"
   ],
   "note": "Positions, normals, coverage, rays, density of positions and of direct connections are proved. The density is proved for rigid placements only: for scaled ones the code does not invert the placed area (C53_light_area_refuted)."
  },
  {
   "property": "C74",
   "status": "proved",
   "theorems": [
    "C74_expected_image",
    "C74_nee_mis",
    "C74_all_modes",
    "C74_hidden_refuted"
   ],
   "note": "Expected values are taken over any linear average of the random numbers of a round, roulette numbers being uniform; that the sampling functions agree with the densities is a hypothesis (shown for the library's functions under C42, C44, C65-C67, C73). Image mode also counts directly visible lights that no ray can hit; naive never sees those (C74_hidden_refuted)."
  },
  {
   "property": "C75",
   "status": "proved",
   "theorems": [
    "C75_saved",
    "C75_renderers_refuted",
    "C75_dotted_name_refuted",
    "C75_answers"
   ],
   "note": "C75_saved is the equivalence; C75_answers the classes that answer; C75_renderers_refuted and C75_dotted_name_refuted the findings: states with renderer::pt, lt, volpt or volpt_naive, or with an OBJ material whose name contains a dot, cannot be saved at all."
  },
  {
   "property": "C76",
   "status": "partial",
   "theorems": [
    "C76_primitives_partial",
    "C76_file_partial",
    "C76_created",
    "C76_mesh_name_refuted",
    "C76_same_name_refuted",
    "C76_stem_refuted"
   ],
   "note": "C76_file_partial: the primitives of a file, for all files whose material names are distinct, do not begin like generated names, and whose different texture files have different stems, with all creations succeeding; C76_primitives_partial the same for the calls of the loader; C76_created: failure of a creation. Outside these names the claim is false: C76_mesh_name_refuted (a mesh takes the place of the material), C76_same_name_refuted, C76_stem_refuted."
  },
  {
   "property": "C77",
   "status": "partial",
   "theorems": [
    "C77_product",
    "C77_same",
    "C77_flat",
    "C77_tilted",
    "C77_smooth_refuted"
   ],
   "note": "The product form is proved for every path and strategy, equality for every path whose vertices scatter symmetrically and in scenes for all plain paths with equal shading and geometric normals at inner surface points; for other normals the exact factor between two strategies is proved. The full claim is refuted: interpolated normals make the contribution depend on the strategy (C77_smooth_refuted)."
  },
  {
   "property": "C78",
   "status": "proved",
   "theorems": [
    "C78_single_precision",
    "C78_exact"
   ],
   "note": "The conversion, the comparison and nextafter on IEEE numbers (Flocq), for every double in [0,1); the result is the double rounded downwards. That std::uniform_real_distribution<double> stays in [0,1) is what the standard says and is assumed."
  },
  {
   "property": "C79",
   "status": "partial",
   "theorems": [
    "C79_threads",
    "C79_first_partial",
    "C79_one_thread_partial",
    "C79_again_refuted",
    "C79_seed_ignored_refuted",
    "C79_schedule_refuted",
    "C79_consecutive_refuted"
   ],
   "note": "The claim is false of the code: the generators are thread_local variables of the callback, so a second rendering in a process goes on where the first ended (C79_again_refuted), its seed is ignored (C79_seed_ignored_refuted), the numbers of a sample depend on the thread (C79_schedule_refuted), and thread t+1 with seed s uses the numbers of thread t with seed s+1 (C79_consecutive_refuted). Proved: every thread draws from its own generator whatever the others do, and the first rendering of its kind in a process is determined by the seed and the samples each thread gets; with one thread by the seed alone. The engine is mt19937 as the standard defines it, checked against the value prescribed there. That the numbered threads of OpenMP persist between parallel loops is assumed."
  },
  {
   "property": "C80",
   "status": "proved",
   "theorems": [
    "C80_nanort",
    "C80_embree",
    "C80_instanced"
   ],
   "note": "The libraries themselves, their single precision and their tracing of rays are not modelled: the theorems say which triangles they are given and how their answers are read."
  },
  {
   "property": "C81",
   "status": "partial",
   "theorems": [
    "C81_traversable",
    "C81_no_instances_partial",
    "C81_instances_partial",
    "C81_first_instance_refuted",
    "C81_nested_refuted"
   ],
   "note": "The claim is false of the code for instances (C81_first_instance_refuted, C81_nested_refuted). Proved: import and traversal always succeed; the claim for scenes without instances; exactly what is shown for instances that are not nested. The parser, the conversion of vectors and Mesh_PBRT are not modelled."
  },
  {
   "property": "C82",
   "status": "partial",
   "theorems": [
    "C82_naive",
    "C82_nee",
    "C82_lt",
    "C82_bdpt",
    "C82_total",
    "C82_no_distant_light",
    "C82_distant_refuted"
   ],
   "note": "Proved for all scenes and random numbers: what one sample of each of the four renderers splats (C82_naive, C82_nee, C82_lt, C82_bdpt, C82_total). The last sentence is false: renderer::pt_nee_path never splats light from lights at infinity at vertices that are not specular (C82_no_distant_light, C82_distant_refuted)."
  },
  {
   "property": "C83",
   "status": "proved",
   "theorems": [
    "C83_expected_image",
    "C83_same_image",
    "C83_clear_medium"
   ],
   "note": "Proved for all scenes, media, path lengths and random numbers for which the calls succeed (C83_expected_image, C83_same_image, C83_clear_medium). Single draws are averaged by any linear functional that averages roulette numbers uniformly (ExpSpec.average); that connections and continuations bring the same light on average is a hypothesis about the scene (balanced), shown for an example."
  },
  {
   "property": "C84",
   "status": "proved",
   "theorems": [
    "C84_expected_image"
   ],
   "note": "Proved for the light that leaves a light along any given ray (C84_expected_image); averaging over the ray itself is left to the caller."
  },
  {
   "property": "C85",
   "status": "proved",
   "theorems": [
    "C85_image",
    "C85_path",
    "C85_volume",
    "C85_mean"
   ],
   "note": "C85_image for arbitrary samples, C85_path for pt in image mode, C85_volume for the volumetric path tracers, C85_mean for the mean. The extra films of single strategies are not modelled."
  },
  {
   "property": "C86",
   "status": "partial",
   "theorems": [
    "C86_meaning",
    "C86_reported_partial",
    "C86_reported_refuted",
    "C86_python_round_trip",
    "C86_json_round_trip_partial",
    "C86_integers_refuted"
   ],
   "note": "C86_meaning characterises the conversion completely. Two parts are false and refuted: objects of foreign registered classes are undefined behaviour and unknown objects abort builds with assertions (C86_reported_refuted, C86_reported_partial has the rest); integers above 32 bits wrap on the way to Python (C86_integers_refuted, C86_json_round_trip_partial has the rest). CPython objects are an inductive type, UTF-8 is any codec."
  },
  {
   "property": "C87",
   "status": "partial",
   "theorems": [
    "C87_vector_partial",
    "C87_matrix_partial",
    "C87_vector_round_trip",
    "C87_matrix_round_trip",
    "C87_reported",
    "C87_view_refuted",
    "C87_transpose_refuted",
    "C87_length_refuted"
   ],
   "note": "Proved for contiguous arrays (C87_vector_partial, C87_matrix_partial) and for the round trips. False for views (C87_view_refuted), transposes (C87_transpose_refuted) and arrays of other lengths (C87_length_refuted), because strides and lengths are not read."
  },
  {
   "property": "C88",
   "status": "partial",
   "theorems": [
    "C88_reported_partial",
    "C88_scene_partial",
    "C88_medium_refuted",
    "C88_unreported_refuted"
   ],
   "note": "Proved for 40 of the 49 classes (C88_reported_partial) and for scenes without media (C88_scene_partial). False for the rest: scenes never report the medium of a node (C88_medium_refuted); the renderers of renderer_bdpt.cpp and renderer_bdptopt.cpp, volume::multi and the two media report nothing (C88_unreported_refuted)."
  },
  {
   "property": "C89",
   "status": "proved",
   "theorems": [
    "C89_determines",
    "C89_locators",
    "C89_elsewhere_refuted"
   ],
   "note": "C89_determines and C89_locators. Locators of the assumed form are what make_loc gives (C01). A component registered elsewhere makes the output ambiguous (C89_elsewhere_refuted)."
  },
  {
   "property": "C90",
   "status": "partial",
   "theorems": [
    "C90_cutoff_partial",
    "C90_exact_partial",
    "C90_bounded_partial",
    "C90_channel_refuted"
   ],
   "note": "Proved if extinction is positive in every channel. With a channel without extinction (muA and muS zero) the albedo is 0/0 and the pixel not a number (C90_channel_refuted)."
  },
  {
   "property": "C91",
   "status": "partial",
   "theorems": [
    "C91_dispatch_partial",
    "C91_not_forwarded_refuted",
    "C91_max_scalar_refuted"
   ],
   "note": "Proved for all functions that are forwarded. Not forwarded: Volume::max_scalar, which calls has_scalar (C91_max_scalar_refuted), and eleven functions without trampoline (C91_not_forwarded_refuted)."
  },
  {
   "property": "C92",
   "status": "partial",
   "theorems": [
    "C92_round_trip_partial",
    "C92_lost_refuted",
    "C92_misaligned_refuted"
   ],
   "note": "Proved for the interfaces Component and Renderer when both methods are defined. Refuted otherwise: C92_lost_refuted, C92_misaligned_refuted."
  },
  {
   "property": "C93",
   "status": "partial",
   "theorems": [
    "C93_python_asset_partial",
    "C93_made_in_python_partial",
    "C93_leak_refuted",
    "C93_cpp_asset_partial",
    "C93_dangling_refuted"
   ],
   "note": "Proved for Python classes loaded as assets and for C++ classes made in Python; for C++ assets as long as Python does not use a reference after the release. Refuted: leak of Python classes made in Python (C93_leak_refuted), dangling references to C++ assets (C93_dangling_refuted)."
  },
  {
   "property": "C94",
   "status": "proved",
   "theorems": [
    "C94_exclusive",
    "C94_no_deadlock",
    "C94_bounded_work",
    "C94_each_once",
    "C94_returns"
   ],
   "note": "Interleavings of single actions of the threads; the interpreter lock and the exception lock are explicit, including the destruction of a replaced exception, which takes the interpreter lock while the exception lock is held. Fairness of the scheduler and of other Python threads is not claimed: no_deadlock says that the end can always be reached, bounded_work that it cannot be put off by the loop itself."
  },
  {
   "property": "C95",
   "status": "partial",
   "theorems": [
    "C95_latest_partial",
    "C95_buffer",
    "C95_snapshot_refuted",
    "C95_live_refuted",
    "C95_dangling_refuted"
   ],
   "note": "Proved: buffer() succeeds, layout, and that every array shows the film at the last call of buffer(). The last sentence is false: the temporary buffer is reused, so the next buffer() overwrites earlier arrays (C95_snapshot_refuted); arrays do not follow the film either (C95_live_refuted), and they dangle after the film is constructed with more pixels or destroyed (C95_dangling_refuted)."
  },
  {
   "property": "C96",
   "status": "partial",
   "theorems": [
    "C96_pixel",
    "C96_image",
    "C96_mean",
    "C96_no_samples_refuted",
    "C96_environment_refuted"
   ],
   "note": "Proved for pixels whose ray hits a surface (C96_pixel, C96_mean) and for the image under every schedule of the loop (C96_image). The last sentence is false: with spp = 0 the pixel is 0/0 (C96_no_samples_refuted), and in scenes with an environment light rays that leave the scene read an uninitialised normal (C96_environment_refuted)."
  },
  {
   "property": "C97",
   "status": "partial",
   "theorems": [
    "C97_sample",
    "C97_interval",
    "C97_error",
    "C97_outside",
    "C97_every_entry_refuted",
    "C97_overflow_refuted"
   ],
   "note": "Proved for all tables and samples in binary64: C97_sample, C97_interval, C97_error, C97_outside. Two parts are false and refuted: a weight below half an ulp of the sum before it is lost (C97_every_entry_refuted); weights whose sum overflows give a NaN probability (C97_overflow_refuted). Assumes round to nearest and no contraction or fast-math."
  },
  {
   "property": "C98",
   "status": "partial",
   "theorems": [
    "C98_merge",
    "C98_nested_partial",
    "C98_ancestors_partial",
    "C98_margin_partial",
    "C98_lost_refuted",
    "C98_conservative_refuted",
    "C98_nested_refuted"
   ],
   "note": "Merging is exact (C98_merge). Monotonicity of the box test for rays not in a face (C98_nested_partial, C98_ancestors_partial) and its margin (C98_margin_partial). False and refuted: a triangle hit by the triangle test can be skipped by the test of its own box (C98_lost_refuted), the box test is not conservative (C98_conservative_refuted), a ray in a face breaks monotonicity (C98_nested_refuted)."
  },
  {
   "property": "C99",
   "status": "partial",
   "theorems": [
    "C99_sum",
    "C99_two_runs",
    "C99_rescaled",
    "C99_schedule_refuted"
   ],
   "note": "Bounds for every interleaving (C99_sum, C99_two_runs, C99_rescaled). That the image is the same in every run is false: the same splats give 1 or 1 + 2^-52 (C99_schedule_refuted). Bounds assume sizes at most 2^1022 and n at most 2^52."
  },
  {
   "property": "C100",
   "status": "partial",
   "theorems": [
    "C100_range",
    "C100_constant",
    "C100_mean",
    "C100_first_refuted"
   ],
   "note": "C100_range, C100_constant, C100_mean for all lists. That the first sample replaces whatever was there is false for a pixel that is not 0 (C100_first_refuted)."
  },
  {
   "property": "C101",
   "status": "partial",
   "theorems": [
    "C101_hit_in_range",
    "C101_nearest_partial",
    "C101_clear_partial",
    "C101_lost_refuted",
    "C101_nan_refuted"
   ],
   "note": "C101_hit_in_range, C101_nearest_partial and C101_clear_partial for all trees, in binary64. False and refuted: a triangle that the triangle test hits can be lost by the test of its box (C101_lost_refuted); edges of 2^600 give a hit at distance NaN (C101_nan_refuted). Not covered: rays within a face of a box (C98_nested_refuted); trees deeper than 98 (see C35). That construction gives such trees is C106."
  },
  {
   "property": "C102",
   "status": "partial",
   "theorems": [
    "C102_normalize",
    "C102_cosine",
    "C102_sphere",
    "C102_basis",
    "C102_reflection_partial",
    "C102_reflection_refuted"
   ],
   "note": "C102_normalize, C102_cosine, C102_sphere, C102_basis and C102_reflection_partial, in binary64 for all inputs named. False and refuted: the reflection of a normalised vector about a normalised normal can have a component greater than 1 (C102_reflection_refuted), which the environment light passes to acos. std::cos and std::sin are arguments: any two numbers in [-1, 1] with squares adding up to 1 within 4 roundings."
  },
  {
   "property": "C103",
   "status": "partial",
   "theorems": [
    "C103_range",
    "C103_value",
    "C103_sum_partial",
    "C103_exclusive",
    "C103_overflow_refuted"
   ],
   "note": "C103_range, C103_value, C103_exclusive for all densities, C103_sum_partial for sums up to 2^1022. False and refuted: if the sum overflows both weights are 0 (C103_overflow_refuted)."
  },
  {
   "property": "C104",
   "status": "partial",
   "theorems": [
    "C104_total",
    "C104_reported",
    "C104_refraction_partial",
    "C104_component_refuted"
   ],
   "note": "C104_total, C104_reported, C104_refraction_partial, in binary64. False and refuted: a component can be less than -1 (C104_component_refuted)."
  },
  {
   "property": "C105",
   "status": "partial",
   "theorems": [
    "C105_load",
    "C105_two_forms",
    "C105_effect",
    "C105_rejected",
    "C105_init",
    "C105_primitive",
    "C105_named_prop_refuted",
    "C105_wrong_interface_refuted"
   ],
   "note": "C105_load, C105_two_forms, C105_effect, C105_rejected, C105_init, C105_primitive, all as equivalences. False and refuted: init(type, prop=v) makes a property called prop (C105_named_prop_refuted); a class of another interface is loaded but None returned (C105_wrong_interface_refuted). load_asset is a parameter here (its model is that of C06 to C08)."
  },
  {
   "property": "C106",
   "status": "partial",
   "theorems": [
    "C106_terminates",
    "C106_progress",
    "C106_safe",
    "C106_tree",
    "C106_query_partial"
   ],
   "note": "C106_terminates, C106_progress, C106_safe, C106_tree in full; C106_query_partial for trees that fit the stack. The last clause is false for triangles whose own box fails by rounding (C101_lost_refuted) and for deep trees (C35). Sorting is any function that permutes; corners have sizes up to 2^200."
  },
  {
   "property": "C107",
   "status": "partial",
   "theorems": [
    "C107_pixel",
    "C107_outside",
    "C107_outside_refuted",
    "C107_position",
    "C107_own_partial",
    "C107_near",
    "C107_centre",
    "C107_edge_refuted",
    "C107_table_partial",
    "C107_table_refuted"
   ],
   "note": "C107_pixel, C107_position, C107_near, C107_centre in full; C107_outside while the product fits in an int, false beyond (C107_outside_refuted: undefined conversion). C107_own_partial and C107_table_partial need random numbers 2^-19 away from 0 and 1: at the edges the claims are false (C107_edge_refuted, C107_table_refuted: density 0 for a sampled position). The pixel of a camera path is taken from its raster position as sampled; the way through the camera's direction and back is C44 and C64, over the reals."
  },
  {
   "property": "C108",
   "status": "proved",
   "theorems": [
    "C108_at",
    "C108_foreach",
    "C108_interpolation",
    "C108_same_as_obj",
    "C108_transform",
    "C108_composition"
   ],
   "note": "Over the reals; the composition of affine maps in the parser's library is modelled by its definition there. C81 uses the laws of C108_composition as hypotheses."
  },
  {
   "property": "C109",
   "status": "partial",
   "theorems": [
    "C109_basis",
    "C109_direction",
    "C109_round_trip_partial",
    "C109_returned",
    "C109_edge_refuted",
    "C109_accuracy",
    "C109_range",
    "C109_range_refuted",
    "C109_pixel_partial"
   ],
   "note": "False at the edges of the film (C109_edge_refuted: the raster position of a sampled direction may not exist, and the path tracer dereferences it unchecked) and with a field of view of 0 (C109_range_refuted). C109_round_trip_partial needs positions 2^-31 away from the edges, C109_pixel_partial random numbers 2^-17 away from 0 and 1. Both are proved from the construction of the basis on (C109_basis); tan is an input."
  },
  {
   "property": "C110",
   "status": "partial",
   "theorems": [
    "C110_exclusive",
    "C110_no_deadlock",
    "C110_no_livelock",
    "C110_each_once",
    "C110_returns",
    "C110_exception_reaches_caller_partial",
    "C110_exception_reaches_caller_refuted"
   ],
   "note": "All clauses but the last in full. The last is false (C110_exception_reaches_caller_refuted): the end of progress reporting and of log indentation is reported by destructors, so a Python reporter that raises there ends the process. C110_exception_reaches_caller_partial: that is the only way."
  },
  {
   "property": "C111",
   "status": "partial",
   "theorems": [
    "C111_bar",
    "C111_logger",
    "C111_streams",
    "C111_logger_refuted",
    "C111_registered_refuted",
    "C111_registered_partial",
    "C111_film_refuted",
    "C111_array_refuted",
    "C111_array_partial"
   ],
   "note": "Progress bar and streams in full. The loggers agree on calls as the macros make them (C111_logger) and differ on multi-line messages and unbalanced indentation (C111_logger_refuted). The other clauses are false: registered_components and the film reporter refer to names the binding does not have (C111_registered_refuted, C111_film_refuted), lm.array makes arrays of the wrong element type (C111_array_refuted); C111_registered_partial and C111_array_partial say what holds with the right name and type."
  },
  {
   "property": "C112",
   "status": "partial",
   "theorems": [
    "C112_weights",
    "C112_point",
    "C112_interpolates",
    "C112_hit",
    "C112_area",
    "C112_light",
    "C112_plane_refuted",
    "C112_area_refuted",
    "C112_area_partial"
   ],
   "note": "Hits, sampled positions, coordinates and areas in full (C112_point, C112_interpolates, C112_hit, C112_light, C112_weights, C112_area). False: that a point of a flat triangle is in its plane and in its box (C112_plane_refuted, which is why the claim has an error term) and that every proper triangle has a positive weight (C112_area_refuted); C112_area_partial proves it for triangles not small compared to their coordinates."
  },
  {
   "property": "C113",
   "status": "partial",
   "theorems": [
    "C113_symmetric",
    "C113_distance_symmetric",
    "C113_term",
    "C113_distance",
    "C113_bound",
    "C113_coincident_refuted"
   ],
   "note": "Symmetry without any hypothesis (C113_symmetric, C113_distance_symmetric); accuracy, range and bound for points that are apart (C113_term, C113_bound, C113_distance). Two points at the same place give NaN (C113_coincident_refuted), so finiteness is false without that hypothesis."
  },
  {
   "property": "C114",
   "status": "partial",
   "theorems": [
    "C114_lookup",
    "C114_periodic",
    "C114_texel_partial",
    "C114_defined",
    "C114_wrap_refuted"
   ],
   "note": "C114_lookup, C114_periodic and C114_defined hold for all images and coordinates. C114_texel_partial leaves out points within 2^-19 of a texel of its edges, where rounding may name the neighbour (see C107_edge_refuted). That the computed fractional part stays below 1, and that computing t + 1 first changes nothing, are false (C114_wrap_refuted)."
  },
  {
   "property": "C115",
   "status": "partial",
   "theorems": [
    "C115_construct",
    "C115_missing_file",
    "C115_majorant",
    "C115_events",
    "C115_transmittance",
    "C115_unbiased",
    "C115_march",
    "C115_backwards",
    "C115_negative_refuted",
    "C115_again_refuted"
   ],
   "note": "All clauses for scales that are positive. Negative scales are accepted and break the majorant: the walk goes backwards (C115_backwards) and finds events behind the origin of the ray (C115_negative_refuted). Constructing an instance again with a scale of the wrong type leaves the new file with the old maximum (C115_again_refuted). The library itself is an argument."
  },
  {
   "property": "C116",
   "status": "partial",
   "theorems": [
    "C116_point",
    "C116_point_facing",
    "C116_meeting",
    "C116_accurate",
    "C116_found_partial",
    "C116_invisible",
    "C116_found_refuted"
   ],
   "note": "Reported hits: C116_point, C116_point_facing, C116_accurate. The converse is proved for triangles that face the ray by more than 2e-8 and rays that meet them away from their edges by the rounding error (C116_found_partial); the test rejects every triangle for which edge1 . (d x edge2) is below 1e-8 (C116_invisible), so that small triangles are never hit (C116_found_refuted)."
  },
  {
   "property": "C117",
   "status": "partial",
   "theorems": [
    "C117_flags_partial",
    "C117_filter_lost",
    "C117_flags_again",
    "C117_arguments",
    "C117_arguments_again",
    "C117_ignored",
    "C117_failed",
    "C117_flags_refuted",
    "C117_depth_refuted",
    "C117_failed_refuted"
   ],
   "note": "Flags: exactly those asked for, unless the filter function is asked for alone (C117_flags_partial); then no flag is set (C117_filter_lost, C117_flags_refuted). The build arguments are read and written faithfully (C117_arguments, C117_arguments_again) but only the quality is passed on to Embree (C117_ignored, C117_depth_refuted). A failed construct leaves the new arguments beside the old flags (C117_failed, C117_failed_refuted)."
  },
  {
   "property": "C118",
   "status": "partial",
   "theorems": [
    "C118_format",
    "C118_parse",
    "C118_missing",
    "C118_places",
    "C118_extra",
    "C118_example",
    "C118_text_refuted",
    "C118_text_partial",
    "C118_shape_refuted"
   ],
   "note": "For all templates and arguments that give a JSON text (C118_format, C118_parse), and for the template of the examples (C118_example). Texts with quotes or backslashes are not taken as they are (C118_text_refuted, C118_text_partial is the part that holds) and can add members (C118_shape_refuted); too few arguments are undefined behaviour instead of an error (C118_missing)."
  },
  {
   "property": "C119",
   "status": "proved",
   "theorems": [
    "C119_byte",
    "C119_nearest",
    "C119_monotone",
    "C119_black",
    "C119_white",
    "C119_undefined",
    "C119_single",
    "C119_single_nearest",
    "C119_single_exact",
    "C119_single_monotone",
    "C119_single_large",
    "C119_defined_refuted",
    "C119_single_refuted"
   ],
   "note": "std::pow is any function that meets pow_spec; an instance is the exact power rounded (C119_pow_instance). Outside of the range: C119_undefined (negative, NaN, infinite or from 2^53 on: undefined conversion), C119_single_large, C119_defined_refuted, C119_single_refuted. Where each value is in the file is C30."
  },
  {
   "property": "C120",
   "status": "partial",
   "theorems": [
    "C120_meshes_partial",
    "C120_one_material",
    "C120_material",
    "C120_default",
    "C120_stops",
    "C120_no_file",
    "C120_empty_shape",
    "C120_meshes_refuted",
    "C120_default_refuted"
   ],
   "note": "Missing: the first triangle after each change of material within a shape, which the code does not hand over (C120_meshes_refuted). C120_one_material is the full claim for shapes of a single material. Shapes without faces are undefined behaviour (C120_empty_shape); the default material has members that are not initialised (C120_default_refuted)."
  },
  {
   "property": "C121",
   "status": "proved",
   "theorems": [
    "C121_bounded",
    "C121_multi",
    "C121_sum",
    "C121_box",
    "C121_outside",
    "C121_collision",
    "C121_transmittance",
    "C121_factor",
    "C121_sample",
    "C121_ends_refuted",
    "C121_certain_refuted"
   ],
   "note": "Densities are numbers from 0 on and the maximum of each combination is a number; tracking for maxima from 2^-1022 to 2^1022. For a maximum of zero tracking need not end (C121_ends_refuted). Gaussian, checker and OpenVDB volumes enter by C121_multi, which asks that their own maximum bounds their density."
  },
  {
   "property": "C122",
   "status": "proved",
   "theorems": [
    "C122_degenerated",
    "C122_sides",
    "C122_along",
    "C122_projected",
    "C122_area_symmetric",
    "C122_area",
    "C122_finite_refuted"
   ],
   "note": "Almost along the surface the converted density can be infinite (C122_finite_refuted). On real numbers: C51."
  },
  {
   "property": "C123",
   "status": "partial",
   "theorems": [
    "C123_spaced",
    "C123_number",
    "C123_samples",
    "C123_time",
    "C123_eta",
    "C123_defined_partial",
    "C123_end",
    "C123_not_started",
    "C123_defined_refuted"
   ],
   "note": "The estimate multiplies milliseconds by samples in a long long and overflows after days of a large rendering (C123_defined_refuted); defined as long as the product stays below 2^63 (C123_defined_partial). All else is proved for all histories."
  },
  {
   "property": "C124",
   "status": "partial",
   "theorems": [
    "C124_exponent",
    "C124_bounded",
    "C124_centre",
    "C124_bounded_refuted",
    "C124_symmetric",
    "C124_monotone"
   ],
   "note": "For tiny standard deviations the square is zero and the density in the centre is not a number (C124_bounded_refuted). Proved for deviations from 2^-200 to 2^200 in size; the exponent for coordinates that are equal or from 2^-200 to 2^200 apart."
  }
 ]
}