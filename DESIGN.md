# Design

The code in /repo is never built or run here. It is read as text and modelled by hand in Rocq.
Every definition of a model cites the file and lines it models and states its simplifications.

## Conventions

- A *Model file holds executable definitions only, a *Spec file small independent specifications,
  a *Proofs file lemmas, a *Props file the property theorems with `Print Assumptions` and a
  satisfiability example beside each.
- Exceptions are explicit outcomes; undefined behaviour is a separate outcome.
- Integers are Z (C++ int/long long ranges stated where they matter); `Float` is modelled by the real
  numbers R, so rounding is not modelled unless a file says so.
- Threads are modelled by small-step interleaving of the atomic actions (sequential consistency).
- Properties that the code violates become `..._refuted` theorems with a concrete witness, next to the
  strongest variant that does hold. A theorem that proves only part of a property ends in `_partial`.
- MANIFEST.json gives for every property its status, its theorems and what is missing.
- seeded/LOG.jsonl records edits of the models that break a property and the theorems that then fail.

## Plan per property

- **C01** Locators compose and decompose without loss. LocModel: make_loc/parent_loc/name on Coq strings. Proof: induction on strings about the last dot.
- **C02** Resolving a locator walks the component hierarchy segment by segment. LocModel: splitFirst/get over an abstract hierarchy (nodes and a name query). Spec: split into segments, then walk. Proof: induction on the string; self-lookup by induction on depth.
- **C03** Component registry behaves like a map with one level of aliases. RegModel: func map and alias map as association functions, op histories. Spec: last registration wins, defined on the history alone. The non-interference half is expected to fail (unreg erases by key): refutation.
- **C04** Plugin bookkeeping is consistent with what is loaded. RegModel: plugin table with an oracle for dlopen/dlclose. Spec on history; scope guard and directory clauses expected to be refuted (constructor exception skips the destructor; load_plugin throws).
- **C05** Use before initialization is always reported, and re-initialization replaces the context. RegModel: ContextInstance as a state machine with a counter of live instances; induction on histories.
- **C06** Asset group is a name-indexed map with stable order. AssetModel: heap of components, asset vector + index map; refinement to an ordered map; induction on histories.
- **C07** Replacing an asset leaves no stale reference. AssetModel: heap with owned children and weak slots; load_asset with traversal by fuel; invariant: every visited weak slot resolves through get. Omitted slots: refutation.
- **C08** A failing asset construction does not damage the asset group. AssetModel: construct outcome as parameter; expected refuted, with the exact state left behind proved.
- **C09** Saved state loads back to an equivalent hierarchy. SerialModel: component trees, byte stream writer/reader, deferred weak references; round trip by tree induction.
- **C10** Value codecs round-trip and are self-delimiting. CodecModel: byte encoders/decoders; prefix-free round trip by induction on a universe of types.
- **C11** Exported subtree keeps its internal references when loaded elsewhere. SerialModel: relative locators; positive theorem for segment-disjoint names, refutation for sibling-prefix names.
- **C12** Every configuration parameter of a component survives save and load. ClassModel: for each class its members, the members its archive lists and the order; structures as types of CodecModel. Round trip by the codec theorem for classes whose archive lists every member their methods read; the other classes refuted one by one.
- **C13** JSON parameter merge gives priority to the first object. JsonModel: JSON values with ordered objects; merge; laws via lookup.
- **C14** JSON parameter access is total and precise. JsonModel: value accessors and vector/matrix codecs; case analysis and induction on length.
- **C15** Scene node creation is atomic and validated. SceneModel: node vector state machine; exact characterisation of create_primitive_node.
- **C16** Scene graph stays well formed under every operation history. SceneModel: invariant over op lists.
- **C17** Scene traversal visits every instance once with the composed transform. SceneModel: fuelled DFS against a relational/path enumeration spec; termination from a rank function.
- **C18** Every child accepted by the scene is an existing node and the graph stays traversable. SceneModel: expected refuted (child index is never checked); exact condition under which it holds proved.
- **C19** Light list matches the light instances and selection is uniform. SceneModel: build + selection over R/Q; index lookup refuted under instancing and proved without.
- **C20** Model import reproduces the model's node tree. SceneModel: shift of indices; tree isomorphism.
- **C21** Per-pixel scheduling runs each pixel-sample exactly once. SchedModel: on top of the ParModel loop theorem; div/mod bijection.
- **C22** Image-space scheduling numbers samples consecutively. SchedModel: clock as an arbitrary stream; induction on passes.
- **C23** Parallel loop executes each iteration exactly once or reports the exception. ParModel: small-step interleaving semantics of the OpenMP loop (dynamic schedule, done flag, exception slot); invariants over all reachable states.
- **C24** Progress reports never exceed the work done. ParModel: thread-local count persisting across loops; expected refuted; bounded version proved for a fresh counter.
- **C25** Concurrent splats are never lost. FilmConc: small-step semantics of the CAS loop; invariant: value = initial + sum of completed adds.
- **C26** Concurrent pixel updates are atomic. FilmConc: same semantics with arbitrary functions; linearization order as ghost history.
- **C27** Film operations act pixel-wise. FilmModel: row-major buffer; pointwise lemmas.
- **C28** Raster positions map to valid pixels and pixels are numbered bijectively. FilmModel: real/integer floor arithmetic and clamp; div/mod bijection.
- **C29** Incremental averaging computes the mean. FilmModel: induction over samples in the field of reals.
- **C30** Image export writes every pixel in range and detects invalid values. FilmModel: clamp/monotonicity; sanityCheck expected refuted (scans a third of the buffer).
- **C31** Discrete distribution is a probability distribution and sampling inverts it. DistModel over R: prefix sums, upper_bound; intervals of u.
- **C32** Two-dimensional distribution is consistent. DistModel over R: two-level use of the one-dimensional result.
- **C33** Bounding boxes are least upper bounds and the slab test is conservative. GeomModel over R: order-theoretic lemmas; slab test with IEEE-like division by zero made explicit.
- **C34** BVH construction partitions the triangles. BvhModel: work-queue semantics with arbitrary pop order; partition invariant; termination measure.
- **C35** BVH query returns the nearest hit. BvhModel: traversal with stack; equivalence to brute force by tree induction; fixed-size stack as explicit overflow outcome.
- **C36** Ray-triangle hit is a point of the triangle on the ray. GeomModel over R: algebra (field/nra).
- **C37** Local frames are orthonormal for every unit normal. GeomModel over R.
- **C38** Reflection and refraction obey their laws. GeomModel over R.
- **C39** Multiple-importance weights sum to one. BidirModel (bidir.h) and BdptModel (renderer_bdptopt.cpp): weights from densities over an index range; sums over strategies.
- **C40** Subpath connection keeps vertex order. BidirModel: list algebra.
- **C41** Sampled subpaths respect the vertex limit. BidirModel: walk with oracle; refutation for limit 1 in bidir.h, bound max(2,limit) proved.
- **C42** Sampling weight equals contribution over density. MatModel, LightModel, CamModel, PhaseModel and PathModel: weight identities for every sampler; light position sampling refuted.
- **C43** Mixture materials select components consistently. MatModel: lists of components with weights.
- **C44** Camera rays and raster positions are inverse. CameraModel over R.
- **C45** Texture lookup stays inside the image and wraps periodically. TexModel: floor arithmetic over R.
- **C46** OBJ face indices resolve per the format. ObjModel: integer index resolution.
- **C47** OBJ import assigns every face to exactly one mesh. ObjModel: statement-level and character-level parser; tinyobj plugin loop refuted (drops a face at a material change).
- **C48** Log messages are filtered and indented as configured. LogModel: op histories.
- **C49** Progress multiplexing forwards every event to every reporter. LogModel: event lists.
- **C50** Floating-point exception guard restores the previous state. FpexModel: nested guards; refuted.
- **C51** Geometry term is symmetric and density conversions are consistent. SurfModel over R.
- **C52** Volume majorants bound the density and transmittance is a probability. VolModel over R.
- **C53** Sampling warps stay in their domain. GeomModel over R (disk/sphere identities, not the pushforward measure).
- **C54** Mesh triangles enumerate the index buffer. MeshModel: list indexing.
- **C55** Rendering writes each pixel's own samples. RenderModel over SchedModel and FilmModel.
- **C56** Path tracing terminates within the vertex limit and keeps throughput bounded by roulette. RenderModel: walks as loops over the number of vertices.
- **C57** Visibility is symmetric and nearest-hit lookup distinguishes surface from environment. SceneModel/VisModel.
- **C58** Object addresses pass through JSON unchanged. JsonModel: text of a pointer as libstdc++ prints and reads it; induction on digits.
- **C59** A progress message replaces the one before it on the terminal. LogModel: lines with padding; refuted because two enumerators are equal.
- **C60** MTL import gives every material the parameters of its block. ObjModel: character-level parser.
- **C61** Reflecting materials are reciprocal and non-negative. MatModel over R: symmetry of values, for mixtures by induction on nesting.
- **C62** Sampled directions obey the laws of reflection and refraction. MatModel over R with SurfModel.
- **C63** A scene passes the render check exactly if it has a camera, a light and an acceleration structure. SceneModel: invariant over histories.
- **C64** View and projection matrices agree with the camera's rays. CamModel: linear algebra over R.
- **C65** Environment map sampling matches its reported density and reaches every luminous direction. LightModel over DistModel and TexModel.
- **C66** Rays from lights at infinity reach every point of the scene with the reported density. LightModel: disk around the bounding sphere.
- **C67** Phase functions sample by the density they report. PhaseModel over R: the map from the square to directions and its area element.
- **C68** Path sampling and evaluation never touch a missing component. PathModel: dispatch on the kind of interaction, with null pointers as undefined behaviour.
- **C69** The scene bound contains every surface and is the smallest such box. VisModel: fold over the traversal.
- **C70** Weight times density is the contribution for every bidirectional strategy. BidirModel: induction along the subpaths.
- **C71** Contributions of the optimised bidirectional tracer are contribution over density. BdptModel: the cached densities and throughputs against the path functions.
- **C72** Sampled directions have length one. All samplers, case by case.
- **C73** Area lights emit uniformly from their placed mesh. LightModel over MeshModel and DistModel.
- **C74** The path tracer's sampling modes estimate the same image. RenderModel, ExpSpec: an average over random numbers as any linear functional; induction on path length.
- **C75** Saving succeeds exactly if owned components are found under their locators. SerialModel with the name queries of the classes (SaveModel); induction on the hierarchy.
- **C76** An OBJ model gives every triangle its material and its light. ObjAssetModel after the loader of ObjModel; invariant over the materials and meshes for the table of names.
- **C77** A path's measurement contribution does not depend on the strategy. BidirModel; the two loops and the connection as one product over vertices and edges (induction), then vertex by vertex over the materials, lights and phase functions.
- **C78** Single-precision random numbers stay below one. RngModel: the conversion and nextafter on Flocq's IEEE formats; shown to be rounding downwards.
- **C79** A seed makes a rendering reproducible. RngModel: mt19937 and the thread_local generators as a map from callback and thread; induction over the calls of a rendering.
- **C80** Every acceleration structure shows exactly the triangles of the scene. AccelModel after the traversal of SceneModel; invariants over the calls, and for instances over the flattened scenes.
- **C81** Importing a PBRT scene shows every mesh at every place. PbrtModel; invariant of the nodes under construction (open groups are not reachable from recorded ones), by induction on the tree of objects.
- **C82** What the renderers on the path structure splat. PathRendModel over BidirModel; inversion of the sampling loops, the weights by C39; the sum over strategies by induction on the number of vertices.
- **C83** The volumetric path tracers estimate the same image. RenderModel's volpt; expectation by an averaging functional as in C74; induction on the number of events.
- **C84** The light tracer estimates the light the camera receives. RenderModel's lt; the same method, importance defined by recursion in VolPtSpec.
- **C85** Image-space renderings are scaled so that the mean pixel is the mean sample. ImageModel over FilmModel; induction on the splats, double sum over rows and columns.
- **C86** Python values arrive as the JSON values they denote. PyModel: Python objects as an inductive type, pylm.h's casters function by function; PySpec gives the meaning as a relation; induction on values.
- **C87** Vectors and matrices keep their elements between Python and C++. PyModel: an array is shape, strides and memory; the casters copy memory; index arithmetic.
- **C88** Every component reports every reference it keeps. UnderModel: foreach_underlying of every class over the members of ClassModel; UnderSpec finds the pointers in a value by its type; a sequence-of-members lemma and one case per class.
- **C89** The printed asset tree shows exactly the hierarchy. TreeModel: hierarchies as a mutual inductive type, print_asset_tree as a function to indented lines; unique parsing by induction.
- **C90** Ray marching gives the light scattered once. MarchModel: the two nested marches with early exit over any list of distances; induction over the marched prefix, telescoping sums, the cut-off rest bounded by the transmittance left.
- **C91** Calls of a component written in Python reach the Python method of the same name. TrampModel: the trampoline functions of pylm.cpp as a table (class, function, parameters, macro arguments) and the macros as a function; TrampSpec: the virtual functions declared in the headers. A decision over the two tables, then a proof for all classes and arguments.
- **C92** The state saved by a component written in Python is the state loaded. TrampModel: PYLM_SERIALIZE_IMPL over the archives of CodecModel.
- **C93** A component lives as long as Python or the framework uses it. HoldModel: reference counts, owner reference, release function and holder of one component; invariant over all histories of events.
- **C94** A parallel loop over a Python function neither deadlocks nor overlaps Python code. GilModel: a transition system with the interpreter lock and the exception lock; a sixteen-part invariant over all histories, progress by cases, termination by a weight of the threads' positions.
- **C95** numpy arrays over a film show its pixels. ViewModel: the temporary vector of the film as a block with a capacity, reallocated when full; invariant over all histories that all buffers point to one block.
- **C96** The ambient occlusion example computes the open part of the hemisphere. AoModel over FilmModel and the parallel loop of ParModel; induction over samples for value and mean, over the started iterations for the image.
- **C97** The discrete distribution in binary64. FDistModel over FltModel (Flocq's binary64, round to nearest even); rounding is monotone, so partial sums are sorted and an entry of weight zero has an empty interval; relative errors of additions by induction over the table.
- **C98** The box test in binary64. FBoundModel; every operation of the test is monotone in the faces of the box, NaN only for rays in a face; margin by relative errors.
- **C99** Splats in binary64. The compare-exchange model of CasModel with binary64 vectors: every run is a sum in some order (splat_order), and every order is within the bound by induction.
- **C100** inc_ave in binary64. One step stays between the old value and the sample because the rounded quotient by 2 or more is at most the exact difference; induction over the samples, and the error recurrence for the mean.
- **C101** Queries in binary64. FBvhModel: the traversal over FBoundModel's boxes and triangle test; sizes are tracked through the test so that nothing overflows; the box test is monotone (C98), so a triangle whose box passes is reached; induction over the tree.
- **C102** Directions in binary64. FDirModel; the rounded root of the rounded square of a Float is not less than it (midpoint argument on the mantissa), so no normalised component exceeds 1; absolute error bounds are propagated through each operation, and the algebra of the basis is done exactly with the defect of the normal's length as a parameter.
- **C103** Balance heuristic in binary64. FMathModel; the rounded sum is not less than either density, so the quotient is in [0, 1]; additions have a relative error also below the normal range.
- **C104** Refraction in binary64. FMathModel; absolute errors propagated through each operation; the root is characterised by its square, and the length by exact algebra.
- **C105** Calls with properties. CallModel has the dispatcher of pybind11 2.7.1 (binding of arguments, two passes) and the overloads; each form of call is computed and compared with a relation saying what it asks for.
- **C106** Construction in binary64. FTreeModel has the threads of BvhModel with boxes, areas and costs as Floats; the same invariant (a tree with holes) holds since merging boxes is exact; queries by C101.
- **C107** Raster positions in binary64. FRasterModel with conversions to int; absolute errors propagated through each operation and scaled back to pixels; sampling of rows and columns by C97.
- **C108** PBRT meshes. PMeshModel; faces compared with what the indices name, and the whole mesh with MeshModel on the corresponding OBJ arrays; matrices by calculation.
- **C109** pinhole camera in binary64. FCamModel; error calculus of FDirProofs through basis, ray, camera coordinates and divisions; composed with C107 for pixels; exact positions of the specification for accuracy. Edge positions refuted by computation.
- **C110** render() with Python components. RGilModel: threads run well-founded interaction trees (C++ code that calls Python and goes on with the result), loops follow each other in a well-founded plan; invariants on both locks; no deadlock and no livelock by a well-founded order on (plan, iterations left, threads), not by a count.
- **C111** Python package. JupModel: the names the binding exposes, the notebook logger (refinement to LogModel's), the progress bar (induction over reports). Names and element types that do not fit are refuted.
- **C112** points on triangles in binary64. FTriModel: interpolation, sampled coordinates, areas, table of a light. Error bounds operation by operation; the point of the triangle meant is given explicitly, also where the rounded coordinates add up to more than 1; the area by the Lipschitz bound of the length; composed with the triangle test of C101 and the table of C97.
- **C113** geometry term in binary64. FGtermModel: geometry_term and distance. Symmetry by a relation 'negation up to the sign of zero' preserved by every operation on every bit pattern; accuracy by bounds relative to the exact difference of the positions, since the subtraction of two Floats has a relative error.
- **C114** image textures in binary64. FTexModel: eval, eval_by_pixel_coords and eval_alpha with floor, int conversion and int overflow as they are. The computed fractional part is the rounding of the exact one, so it depends on the coordinate modulo 1 only; the cell follows from C107.
- **C115** OpenVDB volumes. VdbModel: construct, max_scalar, eval_scalar and march of Volume_OpenVDBScalar, the library as a record of functions. Combined with the heterogeneous medium of VolModel; the mean by the integral equation of C52, generalised to any density that is piecewise continuous and below the maximum.
- **C116** Accuracy of the triangle test. Model: new_ftri and ftri_isect of FBoundModel. Each number is tracked with a size 2^k and an error in units of eps 2^k through the edges, the cross and the scalar products; Cramer's rule then bounds the distance between the two points that a hit names. Existence and uniqueness of the meeting are stated in real arithmetic (FHitSpec).
- **C117** parameters of Embree. EmbModel: from_json and to_json of the scene flags and the build arguments, construct, and the calls of build that pass parameters on. Case analysis over flags; the JSON accessors are those of JsonModel.
- **C118** command line arguments. ArgsModel: fmt::format with plain places, a recursive descent parser for JSON, parse_positional_args. ArgsSpec says which texts are JSON texts of which values as an inductive relation, after RFC 8259; the parser is proved complete for it by mutual induction.
- **C119** values in image files in binary64. FSaveModel: the two conversions of Film_Bitmap::copy, std::pow as a parameter. Error of the exponent 1/2.2 by exp and ln over the range of Floats, error of pow by assumption, the multiplication by the bound of C101; truncation by cases on the integer part. Conversion to float by Flocq's rounding to 24 bits.
- **C120** the loader based on tinyobjloader. TinyModel: load with the library's result as input and callbacks as a function of the history of calls; trace of calls. Induction over faces with the faces done, then over shapes; the trace is stated by the triangles handed over.
- **C121** densities of combined volumes and tracking in binary64. FMultiModel: multi, sphere, constant, the loops of ratio and delta tracking with glm::log as a parameter and random numbers as a list. Both sums by induction, rounding is monotone; the product with a rounded reciprocal is at most one since 1 + 2^-53 rounds to 1; induction over the random numbers.
- **C122** conversions of densities in binary64. FPdfModel on top of FGtermModel. The cosine by the error of the scalar product (C102), the quotient and product by one rounding each; symmetry from that of C113.
- **C123** messages of the default progress reporter. EtaModel: state, clock readings in nanoseconds, long long arithmetic with overflow as undefined. Induction over histories: the last update is the time of the last message. The overflow refuted.
- **C124** densities of Gaussian volumes in binary64. FGaussModel with exp as a parameter. Signs with infinities included for the bounds; the exponent by eight roundings, each within a factor, on ranges that rounding keeps. Monotonicity operation by operation.

## Trusted base

1. The kernel of Coq 8.16.1, including its virtual machine (`vm_compute` is used for concrete examples and
   for finite checks over tables; `native_compute` is not used). No kernel check is switched off.
2. The axioms of the standard library listed below; no others. Coquelicot and Flocq add no axioms of their own.
3. The models: that each definition computes what the cited lines of C++ compute, up to the simplifications
   stated in its comment. Nothing checks this mechanically, since the code is not run.
4. The specifications (*Spec files) and the statements in the *Props files, which are meant to be read.

What `Print Assumptions` lists, by theorem:

- **Closed under the global context** (284 theorems): C01_parent_of_make_loc, C01_name_of_make_loc, C01_make_loc_injective, C01_decompose, C02_get_is_walk, C02_get_own_locator, C02_locators_unique, C02_get_terminates, C03_create_last_registered, C03_enumeration, C03_enumeration_no_duplicates, C03_unregister_frame, C03_unregister_frame_refuted, C04_loaded_iff_history, C04_load_failure_no_change, C04_unload_failure_no_change, C04_load_twice_noop, C04_reference_counts, C04_reference_counts_refuted, C04_scope_guard_partial, C04_scope_guard_refuted, C04_scope_guard_preloaded_refuted, C04_scope_guard_nested_refuted, C04_directory_partial, C04_directory_refuted, C05_access_iff_initialized, C05_at_most_one_alive, C05_user_checked_calls, C05_user_load_refuted, C05_user_after_shutdown_refuted, C06_entries_exist, C06_query, C06_order, C06_latest_load, C06_never_loaded, C06_positions_stable, C06_invalid_name_rejected, C06_failed_creation_unchanged, C06_no_undefined_behaviour, C06_last_successful_refuted, C06_serialized_name_refuted, C07_replace_leaves_no_stale_reference, C07_new_asset_keeps_references, C07_traversal_terminates, C07_lookup_exception_refuted, C08_failed_creation_changes_nothing_partial, C08_failed_construct_frame_partial, C08_failed_construct_refuted, C08_failed_construct_new_refuted, C09_state_round_trip, C09_unregistered_class_refuted, C10_round_trip, C10_prefix_free, C10_truncation_detected, C11_export_import, C11_outside_reference_refused, C11_sibling_prefix_refuted, C12_structures, C12_survives_partial, C12_alpha_refuted, C12_volume_refuted, C12_medium_refuted, C12_color_refuted, C12_seed_refuted, C12_uninitialised_refuted, C12_bidirectional_refuted, C12_incomplete_refuted, C13_first_has_priority, C13_empty_right, C13_empty_left, C13_associative, C13_non_objects_rejected_partial, C13_null, C13_non_objects_rejected_refuted, C14_required, C14_missing_reported, C14_unconvertible_raises_partial, C14_unconvertible_is_invalid_argument_refuted, C14_default, C14_optional, C14_vector_round_trip, C14_matrix_round_trip, C14_wrong_length_rejected, C14_component_reference, C14_component_reference_reported, C14_component_reference_or_null, C15_atomic, C15_exact, C15_bad_reference_refuted, C15_add_primitive_refuted, C16_well_formed, C16_only_groups_have_children, C16_imported_env_light_refuted, C17_each_path_once, C17_primitives, C17_terminates, C17_only_primitives_refuted, C18_sound_links_partial, C18_missing_child_refuted, C18_cycle_refuted, C19_lights, C19_index_of_last, C19_lookup_inverse, C19_instanced_lookup_refuted, C20_import, C20_import_nodes, C20_add_child_from_model, C21_each_pixel_sample_once, C21_never_twice, C21_time_based, C22_consecutive, C22_time_based, C23_each_once, C23_at_most_once, C23_rethrow, C23_terminates, C23_thread_count_refuted, C23_thread_count, C24_monotone, C24_first_loop_partial, C24_every_loop_partial, C24_second_loop_refuted, C25_no_splat_lost_any, C26_atomic, C26_atomic_always, C26_lock_free, C27_set_pixel, C27_update_pixel, C27_buffer, C28_bijective, C30_sanity_partial, C30_sanity_refuted, C40_vertices, C40_index, C40_connects, C45_load, C45_constant, C46_index, C46_exact, C46_vertex, C46_in_range, C47_simple_partial, C47_long_line_refuted, C47_polygon_refuted, C47_tiny_partial, C47_tiny_refuted, C48_output, C48_unique, C48_scope_restores, C48_unbalanced, C49_mux, C49_delay_partial, C49_delay_refuted, C50_restores_partial, C50_other_platforms, C50_refuted, C52_multi_missing_refuted, C54_number, C54_raw, C58_pointer_round_trip, C59_replaces_partial, C59_refuted, C60_parameters, C60_last, C63_renderable, C64_matrix_refuted, C68_is_light, C75_saved, C75_renderers_refuted, C75_dotted_name_refuted, C75_answers, C79_threads, C79_first_partial, C79_one_thread_partial, C79_again_refuted, C79_seed_ignored_refuted, C79_schedule_refuted, C79_consecutive_refuted, C80_nanort, C80_embree, C80_instanced, C81_traversable, C81_no_instances_partial, C81_instances_partial, C81_first_instance_refuted, C81_nested_refuted, C86_meaning, C86_reported_partial, C86_reported_refuted, C86_python_round_trip, C86_json_round_trip_partial, C86_integers_refuted, C87_vector_partial, C87_matrix_partial, C87_vector_round_trip, C87_matrix_round_trip, C87_reported, C87_view_refuted, C87_transpose_refuted, C87_length_refuted, C88_reported_partial, C88_scene_partial, C88_medium_refuted, C88_unreported_refuted, C89_determines, C89_locators, C89_elsewhere_refuted, C91_dispatch_partial, C91_not_forwarded_refuted, C91_max_scalar_refuted, C92_round_trip_partial, C92_lost_refuted, C92_misaligned_refuted, C93_python_asset_partial, C93_made_in_python_partial, C93_leak_refuted, C93_cpp_asset_partial, C93_dangling_refuted, C94_exclusive, C94_no_deadlock, C94_bounded_work, C94_each_once, C94_returns, C105_load, C105_two_forms, C105_effect, C105_rejected, C105_init, C105_primitive, C105_named_prop_refuted, C105_wrong_interface_refuted, C110_exclusive, C110_no_deadlock, C110_no_livelock, C110_each_once, C110_returns, C110_exception_reaches_caller_partial, C110_exception_reaches_caller_refuted, C111_logger, C111_streams, C111_logger_refuted, C111_registered_refuted, C111_registered_partial, C111_film_refuted, C111_array_refuted, C111_array_partial, C115_march, C117_flags_partial, C117_filter_lost, C117_flags_again, C117_arguments, C117_arguments_again, C117_ignored, C117_failed, C117_flags_refuted, C117_depth_refuted, C117_failed_refuted, C118_format, C118_parse, C118_missing, C118_places, C118_extra, C118_example, C118_text_refuted, C118_text_partial, C118_shape_refuted, C120_meshes_partial, C120_one_material, C120_material, C120_default, C120_stops, C120_no_file, C120_empty_shape, C120_meshes_refuted, C120_default_refuted, C123_spaced, C123_number, C123_samples, C123_time, C123_eta, C123_defined_partial, C123_end, C123_not_started, C123_defined_refuted.
- **`ClassicalDedekindReals.sig_forall_dec`** (25 theorems): C27_construct, C27_splat_pixel, C27_clear, C27_rescale, C27_accum, C27_accum_mismatch, C27_buffer_empty_refuted, C27_export, C27_flip, C27_unchecked_refuted, C34_empty, C54_foreach, C54_at, C54_agree, C54_obj, C55_blank, C62_pass, C95_latest_partial, C95_buffer, C95_snapshot_refuted, C95_live_refuted, C95_dangling_refuted, C108_at, C108_foreach, C115_missing_file.
- **`ClassicalDedekindReals.sig_forall_dec`, `FunctionalExtensionality.functional_extensionality_dep`** (96 theorems): C19_selection_valid, C19_selection_uniform, C19_no_lights_refuted, C25_no_splat_lost, C28_in_film, C28_defined, C28_defined_refuted, C28_contains, C28_clamped, C28_splat, C29_mean, C29_any_order_refuted, C31_probability, C31_outside, C31_sums_to_one, C31_sample, C31_interval, C31_one_refuted, C31_empty_refuted, C32_sample, C32_integral_partial, C32_upper_edge, C32_right_edge, C32_zero_row_refuted, C32_reinit_refuted, C33_merge, C33_merge_point, C33_merge_laws, C33_neutral, C33_neutral_refuted, C33_conservative, C33_exact_partial, C33_exact_refuted, C33_center, C33_area, C34_terminates, C34_progress, C34_completes, C34_safe, C34_tree, C34_once, C34_no_workers_refuted, C35_nearest_partial, C35_nearest_small_partial, C35_deep_refuted, C36_sound, C36_complete_partial, C36_complete_refuted, C36_box, C37_frame, C37_round_trip, C37_twosided, C38_reflection, C39_balance, C39_balance_zero, C42_path_components, C43_rr_selection, C43_marginalized_selection, C43_rr_components, C43_marginalized_density, C43_marginalized_specular, C43_marginalized_sampling, C43_total, C43_reflectance, C45_lookup, C45_periodic, C45_pixels, C45_alpha, C45_grey_refuted, C51_convert_partial, C51_convert_refuted, C51_correction, C55_raycast, C55_shading, C55_windows, C55_own_pixel, C55_path, C56_path_rounds, C56_volume_rounds, C56_light_rounds, C56_path_splats, C56_roulette, C57_buildable, C68_absent, C69_bound, C85_image, C85_path, C85_volume, C85_mean, C108_transform, C108_composition, C111_bar, C115_construct, C115_majorant, C115_again_refuted, C116_meeting.
- **`ClassicalDedekindReals.sig_forall_dec`, `ClassicalDedekindReals.sig_not_dec`, `FunctionalExtensionality.functional_extensionality_dep`** (129 theorems): C38_refraction, C38_total, C38_sines, C39_optimised, C39_optimised_sum, C39_optimised_densities, C39_power, C41_optimised_partial, C41_optimised_ends, C41_optimised_scene, C41_limit_partial, C41_continues, C41_ends, C41_one_refuted, C41_scene, C42_camera_rays, C42_camera_direct_partial, C42_camera_direct_refuted, C42_material_weights_partial, C42_alpha_mask_refuted, C42_path_camera_rays, C42_path_direct_camera_partial, C42_phase, C43_single, C43_glass_selection, C43_obj_selection, C43_obj_sampling, C43_glass_in_mixture_refuted, C43_nested_refuted, C44_look_at, C44_matrix, C44_round_trip, C44_inverse, C44_frustum, C44_importance, C44_density, C44_field_of_view, C44_aspect, C51_geometry_term, C51_geometry_value, C51_convert_area, C52_sphere, C53_domains, C53_triangle, C53_light_area_partial, C53_light_area_refuted, C54_interpolation, C54_mixed_undefined, C55_center, C55_camera, C56_rr_prob_refuted, C57_intersect, C57_visible, C57_visible_infinite, C57_far_points_refuted, C57_symmetric_partial, C57_symmetric_refuted, C57_transmittance_vacuum, C57_transmittance_medium, C57_transmittance_infinite_refuted, C57_distance, C57_distance_weight, C57_distance_vacuum_refuted, C61_reciprocity, C61_nonnegative, C61_defined, C61_glass_energy, C62_reflection, C62_refraction, C62_same_side, C64_projection, C65_weights_partial, C66_density, C67_henyey_greenstein_partial, C67_isotropic, C67_small_refuted, C67_one_refuted, C68_sampling, C68_evaluation, C68_endpoints, C70_weight, C70_usable, C71_contribution_partial, C71_connects, C71_missed_partial, C71_sample, C71_splat_partial, C71_raster_partial, C72_materials, C72_total_reflection_refuted, C72_camera, C72_phases, C73_positions, C73_rays, C73_density_partial, C73_cover, C73_value, C73_direct, C74_expected_image, C74_nee_mis, C74_all_modes, C74_hidden_refuted, C76_primitives_partial, C76_file_partial, C76_created, C76_mesh_name_refuted, C76_same_name_refuted, C76_stem_refuted, C77_product, C77_same, C82_naive, C82_nee, C82_lt, C82_bdpt, C82_total, C82_no_distant_light, C82_distant_refuted, C83_expected_image, C83_same_image, C83_clear_medium, C84_expected_image, C90_channel_refuted, C96_pixel, C96_image, C96_mean, C96_no_samples_refuted, C96_environment_refuted, C108_interpolation, C108_same_as_obj.
- **`ClassicalDedekindReals.sig_forall_dec`, `ClassicalDedekindReals.sig_not_dec`, `Classical_Prop.classic`, `FunctionalExtensionality.functional_extensionality_dep`** (192 theorems): C30_bytes, C30_monotone, C30_zero, C30_one, C30_value, C30_range_refuted, C30_save, C39_scene, C42_light_rays, C42_light_directions, C42_light_positions, C42_light_direct, C42_path_light_rays, C42_path_direct_light, C42_path_directions_partial, C42_path_positions_partial, C42_path_positions_refuted, C42_path_instanced_refuted, C52_ratio_unbiased, C52_delta_unbiased, C52_homogeneous_unbiased, C52_density, C52_majorant, C52_defined, C52_multi, C52_multi_color, C52_gaussian_bound_partial, C52_gaussian_bound_refuted, C52_homogeneous, C52_homogeneous_multiplicative, C52_homogeneous_sampling, C52_delta_tracking, C52_tracking_ends, C52_ratio_tracking, C52_default_bound_refuted, C53_disk, C53_hemisphere, C53_sphere, C57_sound_media, C65_density, C65_value, C65_map, C65_sample_partial, C65_refuted, C66_cover, C66_rays, C67_covers, C68_light_flags, C69_lights_reach, C71_scene_partial, C72_lights, C77_flat, C77_tilted, C77_smooth_refuted, C78_single_precision, C78_exact, C90_cutoff_partial, C90_exact_partial, C90_bounded_partial, C97_sample, C97_interval, C97_error, C97_outside, C97_every_entry_refuted, C97_overflow_refuted, C98_merge, C98_nested_partial, C98_ancestors_partial, C98_margin_partial, C98_lost_refuted, C98_conservative_refuted, C98_nested_refuted, C99_sum, C99_two_runs, C99_rescaled, C99_schedule_refuted, C100_range, C100_constant, C100_mean, C100_first_refuted, C101_hit_in_range, C101_nearest_partial, C101_clear_partial, C101_lost_refuted, C101_nan_refuted, C102_normalize, C102_cosine, C102_sphere, C102_basis, C102_reflection_partial, C102_reflection_refuted, C103_range, C103_value, C103_sum_partial, C103_exclusive, C103_overflow_refuted, C104_total, C104_reported, C104_refraction_partial, C104_component_refuted, C106_terminates, C106_progress, C106_safe, C106_tree, C106_query_partial, C107_pixel, C107_outside, C107_outside_refuted, C107_position, C107_own_partial, C107_near, C107_centre, C107_edge_refuted, C107_table_partial, C107_table_refuted, C109_basis, C109_direction, C109_round_trip_partial, C109_returned, C109_edge_refuted, C109_accuracy, C109_range, C109_range_refuted, C109_pixel_partial, C112_weights, C112_point, C112_interpolates, C112_hit, C112_area, C112_light, C112_plane_refuted, C112_area_refuted, C112_area_partial, C113_symmetric, C113_distance_symmetric, C113_term, C113_distance, C113_bound, C113_coincident_refuted, C114_lookup, C114_periodic, C114_texel_partial, C114_defined, C114_wrap_refuted, C115_events, C115_transmittance, C115_unbiased, C115_backwards, C115_negative_refuted, C116_point, C116_point_facing, C116_accurate, C116_found_partial, C116_invisible, C116_found_refuted, C119_byte, C119_nearest, C119_monotone, C119_black, C119_white, C119_undefined, C119_single, C119_single_nearest, C119_single_exact, C119_single_monotone, C119_single_large, C119_defined_refuted, C119_single_refuted, C121_bounded, C121_multi, C121_sum, C121_box, C121_outside, C121_collision, C121_transmittance, C121_factor, C121_sample, C121_ends_refuted, C121_certain_refuted, C122_degenerated, C122_sides, C122_along, C122_projected, C122_area_symmetric, C122_area, C122_finite_refuted, C124_exponent, C124_bounded, C124_centre, C124_bounded_refuted, C124_symmetric, C124_monotone.

## What is modelled

Source file and the model files that cite it; `-` means not modelled (see below).

- include/lm/accel.h: -
- include/lm/assetgroup.h: -
- include/lm/bidir.h: BdptModel, BidirModel
- include/lm/camera.h: PathModel
- include/lm/common.h: ClassModel, FBoundModel, FltModel, JupModel
- include/lm/component.h: AssetModel, ClassModel, HoldModel, LocModel, RegModel, SaveModel, SceneModel, SerialModel, TrampModel, UnderModel
- include/lm/core.h: -
- include/lm/debug.h: -
- include/lm/exception.h: LogModel
- include/lm/film.h: FFilmModel, FRasterModel, FilmModel, ViewModel
- include/lm/json.h: ArgsModel, JsonModel, VdbModel
- include/lm/jsontype.h: ArgsModel, JsonModel
- include/lm/light.h: LightModel, PathModel
- include/lm/lm.h: -
- include/lm/logger.h: LogModel, RGilModel
- include/lm/loggercontext.h: -
- include/lm/material.h: MatModel, SurfModel
- include/lm/math.h: BidirModel, ClassModel, DistModel, FBoundModel, FDirModel, FDistModel, FMathModel, FRasterModel, FTreeModel, FTriModel, FltModel, GeoModel, LightModel, MatModel, MeshModel, RenderModel, RngModel, SurfModel
- include/lm/medium.h: VolModel
- include/lm/mesh.h: AccelModel, FTriModel, MeshModel
- include/lm/model.h: -
- include/lm/objloader.h: ClassModel, ObjAssetModel, ObjModel, TinyModel
- include/lm/parallel.h: -
- include/lm/parallelcontext.h: -
- include/lm/path.h: BidirModel, PathModel, RenderModel, VisModel
- include/lm/phase.h: PhaseModel
- include/lm/progress.h: EtaModel, RGilModel
- include/lm/progresscontext.h: -
- include/lm/pylm.h: CallModel, HoldModel, PyModel, RGilModel, TrampModel
- include/lm/renderer.h: -
- include/lm/scene.h: BidirModel, ClassModel, RenderModel, SceneModel, VisModel
- include/lm/scenenode.h: ClassModel, PathModel, SceneModel, UnderModel
- include/lm/scheduler.h: -
- include/lm/serial.h: ClassModel, CodecModel, SaveModel, SerialModel
- include/lm/serialtype.h: CodecModel, SerialModel
- include/lm/surface.h: BidirModel, FGtermModel, FPdfModel, LightModel, MatModel, PathModel, SurfModel
- include/lm/texture.h: MatModel
- include/lm/timer.h: -
- include/lm/user.h: RegModel
- include/lm/version.h: -
- include/lm/volume.h: FMultiModel, MarchModel, VdbModel, VolModel
- plugin/accel_embree/accel_embree.cpp: AccelModel, EmbModel
- plugin/accel_embree/accel_embree_instanced.cpp: AccelModel, EmbModel
- plugin/accel_embree/embree_params.h: EmbModel
- plugin/accel_nanort/accel_nanort.cpp: AccelModel
- plugin/model_pbrt/model_pbrt.cpp: PMeshModel, PbrtModel
- plugin/objloader_tinyobjloader/objloader_tinyobjloader.cpp: ObjModel, TinyModel
- plugin/volume_openvdb/renderer_volraycast.cpp: MarchModel
- plugin/volume_openvdb/volume_openvdb.cpp: MarchModel, VdbModel
- src/accel/accel_sahbvh.cpp: AccelModel, BvhModel, ClassModel, FBoundModel, FBvhModel, FTreeModel, GeoModel, VisModel
- src/assetgroup.cpp: AssetModel, ClassModel, CodecModel, SaveModel, UnderModel
- src/camera/camera_pinhole.cpp: CamModel, ClassModel, FCamModel, FFilmModel, PathModel
- src/component.cpp: AssetModel, HoldModel, LocModel, RegModel, SerialModel
- src/debug.cpp: TreeModel
- src/exception.cpp: LogModel
- src/film/film_bitmap.cpp: CasModel, ClassModel, FFilmModel, FSaveModel, FilmModel, ViewModel
- src/light/light_area.cpp: ClassModel, FTriModel, LightModel, SurfModel, UnderModel
- src/light/light_directional.cpp: ClassModel, LightModel
- src/light/light_env.cpp: ClassModel, LightModel, SaveModel, UnderModel
- src/light/light_envconst.cpp: ClassModel, LightModel
- src/light/light_point.cpp: ClassModel, LightModel
- src/logger.cpp: LogModel
- src/material/material_diffuse.cpp: AssetModel, ClassModel, MatModel, SaveModel, UnderModel
- src/material/material_glass.cpp: ClassModel, MatModel
- src/material/material_glossy.cpp: ClassModel, MatModel
- src/material/material_mask.cpp: ClassModel, MatModel
- src/material/material_mirror.cpp: ClassModel, MatModel
- src/material/material_mixture.cpp: ClassModel, MatModel, UnderModel
- src/material/material_proxy.cpp: ClassModel, MatModel, UnderModel
- src/medium/medium_heterogeneous.cpp: ClassModel, FMultiModel, VolModel
- src/medium/medium_homogeneous.cpp: ClassModel, VolModel
- src/mesh/mesh_raw.cpp: ClassModel, MeshModel
- src/mesh/mesh_wavefrontobj.cpp: ClassModel, MeshModel, ObjModel
- src/model/model_wavefrontobj.cpp: AssetModel, ClassModel, MatModel, MeshModel, ObjAssetModel, SaveModel, UnderModel
- src/objloader/objloader.cpp: -
- src/objloader/objloader_simple.cpp: ObjAssetModel, ObjModel
- src/parallel/parallel.cpp: ParModel
- src/parallel/parallel_openmp.cpp: GilModel, ParModel, RGilModel, SchedModel
- src/phase/phase_hg.cpp: ClassModel, PhaseModel
- src/phase/phase_isotropic.cpp: ClassModel, PhaseModel
- src/progress.cpp: EtaModel, LogModel
- src/pylm.cpp: CallModel, GilModel, HoldModel, JupModel, RGilModel, TrampModel, ViewModel
- src/renderer/renderer_bdpt.cpp: ClassModel, ImageModel, PathRendModel, RngModel
- src/renderer/renderer_bdptopt.cpp: BdptModel, ClassModel, ImageModel, RngModel
- src/renderer/renderer_blank.cpp: ClassModel, RenderModel, UnderModel
- src/renderer/renderer_lt.cpp: ClassModel, ImageModel, RenderModel, RngModel, UnderModel
- src/renderer/renderer_pt.cpp: ClassModel, FRasterModel, FilmModel, RenderModel, RngModel, UnderModel
- src/renderer/renderer_raycast.cpp: ClassModel, FRasterModel, FilmModel, RenderModel, SaveModel, UnderModel
- src/renderer/renderer_volpt.cpp: ClassModel, FRasterModel, ImageModel, RenderModel, RngModel, UnderModel
- src/scene.cpp: AccelModel, ClassModel, PMeshModel, PathModel, SceneModel, SelectModel, UnderModel, VisModel
- src/scheduler.cpp: ClassModel, RGilModel, SchedModel, UnderModel
- src/serial.cpp: -
- src/texture/texture_bitmap.cpp: ClassModel, FTexModel, TexModel
- src/texture/texture_constant.cpp: ClassModel, TexModel
- src/user.cpp: RegModel
- src/version.cpp: -
- src/volume/volume_checker.cpp: ClassModel, VolModel
- src/volume/volume_constant.cpp: ClassModel, FMultiModel, VolModel
- src/volume/volume_gaussian.cpp: ClassModel, FGaussModel, VolModel
- src/volume/volume_multi.cpp: ClassModel, FMultiModel, VolModel
- src/volume/volume_sphere.cpp: ClassModel, FMultiModel, VolModel

Simplifications that hold everywhere:

- `Float` is R; rounding, overflow to infinity and NaN are not modelled, except where a file says so
  (division by zero gives a separate non-finite result in the models of materials, lights, cameras and paths;
  the slab test of GeoModel has infinities and NaN). The files whose names start with F (FltModel, FDistModel,
  FBoundModel, FFilmModel, FBvhModel, FDirModel, FMathModel, FTreeModel, FRasterModel, FCamModel,
  FTriModel, FGtermModel, FTexModel, FSaveModel, FMultiModel, FPdfModel, FGaussModel) use IEEE binary64 as Flocq defines it, with every operation rounded to nearest even: they
  assume that the compiler neither contracts multiplications and additions nor reorders (no fast-math), and that the
  rounding mode is left alone.
- Memory is sequentially consistent. Data races in the sense of the C++ standard are reported as findings, not
  given a semantics.
- Random numbers are arguments: a function that draws numbers takes them as inputs, and theorems quantify over
  all of them. The generator itself (std::mt19937), its seeding and the single-precision numbers are in RngModel,
  on IEEE numbers; std::uniform_real_distribution is not modelled.
- Third-party libraries are represented by their documented behaviour: nlohmann::json as a value type with
  ordered objects, cereal's portable binary format as bytes (CodecModel), glm as real vectors and matrices,
  std::sort as any permutation, OpenMP as the machine of ParModel, stb_image and OpenEXR as a function from
  files to arrays.
- Logging is modelled in LogModel and left out elsewhere.

Not modelled:

- of the Python binding (src/pylm.cpp) the list of exposed C++ functions; the trampolines, the lifetime of components
  shared with Python and the casters of include/lm/pylm.h are modelled (C86, C87, C91-C93, C105), so are
  the locks that render() takes (RGilModel, C110) and the names that the package exports (JupModel, C111); of pybind11 only what these
  use: lookup of overrides by name, reference counts, holders, choice of overloads;
- the libraries that plugins wrap (Embree, NanoRT, OpenVDB): AccelModel has what accel_embree and accel_nanort hand
  to them and how answers are read, EmbModel the parameters (C117); volume_openvdb
  (VdbModel, C115; its renderer is in MarchModel); of model_pbrt the parser;
  of objloader_tinyobjloader the parsing by the library (its result is an input of TinyModel);
- of src/debug.cpp the polling hook and the debugger launch; include/lm/version.h, include/lm/timer.h, pch/;
- headers that only declare interfaces (accel.h, assetgroup.h, camera.h, model.h, renderer.h, scheduler.h,
  parallel.h, progress.h and the *context.h files) have no code of their own; their implementations are modelled;
- the operating system: files are contents or absent, dynamic libraries are an oracle, stack traces are not
  modelled.

## Findings

Behaviour of the code that contradicts what a user may rely on. "(Cnn_x)" names the theorem that shows it; findings
without a name were noticed while modelling and are not proved.

Components, plugins, state
- Unregistering an implementation erases by key, also when another module registered the key later (C03).
- A scope guard for plugins whose constructor throws does not unload (C04).
- Asset calls before initialisation dereference null; after shutdown they are accepted (C05).
- A failing construction leaves a half-constructed asset registered and the replaced one released (C08, C06).
- load_serialized does not check names (C06).
- A reference to a sibling whose name extends that of the exported asset is accepted on export (C11).
- A class that is not registered when loading is dropped without a message (C09_unregistered_class_refuted).
- Members left out of the archive: alpha of constant textures, colour and scalar of constant volumes, scale of the
  environment light, albedo of homogeneous media, medium of the scene, colour of the ray caster, seeds and sampling
  modes of path tracers, everything of the bidirectional renderers (C12_*_refuted).
- The flag `instanced` of a scene node is not initialised for primitives (scenenode.h:90, 122-132).
- renderer::pt, lt, volpt and volpt_naive own a scheduler under their locator but do not answer for it, so no state
  holding one can be saved (C75_renderers_refuted).
- OBJ materials with a dot in their name cannot be found or saved (C75_dotted_name_refuted).
- The error for JSON values that cannot be converted is that of the JSON library (C14); merge accepts non-objects in
  release builds (C13).

Scene
- Child indices are not checked; cycles are accepted (C18). Bad references beside a good one are dropped; a failing
  add_primitive leaves an orphan group (C15). Environment lights of imported models are not recorded (C16).
- The index of a light is that of its last instance (C19), so densities of instanced lights are wrong (C42).
- Without lights, selection gives index -1 and an infinite probability (C19).
- Visibility is not symmetric; points further away than 10^10 are occluded by the environment (C57).

Parallel execution
- Thread-local progress counters survive a loop (C24). Negative thread counts are accepted (C23).
- BVH construction with zero workers builds nothing; no triangles throw std::length_error; `done` is read without a
  lock (C34). The traversal stack of 99 entries can overflow (C35). Triangles with determinant below 10^-8 are never
  hit (C36).
- Averaging in a film is right only if samples arrive in order (C29).
- The thread-local generators are not seeded again for a second render.

Film, textures
- Raster positions too large for an int (C28), negative or huge pixel values (C30) give undefined conversions; the
  sanity check looks at a third of the image and its result is ignored (C30).
- Images with one or two components are read beyond their end (C45_grey_refuted).

Distributions, geometry
- Density in a row of zero weight is 0/0; a second init keeps the old marginal (C32). u = 1 may select an index of zero
  weight (C31). The default box is neutral only up to 10^10; slab test NaN on faces (C33).
- Conversion of densities at infinity reads an uninitialised normal (C51).

Materials, lights, cameras, media
- OBJ material: pass-through weight (C42); mixtures use only component 0 of glass and reuse a random number when nested
  (C43); asked for refraction under total reflection glass returns the zero vector (C72).
- Area lights under scaling report wrong densities (C53); environment maps compute rows by real division, so weights can
  be negative (C65).
- Connections to the camera outside the view (C42); cameras from a matrix leave `up` unset (C64); `aspect` is
  documented the other way round (C44).
- Henyey-Greenstein for small g and g = 1 (C67).
- The bound of gaussian volumes uses the deviation instead of its square; constant volumes without bounds act as
  vacuum; multi volumes with a missing reference dereference null, nested as albedo give 0/0 (C52).
- sample_distance without a medium throws std::out_of_range; transmittance from a point at infinity asserts (C57).

Renderers
- sample_subpath with a maximum of one vertex returns two (C41_one_refuted).
- bdptopt leaves component probabilities out of its weights and divides emission by them (C39, C71); min_verts < 2
  violates an assertion. If a walk from a light hit the camera, the raster position would be looked up with the
  direction in which the walk continues (w_fwd) instead of the one it came from (C71_raster_partial).
- With interpolated normals a path's measurement contribution (and the area density beside it) depends on the strategy,
  because geometry terms use shading normals and the adjoint correction does not cancel them (C77_smooth_refuted).
- Path tracing with connections on paths (pt_nee_path) connects at every vertex that is not specular, and points at infinity are
  never connected: directional and environment lights are missing from its images (C82_distant_refuted).
- rr_prob = 1 truncates paths without compensation (C56_rr_prob_refuted).
- Naive path tracing never sees point and directional lights; image mode shows directly visible point lights, pixel
  mode does not (C74); light tracing does not render directly visible lights.
- Results that may be empty are dereferenced unchecked in renderer_pt.cpp and renderer_lt.cpp; visualize_normal reads an
  uninitialised normal when the environment is hit.

Files
- OBJ lines of 4096 characters end the file silently; faces of more than four vertices are cut; the tinyobjloader plugin
  drops the first face after a change of material (C47). Faces that mix vertices with and without normals are undefined
  (C54).
- OBJ textures are named by the stem of their file, so files of the same stem in different directories share one texture;
  a material named like a mesh of the model (mesh_1) is replaced by that mesh; of two materials of one name the faces of
  the first get the emission of the first and the colours of the second (C76).

PBRT scenes
- The group made for the first instance of a PBRT object is linked to nothing, so that instance is not shown; nested
  instances get the transforms of the enclosing ones twice (C81).

Logging and guards
- Delays are truncated to milliseconds (C49); Progress and ProgressEnd have the same enumerator (C59); the guard for
  floating-point exceptions enables them on exit (C50).

Random numbers
- The generators of the renderers are thread_local variables of the callback: in one process the second rendering with a
  seed continues the numbers of the first and ignores its own seed; samples get numbers by thread, so images with more
  than one thread are not reproducible; seeds s and s+1 share streams (C79).

Python binding
- JSON integers beyond 32 bits silently become other numbers in Python; an object of any other bound class is taken for a
  component (C86).
- The vector and matrix casters ignore strides and lengths: a slice or a transposed matrix arrives as other numbers
  (`M.T` arrives as `M`), a short array is read out of bounds (C87).

References
- Nine classes do not report references they keep: scenes (the medium of a node), the renderers pt_naive_path, pt_nee_path,
  lt_nee_path, bdpt and bdptopt, volume::multi, medium::homogeneous and medium::heterogeneous. Replacing the asset leaves
  them with a dangling pointer (C88).

Ray marching (plugin)
- A colour channel without absorption and scattering gives 0/0, so the pixel is not a number (C90).

Components written in Python
- `Volume_Py::max_scalar` calls the Python method `has_scalar`: the maximum density seen by the media is 1 (True) whatever
  the class says (C91).
- Methods is_env and set_scene_bound of a light, eval_alpha, has_alpha and buffer of a texture, splat of a film, march of a
  volume, and underlying, foreach_underlying, underlying_value of any component are never called (C91).
- Only Component and Renderer save and load the state of a Python class; of a material, light, film... it is silently
  lost. A class with save and without load shifts the archive for every component after it (C92).
- A component of a Python class made by `X.create` in Python is never destroyed; a Python reference to a C++ asset
  dangles once the asset is replaced (C93). The C++ part of a destroyed Python component is leaked.
- Arrays from `film.buffer()` share one temporary buffer: the next call overwrites all earlier ones, and they dangle
  once the film is destroyed or constructed with more pixels (C95).
- `renderer::ao` of the examples reads an uninitialised normal where rays leave a scene with an environment light, and
  divides 0 by 0 with spp = 0; pixels without a hit keep their former value (C96).
- In double precision a weight below half an ulp of the sum before it is never selected by Dist; weights whose sum
  overflows give NaN probabilities (C97).
- The box test multiplies by a rounded reciprocal: a ray from the origin along (1, 49, 1) hits the triangle (1,49,1),
  (5,10,2), (8,-4,5) by the triangle test but misses the triangle's own box, because 49 times the rounded 1/49 is less
  than 1, so the BVH loses the hit (C98). A ray within a face of a box gives 0 times infinity.
- The image depends on the schedule of the threads in the last bits (C99).
- inc_ave with index 0 does not replace a pixel that is not 0: 2^60 followed by the sample 1 gives 0 (C100).
- The triangle test accepts NaN: no comparison rejects it, so a triangle with edges of 2^600 is hit at distance NaN (C101).
- A mirror reflection can have a component of 1 + 2^-51: direction (10, 24, 0) about the normal (1, 5, 0), both normalised.
  The environment light takes acos of it, which is NaN, and looks the texture up there; its pdf uses safe_sqrt (C102).
- Two densities whose sum overflows both get the weight 0 (C103).
- Light leaving glass (eta 3/2) straight downwards can have a vertical component of -1 - 2^-52, for which the environment
  light's acos is NaN (C104).
- parallel.init("parallel::openmp", prop={"num_threads": 4}) silently ignores the setting: the keyword overload matches in
  the pass without conversion and passes {"prop": {...}} (C105).
- load_<interface> with a key registered by a class of another interface loads the asset and returns None (C105).
- lightmetrica/__init__.py: registered_components calls comp.foreachRegistered, which is bound as foreach_registered.
- **C107** film.h:166-171 converts before it clamps: a raster position beyond 2^31 / w, an infinite one or NaN is an undefined conversion, not the nearest pixel as documented.
- **C107** math.h:430 may return exactly 1 for a random number below 1, for which math.h:419 looks up the column after the last: the density of a position that was just sampled is 0 (the row is clamped, the column is not).
- **C107** The left edge of pixel 1 of 49 is assigned pixel 0, and the position made for pixel 1 of 4 and the largest random number pixel 2.
- lightmetrica_jupyter/__init__.py:118: progress::film_jupyter calls `lm.buffer(film)`, which the binding does not define (only the method `buffer` of a film): its update raises AttributeError. Read, not modelled.
- **C109 (C109_edge_refuted).** src/renderer/renderer_pt.cpp:215 dereferences `path::raster_position(scene_, s->wo)` unchecked. For a direction sampled at the very edge of the film (random number 0) rounding may put the position outside [0,1], raster_position returns nothing, and the dereference is undefined. src/renderer/renderer_volpt.cpp:123, 301 and src/renderer/renderer_bdptopt.cpp:299, 308 do the same.
- **C109 (C109_range_refuted).** With a vertical field of view of 0 raster_position returns positions that are not numbers: the range test is written with < and >, both false for NaN. Film::raster_to_pixel then converts NaN to int, which is undefined (C107).
- **C110 (C110_exception_reaches_caller_refuted).** include/lm/progress.h:103 and 113 (`~ScopedReport() { end(); }`) and include/lm/logger.h:192 (`~LogIndenter`) call virtual functions that may be implemented in Python (src/pylm.cpp:387-403, 312-320) from destructors. Destructors are noexcept: a Python progress reporter whose end() raises, or a Python logger whose update_indentation() raises, ends the process by std::terminate instead of raising in the caller of render().
- **C111 (C111_registered_refuted).** lightmetrica/__init__.py:32 calls `comp.foreachRegistered`; src/pylm.cpp:167 exposes `foreach_registered`. registered_components() always raises AttributeError.
- **C111 (C111_film_refuted).** lightmetrica_jupyter/__init__.py:119 calls `lm.buffer(self.film)`, which neither the binding nor the package defines (there is Film.buffer). The reporter progress::film_jupyter raises on every report, and in end(), which C++ calls from a destructor, so that the process is terminated (C110).
- **C111 (C111_array_refuted).** lightmetrica/__init__.py:24 makes arrays of float32; the library is compiled with Float = double (include/lm/common.h:280) and the caster of include/lm/pylm.h:181 demands the exact element type. lm.array values are rejected by every function that takes vectors or matrices.
- **C111 (C111_logger_refuted).** The notebook logger repeats neither header nor indentation on the further lines of a message, and its indentation goes below zero where that of the terminal logger stays at zero.
- **C112 (C112_plane_refuted).** `a * (1 - u - v) + b * u + c * v` (include/lm/math.h:574) does not keep a coordinate that the three vertices share: hits on and samples of an axis-aligned triangle leave its plane and its bounding box by an ulp.
- **C112 (C112_area_refuted).** The area is the square root of a sum of squares of products (src/light/light_area.cpp:69-70), which underflows for tiny triangles: a light made of proper triangles of edges below about 2^-270 has total area 0, invA_ infinite and a table of NaN.
- **C113 (C113_coincident_refuted).** geometry_term (include/lm/surface.h:343) divides by the distance without a test: two points at the same place give 0/0 = NaN, which goes into contributions and the film (or raises, with floating-point exceptions enabled). The callers test for zero contributions, not for NaN.
- **C114 (C114_wrap_refuted).** t - floor(t) is 1, not below 1, for small negative t (src/texture/texture_bitmap.cpp:69); the clamp that follows keeps the lookup inside of the image. Not a bug, but the clamp cannot be removed. An infinite or NaN coordinate makes the conversion to int undefined (C114_defined).
- **C115 (C115_negative_refuted, C115_backwards).** volume::openvdb_scalar accepts a negative scale (volume_openvdb.cpp:50); the maximum is then the smallest density, delta tracking walks backwards, never reaches the end of the range and reports events behind the origin of the ray, or does not end.
- **C115 (C115_again_refuted).** construct loads the file before it reads the scale (volume_openvdb.cpp:45-50): if the scale is of the wrong type, an instance that was constructed before evaluates the new file with the old bound and maximum.
- **C116 (C116_found_refuted, C116_invisible).** Tri::intersect compares the determinant with an absolute 1e-8 (accel_sahbvh.cpp:67): triangles whose area is below about 5e-9 (right-angled with sides of 1e-4, say, in scenes measured in metres) are never hit, from any side and at any distance.
- **C117 (C117_filter_lost, C117_flags_refuted).** embree_params.h:98 tests the elements 0 to 3 of an array whose flags are in 1 to 4: if filter is the only flag asked for, it is reset to RTC_SCENE_FLAG_NONE.
- **C117 (C117_ignored, C117_depth_refuted).** maxDepth, maxBranchingFactor, sahBlockSize, minLeafSize, maxLeafSize, travcost and intcost are read and logged but never passed to Embree: build uses only the quality (accel_embree.cpp:86-87, accel_embree_instanced.cpp:179-180).
- **C117 (C117_failed_refuted).** construct stores the build arguments before it reads the flags (accel_embree.cpp:43-44): if a flag is not a boolean, the instance has new arguments and old flags.
- **C118 (C118_missing).** parse_positional_args<N> reads N arguments from the vector without a check (json.h:122): running an example with too few arguments is undefined behaviour, not a usage error.
- **C118 (C118_text_refuted, C118_shape_refuted).** Arguments are pasted into the JSON text without escapes: a file name such as C:\temp becomes another one (tab for \t) or an error, and an argument with a quote can set other options.
- **C119 (C119_undefined, C119_defined_refuted).** The byte is computed as int(256 t^(1/2.2)) before it is clamped (film_bitmap.cpp:267-268): for a negative, NaN or infinite value, and from about 2^51 on, the conversion to int is undefined; on x86 the brightest pixels become black (INT_MIN is clamped to 0).
- **C119 (C119_single_refuted).** Film values from 2^128 on, which are numbers on the film, are infinite in HDR and PFM files (film_bitmap.cpp:264).
- **C120 (C120_meshes_refuted).** The face at which the material changes is neither in the mesh before nor in the one after (objloader_tinyobjloader.cpp:122-136: the indices are pushed in the else branch only): each change of material within a shape loses a triangle.
- **C120 (C120_empty_shape).** material_ids[0] of a shape without faces (line 111; shapes of lines or points), and &geo.ps[0] of a file without vertices (line 52), are undefined.
- **C120 (C120_default_refuted).** The default material leaves Ks, Ke, Ni, Ns and an uninitialised (lines 94-98); model_wavefrontobj.cpp:96 reads Ke to decide whether the mesh emits light.
- **C121 (C121_ends_refuted).** In a volume of density zero, a first random number of zero makes the distance NaN (0 times infinity, medium_heterogeneous.cpp:53-56 and 93-95); all comparisons with it are false, and both tracking loops run forever.
- **C121 (C121_certain_refuted).** Where the density is the maximum, the probability of a collision can be 1 - 2^-53 (density * (1 / max), for a maximum of 49 for instance).
- **C122 (C122_finite_refuted).** Only a cosine of exactly zero is caught (surface.h:383): for a direction almost along the surface, the density divided by a tiny cosine overflows to infinity.
- **C123 (C123_defined_refuted).** src/progress.cpp:133 multiplies the milliseconds so far by the samples left before it divides: a signed overflow after about five days of 1920 by 1080 pixels with 10000 samples each. The helper estimateETA (170-176) is never called.
- **C124 (C124_bounded_refuted).** src/volume/volume_gaussian.cpp:80-82 divides squares: for a positive standard deviation below about 1e-162 the square is zero and the density in the centre is 0/0, not a number.
