{"id": "C01", "title": "Locators compose and decompose without loss", "statement": "Appending a child name to a locator and then asking for the parent locator and the name gives back exactly the base locator and the child name, for every dot-free child name; two different (base, dot-free child) pairs never produce the same locator.", "quantifier": "all strings used as base locator and all dot-free strings used as child name", "why_tests_cant": "the claim is about all strings; tests only try a handful of locators", "anchors": ["include/lm/component.h: Component::make_loc, Component::parent_loc, Component::name"]}
{"id": "C02", "title": "Resolving a locator walks the component hierarchy segment by segment", "statement": "Looking up a locator returns the component obtained from the registered root by following each dot-separated segment after the leading '$' through the component's name query, returns null as soon as a segment is missing, and returns null for the empty locator, for a locator not starting with segment '$', and when no root is registered. In particular, in a hierarchy where every component's recorded locator equals its parent's locator plus its own name, looking up a component's own locator returns that very component.", "quantifier": "all locators (arbitrary strings) and all component hierarchies of any depth and branching", "why_tests_cant": "unbounded depth and arbitrary strings, including empty segments and trailing dots", "anchors": ["src/component.cpp: ComponentContext::get", "include/lm/component.h: comp::get"]}
{"id": "C03", "title": "Component registry behaves like a map with one level of aliases", "statement": "After any history of registrations and unregistrations, creating a component by a name yields an instance of the implementation most recently registered under the key the name resolves to (an alias is tried first, one level only) and not unregistered since, or null if there is none, and the instance reports the resolved key, never the alias. Unregistering one implementation leaves names that the other registrations claimed working.", "quantifier": "all sequences of register/unregister/create calls with arbitrary keys and aliases", "why_tests_cant": "histories are unbounded; the interesting failures need overlapping keys and aliases in a particular order", "anchors": ["src/component.cpp: ComponentContext::create_comp, reg, unreg", "include/lm/component.h: RegEntry"]}
{"id": "C04", "title": "Plugin bookkeeping is consistent with what is loaded", "statement": "After any history of plugin loads and unloads, a plugin is recorded as loaded exactly if its last successful load was not followed by a successful unload; loading twice is a no-op; a failed load or unload reports an IO error and changes nothing; a scope guard that loads several plugins leaves none of them loaded when it is left, even if one of the loads fails; and loading a plugin directory ignores individual failures.", "quantifier": "all sequences of load, unload, scoped load and directory load with arbitrary success or failure of the operating system calls", "why_tests_cant": "depends on every combination of failures at every position in the sequence", "anchors": ["src/component.cpp: ComponentContext::load_plugin, unload_plugin, load_plugin_directory, unload_all_plugins", "include/lm/component.h: ScopedLoadPlugin"]}
{"id": "C05", "title": "Use before initialization is always reported, and re-initialization replaces the context", "statement": "For every history of init and shutdown calls on a subsystem, accessing it raises an Uninitialized error exactly when no initialization has succeeded since the last shutdown; init while initialized releases the old context first, and at most one context instance is alive at any time.", "quantifier": "all sequences of init (with valid and invalid types), shutdown and access calls", "why_tests_cant": "histories are unbounded and failures of init matter at every position", "anchors": ["include/lm/component.h: ContextInstance", "src/user.cpp: UserContext, check_initialized"]}
{"id": "C06", "title": "Asset group is a name-indexed map with stable order", "statement": "After any history of asset loads, querying a name returns the instance most recently loaded successfully under that name (null if none); loading an existing name replaces only that entry and keeps its position; loading a new name appends; names containing characters outside word characters, ':' and '-' are rejected without any change; a failed creation changes nothing.", "quantifier": "all sequences of load_asset and load_serialized calls with arbitrary names, factories and construction outcomes", "why_tests_cant": "the name table and the storage are two structures kept in sync by hand; agreement must hold after every history", "anchors": ["src/assetgroup.cpp: AssetGroup_::load_asset, load_serialized, underlying, foreach_underlying"]}
{"id": "C07", "title": "Replacing an asset leaves no stale reference", "statement": "When an asset is loaded under an existing name, after the call every reference to a component that is reported by some component reachable from the root is either null or points to the component currently found at the locator it had before; no reported reference points into the released instance.", "quantifier": "all component hierarchies, all reference graphs over them (including cycles of references) and all replaced assets", "why_tests_cant": "quantifies over every object graph; a test fixes one graph", "anchors": ["src/assetgroup.cpp: AssetGroup_::load_asset", "include/lm/component.h: comp::update_weak_ref, comp::visit"]}
{"id": "C08", "title": "A failing asset construction does not damage the asset group", "statement": "If constructing an asset fails with an exception, the asset group and all references are as they were before the call.", "quantifier": "all asset groups, names and construction failures", "why_tests_cant": "the failure can strike at any load in any history", "anchors": ["src/assetgroup.cpp: AssetGroup_::load_asset"]}
{"id": "C09", "title": "Saved state loads back to an equivalent hierarchy", "statement": "Serializing the state of a component hierarchy and loading the bytes back yields a hierarchy with the same keys, locators, values and owned children, in which every weak reference points to the component at the same locator as before, including references to components that appear later in the stream.", "quantifier": "all finite component hierarchies with weak references between them, all byte-level contents", "why_tests_cant": "round-trip must hold for every hierarchy shape and reference pattern", "anchors": ["include/lm/serial.h: save/load of Component::Ptr and of weak references, foreach_weakptr", "src/user.cpp: save_state, load_state"]}
{"id": "C10", "title": "Value codecs round-trip and are self-delimiting", "statement": "Encoding any value of the basic archive types (booleans, integers, floats as 8 bytes, strings, vectors, optionals, fixed-size vectors and matrices, pairs) and decoding from the bytes followed by any other bytes returns the value and exactly the remaining bytes.", "quantifier": "all values of the supported types, nested arbitrarily, and all byte suffixes", "why_tests_cant": "unbounded values; a single misplaced length or flag breaks only some inputs", "anchors": ["include/lm/serial.h: optional, vec and mat serialization"]}
{"id": "C11", "title": "Exported subtree keeps its internal references when loaded elsewhere", "statement": "Saving a single asset to a file and loading it back under another locator gives a component whose internal weak references point to the corresponding components below the new locator; an asset with a weak reference to a component outside the asset is refused with an error when saving.", "quantifier": "all component subtrees, all reference patterns and all source and destination locators", "why_tests_cant": "inside/outside is decided by comparing locator strings; must be right for every pair of names", "anchors": ["include/lm/serial.h: save_owned, load_owned, relative locators", "src/assetgroup.cpp: load_serialized", "include/lm/serialtype.h"]}
{"id": "C12", "title": "Every configuration parameter of a component survives save and load", "statement": "After saving and loading, a component behaves as before: each parameter set by construction and used later is contained in the serialized data.", "quantifier": "all components with a serialization function and all their parameter values", "why_tests_cant": "omitted fields only show for non-default parameter values", "anchors": ["src/texture/texture_constant.cpp, src/volume/volume_constant.cpp, src/light/light_env.cpp, src/medium/medium_homogeneous.cpp, src/renderer/renderer_pt.cpp, src/scene.cpp: LM_SERIALIZE_IMPL"]}
{"id": "C13", "title": "JSON parameter merge gives priority to the first object", "statement": "Merging two JSON objects yields an object whose value for each name is the first object's value if it has that name, otherwise the second's; names in neither are absent; merging with an empty object is the identity, merging is associative, and arguments that are not objects are rejected.", "quantifier": "all pairs and triples of JSON objects", "why_tests_cant": "algebraic laws over all objects", "anchors": ["include/lm/json.h: json::merge"]}
{"id": "C14", "title": "JSON parameter access is total and precise", "statement": "Reading a required parameter returns the converted value if present and convertible and raises InvalidArgument otherwise; reading with a default returns the default exactly when the name is absent; reading an optional returns nothing exactly when the name is absent. Vectors and matrices written to JSON and read back are equal, and arrays of the wrong length are rejected.", "quantifier": "all JSON objects, names, and all vectors and matrices of all supported sizes", "why_tests_cant": "every missing/ill-typed/ill-sized combination must be handled", "anchors": ["include/lm/json.h: value, value_or_none, to_json, from_json"]}
{"id": "C15", "title": "Scene node creation is atomic and validated", "statement": "Creating a primitive node either appends exactly one node carrying exactly the referenced assets and returns its index, or raises an error and leaves the scene unchanged; it raises exactly when no asset is given, when camera and light are combined, when only one of mesh and material is given, or when a second environment light is added.", "quantifier": "all scenes reachable by any sequence of scene operations and all property sets", "why_tests_cant": "every combination of parameters in every scene state", "anchors": ["src/scene.cpp: Scene_::create_primitive_node"]}
{"id": "C16", "title": "Scene graph stays well formed under every operation history", "statement": "After any sequence of scene operations every node's recorded index equals its position, the root is node 0 and is a group, only group nodes have children, and the recorded camera, environment light and medium nodes are primitive nodes carrying that asset (or unset).", "quantifier": "all sequences of scene operations, successful or failing", "why_tests_cant": "invariant over unbounded histories", "anchors": ["src/scene.cpp: reset, create_primitive_node, create_group_node, create_instance_group_node, add_child, create_group_from_model", "include/lm/scenenode.h"]}
{"id": "C17", "title": "Scene traversal visits every instance once with the composed transform", "statement": "Traversing the primitive nodes calls the visitor exactly once for every path of child links from the root to a primitive node, in depth-first child order, with the product of the local transforms of the groups along that path from the root down; on an acyclic graph the traversal terminates.", "quantifier": "all finite acyclic scene graphs, with any sharing of nodes and any local transforms", "why_tests_cant": "unbounded graphs; number of paths can be exponential in the number of nodes", "anchors": ["src/scene.cpp: traverse_primitive_nodes"]}
{"id": "C18", "title": "Every child accepted by the scene is an existing node and the graph stays traversable", "statement": "Adding a child link either raises an error or leaves a scene graph in which every child index denotes an existing node and no node is its own descendant.", "quantifier": "all scenes and all parent and child indices", "why_tests_cant": "all index pairs in all reachable scenes", "anchors": ["src/scene.cpp: add_child"]}
{"id": "C19", "title": "Light list matches the light instances and selection is uniform", "statement": "After building, the lights are exactly the light-carrying primitive instances of the traversal with their composed transforms; choosing a light from a random number in [0,1) always returns a valid light index with probability one over the number of lights, each index is chosen by a set of random numbers of length exactly that probability, the evaluated selection probability agrees, and looking up the light index of a light's node gives that light back.", "quantifier": "all scenes and all random numbers in [0,1)", "why_tests_cant": "a set of random numbers of exact measure and all scenes cannot be enumerated", "anchors": ["src/scene.cpp: build, sample_light_selection, pdf_light_selection, light_primitive_index_at, light_index_at"]}
{"id": "C20", "title": "Model import reproduces the model's node tree", "statement": "Creating a group from a model appends a copy of the model's nodes such that the copy under the returned group has the same shape, transforms and assets as the model, and existing nodes are unchanged.", "quantifier": "all models (node arrays with child links) and all scenes they are imported into", "why_tests_cant": "index shifting must be right for all sizes of scene and model", "anchors": ["src/scene.cpp: create_group_from_model, add_child_from_model"]}
{"id": "C21", "title": "Per-pixel scheduling runs each pixel-sample exactly once", "statement": "Running the samples-per-pixel scheduler invokes the callback exactly once for every (pixel, sample) pair with pixel below the number of pixels and sample below the requested count, and with no other arguments, for every number of threads and every interleaving; the returned count is the samples-per-pixel processed.", "quantifier": "all image sizes, sample counts, numbers of threads and schedules", "why_tests_cant": "all interleavings and sizes", "anchors": ["src/scheduler.cpp: Scheduler_SPP_Sample, Scheduler_SPP_Time", "src/parallel/parallel_openmp.cpp: foreach"]}
{"id": "C22", "title": "Image-space scheduling numbers samples consecutively", "statement": "Running the samples-per-image scheduler invokes the callback with sample indices 0..n-1 each exactly once where n is the returned count; the time-bounded variants number the samples consecutively across passes without gap or repetition, execute at least one pass and return the number of samples executed.", "quantifier": "all sample counts, pass sizes, clock behaviours, numbers of threads and schedules", "why_tests_cant": "clock readings and schedules are arbitrary", "anchors": ["src/scheduler.cpp: Scheduler_SPI_Sample, Scheduler_SPI_Time"]}
{"id": "C23", "title": "Parallel loop executes each iteration exactly once or reports the exception", "statement": "A parallel loop over n iterations runs every iteration exactly once on some thread with a thread id below the number of threads if no iteration fails; if some iteration throws, the loop terminates, each iteration has run at most once, and one of the thrown exceptions is rethrown to the caller after all threads have stopped.", "quantifier": "all n, numbers of threads, schedules and failing iterations", "why_tests_cant": "all interleavings with failures at every point", "anchors": ["src/parallel/parallel_openmp.cpp: ParallelContext_OpenMP::foreach", "src/parallel/parallel.cpp"]}
{"id": "C24", "title": "Progress reports never exceed the work done", "statement": "During a parallel loop every progress value reported is at most the total and the values are non-decreasing within one loop.", "quantifier": "all loops, thread counts, schedules and all histories of previous loops", "why_tests_cant": "needs particular histories of earlier loops", "anchors": ["src/parallel/parallel_openmp.cpp: foreach progress count", "include/lm/progress.h: update"]}
{"id": "C25", "title": "Concurrent splats are never lost", "statement": "After any number of threads have splatted contributions to a film, each pixel equals its initial value plus the sum of all contributions splatted to it, for every interleaving of the atomic operations.", "quantifier": "all numbers of threads, splat sequences and interleavings (exact arithmetic)", "why_tests_cant": "lost updates occur only in rare interleavings", "anchors": ["src/film/film_bitmap.cpp: AtomicWrapper::add, splat_pixel"]}
{"id": "C26", "title": "Concurrent pixel updates are atomic", "statement": "Concurrent updates of one pixel component with arbitrary functions end with the value obtained by applying all the functions in some order that respects each thread's program order, each exactly once.", "quantifier": "all update functions, numbers of threads and interleavings", "why_tests_cant": "all interleavings", "anchors": ["src/film/film_bitmap.cpp: AtomicWrapper::update_with_func, update_pixel"]}
{"id": "C27", "title": "Film operations act pixel-wise", "statement": "Setting a pixel changes that pixel only; clearing makes every pixel zero; rescaling multiplies every pixel by the scale; accumulating another film of the same size adds pixel-wise and a film of another size or kind changes nothing; reading back the buffer with or without vertical flip returns exactly the pixels row by row, and flipping twice is the identity.", "quantifier": "all film sizes, contents, positions and scales", "why_tests_cant": "index arithmetic must be right for all sizes", "anchors": ["src/film/film_bitmap.cpp: set_pixel, clear, rescale, accum, copy, buffer"]}
{"id": "C28", "title": "Raster positions map to valid pixels and pixels are numbered bijectively", "statement": "For every raster position, including those outside the unit square, the pixel index is within the film; positions inside the square map to the pixel containing them; the linear pixel index of the schedulers and renderers enumerates all pixels exactly once.", "quantifier": "all film sizes and all raster positions", "why_tests_cant": "all real positions; boundary cases at every pixel edge", "anchors": ["include/lm/film.h: raster_to_pixel, num_pixels, splat", "src/renderer/renderer_pt.cpp, src/renderer/renderer_raycast.cpp: pixel_index decomposition"]}
{"id": "C29", "title": "Incremental averaging computes the mean", "statement": "Feeding samples v_0..v_n with indices 0..n to the incremental average of a pixel leaves the arithmetic mean of the samples.", "quantifier": "all sample sequences of any length", "why_tests_cant": "unbounded sequences", "anchors": ["include/lm/film.h: inc_ave"]}
{"id": "C30", "title": "Image export writes every pixel in range and detects invalid values", "statement": "Converting a film to 8-bit gives every channel a value between 0 and 255, monotone in the radiance, with values at most zero mapping to 0 and at least one to 255; the sanity check before saving reports an error if any channel value of the film is infinite or not a number.", "quantifier": "all pixel values and film sizes", "why_tests_cant": "all real values; sanity check must cover all channels of all pixels", "anchors": ["src/film/film_bitmap.cpp: copy with conversion, save, sanityCheck"]}
{"id": "C31", "title": "Discrete distribution is a probability distribution and sampling inverts it", "statement": "After adding non-negative weights with positive total and normalizing, the probabilities are weight over total and sum to one; for every u in [0,1) the sampled index is valid, has positive probability, and the set of u mapped to an index is an interval whose length is its probability; indices out of range have probability zero.", "quantifier": "all weight sequences of any length with positive total and all u in [0,1)", "why_tests_cant": "all weight sequences and a real interval of random numbers", "anchors": ["include/lm/math.h: Dist"]}
{"id": "C32", "title": "Two-dimensional distribution is consistent", "statement": "For a table of non-negative weights with positive total, the density at a sampled point is positive and equals the table entry over the mean, the sampled point lies in the unit square in the cell that was chosen, and the density integrates to one over the cells.", "quantifier": "all table sizes and weights, all random number tuples in [0,1)", "why_tests_cant": "as for the one-dimensional case with two levels", "anchors": ["include/lm/math.h: Dist2"]}
{"id": "C33", "title": "Bounding boxes are least upper bounds and the slab test is conservative", "statement": "Merging boxes and points gives the smallest box containing both, merging is associative, commutative and idempotent with the default box as neutral element; if some point of the ray with parameter in the query interval lies in the box the intersection test succeeds and the returned range contains that parameter.", "quantifier": "all boxes, points, rays (including axis-parallel directions) and intervals", "why_tests_cant": "all real inputs including degenerate directions", "anchors": ["include/lm/math.h: Bound, merge, isect_range"]}
{"id": "C34", "title": "BVH construction partitions the triangles", "statement": "Building the acceleration structure terminates for every non-empty triangle set, every triangle is referenced by exactly one leaf, inner nodes have both children inside the node array, each node's box contains all triangles below it, and the number of nodes used is at most the number reserved, for every order in which worker threads take work items.", "quantifier": "all triangle sets and all schedules of the worker threads", "why_tests_cant": "all geometric configurations including coincident triangles, and all schedules", "anchors": ["src/accel/accel_sahbvh.cpp: Accel_SAHBVH::build"]}
{"id": "C35", "title": "BVH query returns the nearest hit", "statement": "A ray query returns no hit exactly if no triangle is hit within the query interval, and otherwise a hit whose distance is minimal among all triangles hit in the interval.", "quantifier": "all triangle sets, built trees, rays and query intervals", "why_tests_cant": "equivalence with exhaustive search over all inputs", "anchors": ["src/accel/accel_sahbvh.cpp: Accel_SAHBVH::intersect", "src/accel/accel_sahbvh.cpp: Tri::intersect"]}
{"id": "C36", "title": "Ray-triangle hit is a point of the triangle on the ray", "statement": "When the triangle test reports distance t and coordinates (u,v), the point at distance t along the ray equals the triangle point with these barycentric coordinates, which are within the triangle, and t is within the query interval; conversely a non-degenerate ray that meets the triangle in the interval is reported.", "quantifier": "all triangles, rays and intervals", "why_tests_cant": "all real inputs", "anchors": ["src/accel/accel_sahbvh.cpp: Tri::intersect"]}
{"id": "C37", "title": "Local frames are orthonormal for every unit normal", "statement": "For every unit normal the constructed tangent vectors are unit length and orthogonal to the normal and to each other and positively oriented; converting to local coordinates and back is the identity; the two-sided frame faces the incoming direction.", "quantifier": "all unit vectors including those at the sign switch", "why_tests_cant": "a real sphere of normals", "anchors": ["include/lm/math.h: orthonormal_basis", "include/lm/surface.h: make_on_surface, orthonormal_basis_twosided"]}
{"id": "C38", "title": "Reflection and refraction obey their laws", "statement": "Reflecting is an involution that preserves length and the angle to the normal; refraction, when it does not report total internal reflection, returns a unit direction on the other side satisfying Snell's law, and total internal reflection is reported exactly when Snell's law has no solution.", "quantifier": "all unit directions and normals and all relative refractive indices", "why_tests_cant": "all real inputs", "anchors": ["include/lm/math.h: reflection, refraction", "src/material/material_glass.cpp, src/material/material_mirror.cpp"]}
{"id": "C39", "title": "Multiple-importance weights sum to one", "statement": "For every path the weights of all strategies that can sample it are non-negative and sum to one; the two-technique balance heuristic weights sum to one whenever at least one density is positive.", "quantifier": "all paths of any length and all strategy densities", "why_tests_cant": "all path lengths and densities", "anchors": ["include/lm/math.h: balance_heuristic", "include/lm/bidir.h: Path::eval_mis_weight", "src/renderer/renderer_bdptopt.cpp: mis_weight_bidir"]}
{"id": "C40", "title": "Subpath connection keeps vertex order", "statement": "Connecting s light vertices and t eye vertices gives a path of exactly s+t vertices listing the light vertices in order followed by the eye vertices in reverse; accessing vertex i from the light side and vertex s+t-1-i from the eye side denote the same vertex; the interior vertices are unchanged.", "quantifier": "all subpaths and all strategies (s,t)", "why_tests_cant": "all lengths and strategies", "anchors": ["include/lm/bidir.h: connect_subpaths, Path::vertex_at, Path::index"]}
{"id": "C41", "title": "Sampled subpaths respect the vertex limit", "statement": "Sampling a subpath with a maximum number of vertices never returns more vertices than that maximum, and the walk terminates.", "quantifier": "all scenes, random choices and limits", "why_tests_cant": "random walks of any length", "anchors": ["include/lm/bidir.h: sample_subpath", "src/renderer/renderer_bdptopt.cpp: sample_subpath"]}
{"id": "C42", "title": "Sampling weight of a path equals contribution over density", "statement": "For every sampled position, direct connection and component the returned weight times the evaluated density equals the evaluated contribution.", "quantifier": "all scenes, lights, cameras and random choices", "why_tests_cant": "an identity over all inputs", "anchors": ["include/lm/path.h: sample_position, pdf_position, sample_primary_ray, sample_direct, pdf_direct"]}
{"id": "C43", "title": "Mixture materials select components consistently", "statement": "The probability of selecting a component is the same as the one reported, probabilities over all components sum to one, and the combined value, density and weight are those of the weighted components.", "quantifier": "all mixtures of any number of components and weights, all random numbers", "why_tests_cant": "any number of components", "anchors": ["src/material/material_mixture.cpp", "src/material/material_mask.cpp", "src/material/material_proxy.cpp", "src/material/material_glass.cpp", "src/model/model_wavefrontobj.cpp: mixture material"]}
{"id": "C44", "title": "Camera rays and raster positions are inverse", "statement": "The raster position of the direction of the primary ray through a raster point is that point; a direction outside the view frustum has no raster position; the importance is zero exactly outside the frustum.", "quantifier": "all camera parameters, raster points and directions", "why_tests_cant": "all real inputs", "anchors": ["src/camera/camera_pinhole.cpp: primary_ray, raster_position, eval"]}
{"id": "C45", "title": "Texture lookup stays inside the image and wraps periodically", "statement": "For every texture coordinate the texel read lies inside the image, and adding integers to the coordinates does not change the result.", "quantifier": "all image sizes and all real coordinates including negative ones", "why_tests_cant": "all real coordinates", "anchors": ["src/texture/texture_bitmap.cpp: eval"]}
{"id": "C46", "title": "OBJ face indices resolve per the format", "statement": "A positive index i denotes the i-th element, a negative index -i denotes the i-th most recent element, and a missing index denotes none; every resolved vertex index of a well-formed file is within the vertex list.", "quantifier": "all element lists and all integer indices", "why_tests_cant": "all positions of negative indices relative to the data read so far", "anchors": ["src/objloader/objloader_simple.cpp: parse_index, parse_indices"]}
{"id": "C47", "title": "OBJ import assigns every face to exactly one mesh", "statement": "Loading a well-formed OBJ file yields, for every face in file order, its triangulation (one triangle per triangle, two per quad) in exactly one mesh, with the material in effect at that line, and no other triangles.", "quantifier": "all sequences of OBJ statements", "why_tests_cant": "all orders of groups, materials and faces", "anchors": ["src/objloader/objloader_simple.cpp: load", "plugin/objloader_tinyobjloader/objloader_tinyobjloader.cpp"]}
{"id": "C48", "title": "Log messages are filtered and indented as configured", "statement": "A message is printed exactly if its severity is at least the configured one, every line of it carries the indentation of the current nesting depth, and after leaving a nesting scope the depth is as before entering it.", "quantifier": "all sequences of log calls, severity changes and properly nested indentation scopes", "why_tests_cant": "unbounded histories", "anchors": ["src/logger.cpp", "include/lm/logger.h: LogIndenter"]}
{"id": "C49", "title": "Progress multiplexing forwards every event to every reporter", "statement": "A multiplexed progress reporter forwards every event in order to each reporter; a delayed reporter forwards start and end always and an update exactly when more than the delay has elapsed since the last forwarded one.", "quantifier": "all event sequences and clock readings", "why_tests_cant": "unbounded event sequences", "anchors": ["src/progress.cpp"]}
{"id": "C50", "title": "Floating-point exception guard restores the previous state", "statement": "Leaving a scope that disables floating-point exceptions restores the state from before entering it, for arbitrarily nested scopes.", "quantifier": "all nestings of guards and enable/disable calls", "why_tests_cant": "arbitrary nesting", "anchors": ["include/lm/exception.h: ScopedDisableFPEx", "src/exception.cpp"]}
{"id": "C51", "title": "Geometry term is symmetric and density conversions are consistent", "statement": "The geometry term is non-negative and symmetric in its two points including points at infinity; converting a density to projected solid angle and multiplying by the cosine gives the density back where the cosine is non-zero; the shading-normal correction of the two transport directions are adjoint.", "quantifier": "all pairs of points (surface, degenerate, infinite) and directions", "why_tests_cant": "all real inputs and all kinds of points", "anchors": ["include/lm/surface.h: geometry_term, convert_pdf_SA_to_projSA, shading_normal_correction"]}
{"id": "C52", "title": "Volume majorants bound the density and transmittance is a probability", "statement": "For every volume and position the scalar value is between zero and the reported maximum; the transmittance of a homogeneous medium is in [0,1], decreases with distance and is multiplicative along a ray; the distance-sampling weights are consistent with transmittance and density.", "quantifier": "all volumes, positions, segments and random numbers", "why_tests_cant": "all real inputs and nested multi-volumes", "anchors": ["src/volume/*.cpp", "src/medium/*.cpp"]}
{"id": "C53", "title": "Sampling warps stay in their domain", "statement": "Warped samples of the unit square lie on the disk, hemisphere, sphere or triangle they are meant for, and the reported densities match the warp.", "quantifier": "all points of the unit square", "why_tests_cant": "a real square of inputs", "anchors": ["include/lm/math.h: sample_uniform_disk_concentric, sample_cosine_weighted, sample_uniform_sphere", "src/light/light_area.cpp: sampling of a triangle"]}
{"id": "C54", "title": "Mesh triangles enumerate the index buffer", "statement": "Iterating over the triangles of a mesh visits the faces 0..n-1 in order with exactly the vertices named by three consecutive indices, agreeing with direct access by face, and interpolation at a face returns the barycentric combination.", "quantifier": "all meshes", "why_tests_cant": "all sizes of index buffers", "anchors": ["src/mesh/mesh_raw.cpp", "src/mesh/mesh_wavefrontobj.cpp"]}
{"id": "C55", "title": "Rendering writes each pixel's own samples", "statement": "The blank renderer sets every pixel to the color; the ray-casting renderer sets every pixel exactly once from the ray through its own center; per-pixel sampling windows of the path tracer tile the unit square without overlap.", "quantifier": "all film sizes and scenes", "why_tests_cant": "all sizes", "anchors": ["src/renderer/renderer_blank.cpp", "src/renderer/renderer_raycast.cpp", "src/renderer/renderer_pt.cpp: window"]}
{"id": "C56", "title": "Path tracing terminates within the vertex limit and keeps throughput bounded by roulette", "statement": "For every scene and random choices the path tracer's walk performs at most max_verts-1 extensions, and Russian roulette preserves the expected throughput with a survival probability in (0,0.8].", "quantifier": "all scenes, random number sequences and limits", "why_tests_cant": "all random sequences", "anchors": ["src/renderer/renderer_pt.cpp: render", "src/renderer/renderer_volpt.cpp"]}
{"id": "C57", "title": "Visibility is symmetric and nearest-hit lookup distinguishes surface from environment", "statement": "Scene intersection returns the surface hit whenever one exists within the range, the environment only when nothing is hit and the range is unbounded, and nothing otherwise; a visibility query never reports the environment as an occluder.", "quantifier": "all scenes, rays and ranges", "why_tests_cant": "all inputs", "anchors": ["src/scene.cpp: intersect", "include/lm/scene.h: visible"]}
{"id": "C58", "title": "Object addresses pass through JSON unchanged", "statement": "Writing the address of an object into a JSON parameter and reading it back on the other side gives the same address, for every address including null.", "quantifier": "all 64-bit addresses", "why_tests_cant": "2^64 addresses, only a few of which a test sees", "anchors": ["include/lm/json.h: adl_serializer for pointers", "src/model/model_wavefrontobj.cpp"]}
{"id": "C59", "title": "A progress message replaces the one before it on the terminal", "statement": "After two progress messages the terminal line shows the second one and nothing of the first, whatever their lengths.", "quantifier": "all logger histories and all message texts", "why_tests_cant": "lengths and histories are unbounded and the output goes to a terminal", "anchors": ["src/logger.cpp: LoggerContext_Default::log", "include/lm/logger.h: LogLevel"]}
{"id": "C60", "title": "MTL import gives every material the parameters of its block", "statement": "Loading an MTL file yields one material per newmtl line, in order, whose diffuse, specular, emitted color, index of refraction, exponent, anisotropy, illumination model and texture are those of the last line of its block that sets them, and zero or empty otherwise.", "quantifier": "all MTL files and parameter values", "why_tests_cant": "all orders and repetitions of blocks and parameters", "anchors": ["src/objloader/objloader_simple.cpp: loadmtl"]}
{"id": "C61", "title": "Reflecting materials are reciprocal and non-negative", "statement": "For diffuse and glossy surfaces, their mixtures and the OBJ material, exchanging incoming and outgoing direction does not change the value; values and densities are never negative; glass splits the energy into reflection and refraction parts that sum to one.", "quantifier": "all materials of any nesting, all surface points and pairs of directions", "why_tests_cant": "An asymmetry or a negative value can be confined to a region of directions that no tested pair lies in.", "anchors": ["src/material/material_diffuse.cpp: eval", "src/material/material_glossy.cpp: eval, pdf_direction", "src/material/material_glass.cpp: eval", "src/material/material_mixture.cpp"]}
{"id": "C62", "title": "Sampled directions obey the laws of reflection and refraction", "statement": "Mirrors and glass reflect with equal angles, glass refracts by Snell's law to the other side and is never asked to refract under total reflection, masks let rays pass straight, and other materials return unit directions on the side of the incoming direction.", "quantifier": "all surface points, directions, indices of refraction and random numbers", "why_tests_cant": "The laws must hold at every angle and index, including total reflection and grazing directions.", "anchors": ["src/material/material_mirror.cpp: sample_direction", "src/material/material_glass.cpp: sample_direction, pdf_component", "src/material/material_mask.cpp", "include/lm/math.h: reflection, refraction"]}
{"id": "C63", "title": "A scene passes the render check exactly if it has a camera, a light and an acceleration structure", "statement": "After any sequence of scene operations the check done before rendering either passes or raises an unsupported-operation error; it passes exactly if the scene reports a camera node that has a camera, the last build found a light at a node that has one, and an acceleration structure is set.", "quantifier": "all histories of scene operations, including failed ones", "why_tests_cant": "unbounded histories of operations", "anchors": ["include/lm/scene.h: Scene::require_renderable, require_camera, require_light, require_accel, require_primitive"]}
{"id": "C64", "title": "View and projection matrices agree with the camera's rays", "statement": "For every camera and every point in front of it, projecting the point with the camera's view and projection matrices gives the screen position that corresponds to the raster position of the direction to the point; a point projected outside of the screen has no raster position.", "quantifier": "all camera placements, fields of view, aspect ratios and points", "why_tests_cant": "a continuum of cameras and points; a sign or order error can cancel in symmetric test setups", "anchors": ["src/camera/camera_pinhole.cpp: view_matrix, projection_matrix, raster_position, construct"]}
{"id": "C65", "title": "Environment map sampling matches its reported density and reaches every luminous direction", "statement": "For every environment map, rotation and scale, the directions sampled for direct lighting have the density the light reports, the value of the light in a direction is the scaled pixel the direction maps to, weight times density equals value, and every direction with positive value can be sampled.", "quantifier": "all image sizes and contents, rotations, scales, random numbers and directions", "why_tests_cant": "A wrong row weight or a shift of half a pixel shows only in maps and directions a test does not try; the density relates a continuum of samples to a derivative.", "anchors": ["src/light/light_env.cpp: construct, sample_direct, pdf_direct, eval"]}
{"id": "C66", "title": "Rays from lights at infinity reach every point of the scene with the reported density", "statement": "For directional and constant environment lights, every line through the scene's bounding box along a sampled direction is produced by some random number, every produced ray starts outside of the bounding sphere of the scene and travels in the sampled direction, and the position density reported is that of the sampling.", "quantifier": "all scene bounds, light directions, random numbers and scene points", "why_tests_cant": "a continuum of origins, directions and bounds", "anchors": ["src/light/light_directional.cpp: sample_ray, set_scene_bound", "src/light/light_envconst.cpp: sample_ray", "src/light/light_env.cpp: sample_ray"]}
{"id": "C67", "title": "Phase functions sample by the density they report", "statement": "For every asymmetry parameter in the documented range, sampled scattering directions are unit vectors, cover the sphere, have the density the phase function reports, and weight times density is its value.", "quantifier": "all asymmetry parameters, incoming directions and random numbers", "why_tests_cant": "Density is a derivative of the sampling map; a mismatch appears only as bias of averages over all samples, and may be confined to a range of parameters.", "anchors": ["src/phase/phase_hg.cpp: sample_direction, pdf_direction, eval", "src/phase/phase_isotropic.cpp"]}
{"id": "C68", "title": "Path sampling and evaluation never touch a missing component", "statement": "On every built scene with a camera and a light, sampling rays, positions and connections ends without undefined behaviour and yields interactions whose primitive has what their type needs; evaluating densities, contributions and components at such interactions ends normally or raises an unsupported-operation error exactly where a component lacks the operation; non-endpoints are rejected by the endpoint densities; an interaction evaluated as an endpoint of a primitive without light or camera contributes zero.", "quantifier": "all scenes after any history, random numbers, interactions and directions", "why_tests_cant": "A null dereference needs one particular combination of scene content and interaction type.", "anchors": ["include/lm/path.h: sample_primary_ray, pdf_primary_ray, sample_position, pdf_position, sample_direction, pdf_direction, sample_direct, pdf_direct, eval_contrb_direction, is_specular_component, is_connectable_endpoint"]}
{"id": "C69", "title": "The scene bound contains every surface and is the smallest such box", "statement": "After a scene is built, the bounding box handed to its lights contains every point of every triangle at each of its instances, with all transforms applied, and no smaller box does; therefore rays emitted by lights at infinity reach every surface point.", "quantifier": "all scene graphs with instancing, transforms and meshes, and all surface points", "why_tests_cant": "Scene graphs are unbounded; one transform composed in the wrong order or one skipped vertex only shows in particular graphs.", "anchors": ["src/scene.cpp: build, traverse_primitive_nodes", "include/lm/math.h: Bound, merge"]}
{"id": "C70", "title": "Weight times density is the contribution for every bidirectional strategy", "statement": "For every path and every strategy (number of light-side vertices) that can sample it with a non-zero density, the sampling weight the API reports is defined and, multiplied by the density the API reports for that strategy, equals the measurement contribution of the path.", "quantifier": "all paths of any length, all strategies, all scenes", "why_tests_cant": "all path lengths, strategies and component implementations", "anchors": ["include/lm/bidir.h: Path::eval_sampling_weight_bidir, Path::pdf_bidir, Path::eval_measurement_contrb_bidir"]}
{"id": "C71", "title": "Contributions of the optimised bidirectional tracer are contribution over density", "statement": "Every contribution that the optimised bidirectional path tracer adds to the film for two subpaths it sampled equals, before the multiple-importance weight, the measurement contribution of the connected path divided by the density with which the strategy samples it, as the path API reports them.", "quantifier": "all scenes, random numbers, subpath lengths and strategies", "why_tests_cant": "The value is built incrementally from throughputs cached during the random walk; all lengths, materials and strategies.", "anchors": ["src/renderer/renderer_bdptopt.cpp: sample_subpath, connect_and_eval_contrb", "include/lm/bidir.h: Path::pdf_bidir, Path::eval_measurement_contrb_bidir"]}
{"id": "C72", "title": "Sampled directions have length one", "statement": "Every direction that sampling a material, a light, a camera or a phase function returns, and every direction of a sampled ray or light connection, is a unit vector if the incoming direction and the shading normal are.", "quantifier": "all materials including nested mixtures, lights, cameras, phase functions, and all random numbers", "why_tests_cant": "continuous inputs; all densities, conversions and ray queries downstream assume it", "anchors": ["src/material/*.cpp: sample_direction", "src/light/*.cpp: sample_ray, sample_direction, sample_direct", "src/camera/camera_pinhole.cpp: sample_ray, sample_direct", "src/phase/*.cpp: sample_direction"]}
{"id": "C73", "title": "Area lights emit uniformly from their placed mesh", "statement": "A position sampled on an area light lies on a triangle of its mesh as placed in the scene, its normal is the normal of that placed triangle, and every point of every placed triangle can be sampled. The density it reports for a position is one over the area of the placed mesh, and the density it reports for a direct connection is that density divided by the geometry term.", "quantifier": "all meshes, all rigid placements, all random numbers, all reference points", "why_tests_cant": "continuous inputs and arbitrary meshes; a test sees one mesh and one placement", "anchors": ["src/light/light_area.cpp: construct, sample_ray, sample_direct, pdf_position, pdf_direct", "include/lm/math.h: Dist"]}
{"id": "C74", "title": "The path tracer's sampling modes estimate the same image", "statement": "For every scene whose light sampling, direction sampling and densities agree with each other, the expected value of what a sample adds to the film is the same for sampling_mode nee and mis, and also for naive if every light can be hit by a ray: it is the light arriving at the camera along paths with at most max_verts vertices. Weights, Russian roulette and skipped connections do not change it.", "quantifier": "all scenes given by their sampling functions, averages over random numbers, vertex limits, windows and weighting functions of the raster position", "why_tests_cant": "expected values over all random numbers; renderings only sample them", "anchors": ["src/renderer/renderer_pt.cpp: render", "include/lm/math.h: balance_heuristic", "include/lm/path.h: sample_direct, pdf_direct, sample_direction, pdf_direction"]}
{"id": "C75", "title": "Saving succeeds exactly if owned components are found under their locators", "statement": "Saving a component hierarchy (the whole state or one asset) succeeds if and only if every component owned anywhere in it has a locator that begins with that of the saved component and a lookup of that locator gives this very component, and every weak reference points to a component whose locator begins likewise. In particular the ray caster, the environment light, OBJ materials, asset groups and OBJ models with dot-free names answer for what they own; a state holding a path tracer, light tracer or volumetric path tracer, or an OBJ material whose name has a dot, cannot be saved.", "quantifier": "all hierarchies of any depth and width, all surroundings and all lookup functions; for the failing classes every hierarchy that contains one", "why_tests_cant": "Which components can be saved depends on the place of every owned component in an unbounded hierarchy and on the name queries of the classes above it; a test saves a few fixed states.", "anchors": ["include/lm/serial.h:serial_owned/save_owned", "include/lm/serial.h:save_comp", "src/component.cpp:ComponentContext::get", "include/lm/component.h:Component::underlying", "src/renderer/renderer_pt.cpp", "src/renderer/renderer_lt.cpp", "src/renderer/renderer_volpt.cpp", "src/renderer/renderer_raycast.cpp:underlying", "src/light/light_env.cpp:underlying", "src/model/model_wavefrontobj.cpp:underlying"]}
{"id": "C76", "title": "An OBJ model gives every triangle its material and its light", "statement": "The primitives a Wavefront OBJ model hands to the scene are the triangles of the file in their order. Each triangle belongs to a primitive whose material is the one described by the MTL entry in force at its face (glass for illumination model 7, a mirror for 5, otherwise a mixture with the entry's colours, roughness and texture file; the user's material if base_material is given), and the primitive has a light on its own mesh with the entry's emission exactly if the entry emits. If a component cannot be created the construction ends with an input-output error.", "quantifier": "all OBJ and MTL files, all options, all outcomes of creating components", "why_tests_cant": "Ranges over all files, all names of materials and textures and their collisions with the generated names; the samples of the tests have distinct ordinary names.", "anchors": ["src/model/model_wavefrontobj.cpp: Model_WavefrontObj::construct, create_primitives", "src/objloader/objloader_simple.cpp: OBJLoader_Simple::load"]}
{"id": "C77", "title": "A path's measurement contribution does not depend on the strategy", "statement": "For a full path from a light to the camera the measurement contribution evaluated for strategy (s,t) is the product of the light's emission, the camera's response, what every inner vertex scatters and the geometry terms of all edges. It is a function of the path: for paths over non-specular reflecting surfaces and media it is the same for every split of the vertices into those from the light and those from the camera.", "quantifier": "all paths with at least two vertices, all strategies, all scenes, reflecting materials, lights, phase functions and cameras", "why_tests_cant": "A test can compare a few strategies of a few paths, mostly over flat surfaces; the claim is about every path length, split and pair of shading and geometric normals.", "anchors": ["include/lm/bidir.h: Path::eval_measurement_contrb_bidir", "include/lm/bidir.h: Path::eval_connection_term", "include/lm/path.h: path::eval_contrb_direction", "include/lm/surface.h: surface::shading_normal_correction", "include/lm/surface.h: surface::geometry_term"]}
{"id": "C78", "title": "Single-precision random numbers stay below one", "statement": "In a single-precision build, for every double in [0,1) that the underlying distribution can return, the random number handed out is a finite float in [0,1); it never exceeds the double and is the largest float with this property, so the assertion that it is below 1 never fails and no bias beyond rounding down is introduced.", "quantifier": "all doubles in [0,1), including subnormal ones and those that round to 1", "why_tests_cant": "there are 2^62 doubles in the interval, and the ones that the conversion rounds up to 1 turn up about once in 2^25 draws", "anchors": ["include/lm/math.h: RngImpl<float>::u", "include/lm/math.h: RngImplBase"]}
{"id": "C79", "title": "A seed makes a rendering reproducible", "statement": "Rendering with a given seed gives the same image whenever it is repeated: the random numbers of the samples depend on the seed alone, not on earlier renderings in the process, on other renderers, or on which thread works on a sample; renderings with different seeds use different random numbers.", "quantifier": "all seeds, histories of renderings in a process, schedules of samples on threads and renderer callbacks", "why_tests_cant": "tests render once per process on an idle machine; the state that survives a rendering and the assignment of samples to threads depend on history and schedule", "anchors": ["src/renderer/renderer_pt.cpp: Renderer_PT::render", "src/renderer/renderer_lt.cpp: Renderer_LT::render", "src/renderer/renderer_volpt.cpp: Renderer_VolPT::render", "src/renderer/renderer_bdptopt.cpp: Renderer_BDPT_Optimized::render", "include/lm/math.h: RngImplBase"]}
{"id": "C80", "title": "Every acceleration structure shows exactly the triangles of the scene", "statement": "For every scene that can be traversed, and each of the acceleration structures of the plugins (NanoRT, Embree, Embree with instances), the triangles handed to the ray tracing library are exactly the triangles of the scene: one for each face of each mesh along each path from the root, at the place to which the composed transforms move it. Whatever triangle the library reports, the hit handed to the scene carries the transform, node and face that the triangle comes from. Instanced groups, also nested and shared ones, change nothing of this, and building with instances reaches no failed assertion or missing instance scene.", "quantifier": "all scene graphs (any nesting, sharing and instancing of groups, primitives with and without mesh), all meshes, all transforms", "why_tests_cant": "Tests compare pictures of a few scenes; the numbering of geometries, instances and faces must be right for every graph.", "anchors": ["plugin/accel_nanort/accel_nanort.cpp: Accel_NanoRT", "plugin/accel_embree/accel_embree.cpp: Accel_Embree", "plugin/accel_embree/accel_embree_instanced.cpp: Accel_Embree_Instanced", "src/scene.cpp: traverse_primitive_nodes, visit_node"]}
{"id": "C81", "title": "Importing a PBRT scene shows every mesh at every place", "statement": "A model loaded from a PBRT file shows each triangle mesh of each object at each place to which the instances of the file, also nested ones, put it, and nothing else; importing never fails and the imported nodes form a graph that can be traversed. (False for instances: the first instance of each object is not shown, and the transforms of nested instances are applied more than once.)", "quantifier": "all trees of PBRT objects: any nesting, any number of shapes and instances, any transforms, with and without camera", "why_tests_cant": "A test file shows one tree of objects; the linking of groups has to be right for every tree.", "anchors": ["plugin/model_pbrt/model_pbrt.cpp: Model_PBRT::construct, create_primitives, foreach_node"]}
{"id": "C82", "title": "The path renderers splat each path of the wanted lengths once per strategy, with its contribution over its density", "statement": "The renderers built on the path structure (naive path tracing, path tracing with connections, light tracing with connections, bidirectional path tracing) splat, for one sample, exactly the following: for every number of vertices between min_verts and max_verts and every strategy the renderer uses for it, nothing if the subpaths cannot be joined or the joined path carries nothing, and otherwise one splat at the pixel of the joined path whose value times the density of the path under that strategy is the measurement contribution of the path, times the weight of the strategy (1 where one strategy is responsible, the power heuristic for bidirectional path tracing). No path of another length is splatted, and over the strategies that can sample a path the splats times the densities add up to its contribution. Path tracing with connections finds the light of every kind of light source.", "quantifier": "all scenes (any functions for sampling, densities and visibility), all random numbers, all min_verts and max_verts, all lengths of subpaths", "why_tests_cant": "Tests compare images statistically on a few scenes; a strategy that is counted twice or left out for some length is invisible unless that length dominates.", "anchors": ["src/renderer/renderer_bdpt.cpp: Renderer_PT_Naive_Path, Renderer_PT_NEE_Path, Renderer_LT_NEE_Path, Renderer_BDPT", "include/lm/bidir.h: connect_subpaths, Path::eval_sampling_weight_bidir, Path::eval_mis_weight"]}
{"id": "C83", "title": "The two volumetric path tracers estimate the same image and agree with the path tracer in clear air", "statement": "The expected value of a sample of a pixel by volpt or volpt_naive (scaled by the camera's weight) is the light that reaches the camera after up to the configured number of events, where each event is a surface or a point of the medium sampled by the distance sampler; it does not depend on the Russian roulette probability rr_prob (0 <= rr_prob < 1) nor on how many numbers are drawn. If connections and continued paths bring the same light on average and every light can be hit by rays, volpt and volpt_naive have the same expected image, with any two roulette probabilities. In a scene whose medium never scatters, volpt's expected pixel is that of the path tracer with next event estimation and volpt_naive's is that of the naive path tracer.", "quantifier": "all scenes, media, path lengths, pixels, roulette probabilities and distributions of random numbers for which the calls of the walk succeed", "why_tests_cant": "Expectation over all random walks of every length; a test sees a finite noisy sample, and a bias can hide in noise.", "anchors": ["src/renderer/renderer_volpt.cpp: Renderer_VolPTNaive::render, Renderer_VolPT::render", "src/path.cpp: path::sample_direction, path::sample_direct, path::sample_distance, path::eval_transmittance"]}
{"id": "C84", "title": "The light tracer estimates the light the camera receives", "statement": "The expected value of a light tracing sample that leaves a light along a given ray is what the camera receives from this ray after one to max_verts - 2 scattering events: at every surface point of the path the connection to the camera (if visible and inside the film) contributes throughput times scattering times the camera's weight. Emission seen directly by the camera is never part of it, and Russian roulette does not change it.", "quantifier": "all scenes, primary rays, values of max_verts, weights of film positions and distributions of random numbers for which the calls of the walk succeed", "why_tests_cant": "Expectation over all random walks of every length; a test sees a finite noisy sample.", "anchors": ["src/renderer/renderer_lt.cpp: Renderer_LT::render", "src/path.cpp: path::sample_direct, path::eval_contrb_direction"]}
{"id": "C85", "title": "Image-space renderings are scaled so that the mean pixel is the mean sample", "statement": "After a rendering that splats anywhere on the film (lt, bdpt and its variants, bdptopt, and pt in image mode) every pixel is the sum of all splats whose raster position belongs to it, times the number of pixels over the number of samples; the edge of the film belongs to the last pixel. The order of the samples and of the rescaling does not matter. Hence the mean of all pixels is the mean of the total splat value of a sample: no light is lost or gained. The volumetric path tracers divide the splats of a pixel by the number of samples per pixel.", "quantifier": "all film sizes, samples, splats on the film, numbers of samples and orders in which pixels are rescaled", "why_tests_cant": "The scale is right only as a statement about sums over arbitrarily many splats at arbitrary real positions, including the edges.", "anchors": ["src/renderer/renderer_lt.cpp: Renderer_LT::render", "src/renderer/renderer_bdpt.cpp: render of all four renderers", "src/renderer/renderer_bdptopt.cpp: render", "src/renderer/renderer_pt.cpp: Renderer_PT::render", "src/renderer/renderer_volpt.cpp: render", "src/film/film_bitmap.cpp: Film_Bitmap::splat, Film_Bitmap::rescale"]}
{"id": "C86", "title": "Python values passed to the API arrive as the JSON values they denote, and JSON results come back", "statement": "A Python value built of None, booleans, integers, floats, strings, lists, tuples, dicts with string keys and components is converted to the JSON value it denotes (a component to its locator) and to nothing else; any other value is reported as an error; converting a JSON-like Python value to JSON and back gives an equal value, and converting a JSON value to Python and back gives the same value.", "quantifier": "all Python values (nested to any depth, with any keys) and all JSON values", "why_tests_cant": "Values are nested without bound; tests convert a few small dicts and no large integers or foreign objects.", "anchors": ["include/lm/pylm.h (type_caster<lm::Json>::load, cast)"]}
{"id": "C87", "title": "Vectors and matrices passed between Python and C++ keep their elements", "statement": "A numpy array of the right element type and shape passed as a vector or matrix arrives with the elements that indexing it gives in Python (entry (r,c) of a matrix at row r, column c), whatever its layout; arrays of another type, number of dimensions or length are reported; vectors and matrices handed to Python have the same elements there and come back unchanged.", "quantifier": "all dimensions, element values, strides and array lengths", "why_tests_cant": "Layouts (slices, transposes, views) are unbounded; tests pass freshly created contiguous arrays of the right length.", "anchors": ["include/lm/pylm.h (type_caster<glm::vec>, type_caster<glm::mat>)"]}
{"id": "C88", "title": "Every component reports every reference it keeps", "statement": "When a component is asked for the components it refers to, it presents each pointer it keeps exactly once, says correctly whether it owns the target or refers to it weakly, and keeps whatever the caller puts in place of a weak reference; nothing else of the component changes. (The update of references after an asset is replaced, the check for references to the outside when an asset is saved, and the asset tree depend on it.)", "quantifier": "all component classes of the library, all states of their instances and all callers", "why_tests_cant": "A missed reference is visible only in histories that replace the referred asset afterwards, for every class, member and position in a container.", "anchors": ["src/scene.cpp: foreach_underlying", "src/assetgroup.cpp: foreach_underlying", "src/model/model_wavefrontobj.cpp: foreach_underlying", "src/renderer/*.cpp: foreach_underlying", "src/material/*.cpp: foreach_underlying", "src/light/*.cpp: foreach_underlying", "src/scheduler.cpp: foreach_underlying", "src/medium/*.cpp", "src/volume/*.cpp", "include/lm/component.h: comp::visit"]}
{"id": "C89", "title": "The printed asset tree shows exactly the asset hierarchy", "statement": "Printing the asset tree shows every owned component once, below its owner and indented one step more, with its name and key, and (if asked for) every weak reference with its target. A reader who joins the names of a line and of the lines it is indented below gets the component's locator, and two hierarchies are printed alike only if they agree in everything that is meant to be seen.", "quantifier": "all hierarchies of components, of any depth and width, whose locators are made from the owner's locator and a name without blanks", "why_tests_cant": "Hierarchies are unbounded; that the indented text is unambiguous is a statement about all pairs of hierarchies.", "anchors": ["src/debug.cpp: print_asset_tree"]}
{"id": "C90", "title": "Ray marching a volume gives the light scattered once, within the chosen cutoff", "statement": "The volume ray marching renderer stores in a pixel the light that is scattered once towards the camera at the marched points, attenuated along both rays by the Beer-Lambert law, for each colour channel: exactly so without a cutoff, and with cutoff c with an error of at most albedo times light times the square root of c. The result is never negative nor brighter than the light, and not more than the scattered part of what the ray loses.", "quantifier": "all densities, coefficients, step sizes, cutoffs, marching schedules of the volume and rays", "why_tests_cant": "The number and order of the steps is unbounded and chosen by a library; the error bound relates two executions with different lengths on all real inputs.", "anchors": ["plugin/volume_openvdb/renderer_volraycast.cpp: Renderer_OpenVDBRenderExample::render", "include/lm/volume.h: Volume::march"]}
{"id": "C91", "title": "Calls of a component written in Python reach the Python method of the same name", "statement": "For a class written in Python that implements one of the component interfaces, every call of a virtual function of the interface by the framework gives the result of the Python method of the same name on the same arguments in the same order, converted to the declared type; without such a method it gives the interface's default, or an error if there is none.", "quantifier": "all interfaces, all their virtual functions, all Python classes (sets of methods) and all arguments", "why_tests_cant": "A test checks a few methods of a few interfaces; a method that is silently not called looks like a wrong image, not like an error.", "anchors": "src/pylm.cpp: Component_Py, AssetGroup_Py, LoggerContext_Py, ProgressContext_Py, Film_Py, Scene_Py, Accel_Py, Renderer_Py, Texture_Py, Mesh_Py, Material_Py, Phase_Py, Medium_Py, Volume_Py, Model_Py, Camera_Py, Light_Py; include/lm/*.h"}
{"id": "C92", "title": "The state saved by a component written in Python is the state loaded", "statement": "When a state file or component is saved and loaded, load() of a component written in Python is called with exactly the bytes that its save() returned, and components before and after it in the archive are not affected.", "quantifier": "all interfaces, classes, states, and contents of the archive before and after", "why_tests_cant": "The archive is a concatenation of unframed parts; whether one part disturbs the next depends on all of them.", "anchors": "include/lm/pylm.h: PYLM_SERIALIZE_IMPL; src/pylm.cpp: Component_Py, Renderer_Py; include/lm/component.h: Component::save, Component::load"}
{"id": "C93", "title": "A component lives as long as Python or the framework uses it", "statement": "A component shared by the framework and Python code is not destroyed while the framework owns it or Python code holds a reference to it, is not used after destruction, and is destroyed exactly once when the last use ends.", "quantifier": "all histories of getting, copying, dropping and using references in Python and of use and release by the framework; components of Python and of C++ classes, loaded as assets or made in Python", "why_tests_cant": "Lifetime errors depend on the order of events in two memory managers and usually stay invisible.", "anchors": "include/lm/pylm.h: reg_comp_wrap, cast_to_python_object, create_comp_wrap; include/lm/component.h: ComponentDeleter"}
{"id": "C94", "title": "A parallel loop over a Python function neither deadlocks nor overlaps Python code", "statement": "lm.parallel.foreach(n, f) called from Python runs f in worker threads, one thread in Python code at a time, never while another Python thread has the interpreter. Whatever interleaving of threads happens, f can give up the interpreter at any time, raise, or be interleaved with other Python threads: the loop can always be completed, does a bounded amount of work of its own, calls f at most once per index and, if nothing is raised, once for every index 0..n-1. When the call returns the caller has the interpreter again and gets an exception exactly if some call of f raised one, namely one of those raised.", "quantifier": "every number of threads and iterations, every interleaving, every choice of calls that return, raise or pause, every activity of other Python threads", "why_tests_cant": "Deadlocks between the interpreter lock and the loop's own exception lock depend on the schedule; a test sees a few schedules and none of the bad ones on a lightly loaded machine.", "anchors": ["src/pylm.cpp bind_parallel foreach", "src/parallel/parallel_openmp.cpp foreach"]}
{"id": "C95", "title": "numpy arrays over a film show its pixels", "statement": "np.array(film.buffer(), copy=False) has shape (h, w, 3) and its element [y,x,c] is channel c of pixel (x,y) of the film as it was when buffer() was last called on that film, whichever operations on pixels came before and after; every array obtained earlier from the same film shows the same pixels, because they share memory. An array keeps the pixels it had when it was obtained.", "quantifier": "every film size, every history of setting, splatting, updating, rescaling, accumulating, clearing and taking buffers, every growth policy of the vector", "why_tests_cant": "A test reads an array once, right after taking it; sharing and reallocation show only in longer histories.", "anchors": ["src/film/film_bitmap.cpp Film_Bitmap::buffer data_temp_", "src/pylm.cpp bind_film FilmBuffer"]}
{"id": "C96", "title": "The ambient occlusion example computes the open part of the hemisphere", "statement": "renderer::ao of the examples sets every pixel whose central ray hits a surface to the fraction of spp sampled directions in which nothing is closer than 0.2; the directions are unit vectors on the side of the surface that the ray sees, the value is between 0 and 1 and its expected value is the openness of one sampled direction, for every number of samples. Pixels whose ray hits nothing keep their former value. The result does not depend on the order in which the parallel loop visits pixels, given the random numbers of each. Every pixel gets such a value in every scene and for every spp.", "quantifier": "every scene, film, number of samples, random numbers, number of threads and schedule", "why_tests_cant": "The test compares one image of one scene; range, mean and independence of the schedule are claims about all.", "anchors": ["example/custom_renderer.cpp Renderer_AO", "functest/renderer_ao.cpp Renderer_AO"]}
{"id": "C97", "title": "Discrete distributions keep their promises in spite of rounding", "statement": "Computed in double precision as the code does: whatever finite weights of finite sum the distribution is made of, a number below 1 never selects an entry of weight zero or one whose reported probability is zero; the probability reported is finite and at most 1; the entries divide the interval from 0 to 1 among them and the reported probability is the length of the part that selects the entry up to one rounding, and differs from weight over total by at most (12 n + 3) 2^-53 for n entries; outside of the table the probability is zero. Every entry of positive weight is selected by some number, and this holds whatever the sum of the weights.", "quantifier": "every list of finite double precision weights, every number of entries and every double precision sample", "why_tests_cant": "Where rounding accumulates the result depends on all weights; no set of tables tested settles it.", "anchors": ["include/lm/math.h Dist", "src/math.cpp"]}
{"id": "C98", "title": "Rounding in the box test loses no node above a box that passes", "statement": "Computed in double precision: merging boxes does not round, so the merged box contains both; a ray that passes the test of a box passes that of every box around it, with any larger interval, so a traversal reaches each triangle whose own box passes; a box that the exact ray enters by more than four roundings passes. A triangle that the triangle test hits is never skipped by the test of its own box; a ray exactly in the box passes; and this holds for every ray.", "quantifier": "every finite box, ray with no infinite or undefined component, and interval", "why_tests_cant": "The cases in which rounding matters are a vanishing part of all rays and cannot be found by sampling.", "anchors": ["include/lm/math.h Bound", "src/accel/accel_sahbvh.cpp", "include/lm/math.h intersect"]}
{"id": "C99", "title": "Splats in double precision add up to the sum, whatever the schedule, up to rounding", "statement": "When threads splat finite values concurrently, every channel of every pixel ends finite and differs from the exact sum by at most 2 n 2^-53 times the sum of the absolute values, n being the number of contributions to the pixel, in every interleaving; after rescaling by a factor of at most 1 the corresponding bound holds for the image. Two runs differ by at most twice that. The image is the same in every run.", "quantifier": "every number of threads, list of splats per thread, initial film and interleaving of loads and compare-exchange steps, including spurious failures", "why_tests_cant": "The order of additions depends on the schedule; tests see few schedules and compare with a tolerance chosen by hand.", "anchors": ["src/film/film_bitmap.cpp AtomicWrapper", "src/film/film_bitmap.cpp Film_Bitmap::splat", "src/film/film_bitmap.cpp Film_Bitmap::rescale"]}
{"id": "C100", "title": "The running average of a pixel stays within the range of its samples in double precision", "statement": "When finite samples are given to inc_ave for a pixel that is 0 before, numbered from 0, then the value of each channel is within the range of the samples exactly in spite of rounding, equal samples give exactly their value, and the value differs from the mean by at most n (4 m 2^-53 + 2^-1074) for n samples of size at most m. The first sample replaces whatever the pixel held before.", "quantifier": "every list of at most 2^53 finite samples of size at most 2^1022", "why_tests_cant": "Rounding errors accumulate over the samples; the bound is a claim about all lists of samples.", "anchors": ["include/lm/film.h Film::inc_ave", "src/film/film_bitmap.cpp Film_Bitmap::update_pixel"]}
{"id": "C101", "title": "Ray queries in double precision report the nearest triangle whose box passes", "statement": "Computed in double precision: what the triangle test reports is in range, the distance exactly within the interval asked for, barycentric coordinates between 0 and 1 with a sum of at most 1 + 2^-51. A query of the bounding volume hierarchy reports a triangle that the triangle test hits, with exactly what that test says, and no triangle whose own box passes up to its hit is nearer, whatever the tree and the order of the traversal; in particular no triangle is missed where the ray is inside the triangle's box by more than four roundings. Every triangle that the triangle test hits is found, and the distance reported is a number for all finite coordinates.", "quantifier": "every list of triangles with coordinates up to 2^200, tree over them, ray with such coordinates and interval", "why_tests_cant": "Missed hits through rounding occur for a vanishing part of rays and depend on the tree; tests with random rays do not meet them.", "anchors": ["src/accel/accel_sahbvh.cpp Accel_SAHBVH::intersect", "src/accel/accel_sahbvh.cpp Tri::intersect", "include/lm/math.h Bound::isect"]}
{"id": "C102", "title": "Directions computed in double precision are unit vectors with components in [-1, 1]", "statement": "Computed in double precision: a normalised vector, a direction sampled with the cosine distribution and one sampled on the sphere have components that are numbers between -1 and 1 exactly, and length 1 up to a few roundings; the cosine sample is in the upper hemisphere and at the place that the two random numbers say. The basis built from a normal never divides by zero or overflows and is orthonormal and right-handed up to rounding, also at the poles. The reflection of a direction is the exact one up to rounding, and its components are also between -1 and 1, so that the environment light can take the arc cosine.", "quantifier": "every vector with components up to 2^500 of which one is at least 2^-500, every pair of random numbers, every normal that is a unit vector up to rounding", "why_tests_cant": "The results of rounding are at the boundary of the domain of acos and sqrt for a few inputs among 2^192; whether one of them exceeds it cannot be sampled.", "anchors": ["include/lm/math.h math::safe_sqrt, reflection, orthonormal_basis, sample_cosine_weighted, sample_uniform_sphere", "src/light/light_env.cpp Light_Env::eval", "src/material/material_mirror.cpp"]}
{"id": "C103", "title": "Weights of multiple importance sampling in double precision", "statement": "Computed in double precision, the balance heuristic of two non-negative densities is a number between 0 and 1, equal to the share of the first density up to rounding; a strategy of density zero has weight exactly 0 and the other exactly 1; the weights of the two strategies add up to 1 up to rounding, for all finite densities.", "quantifier": "every pair of non-negative finite Floats", "why_tests_cant": "Division by zero, overflow and loss of a weight happen for extreme pairs only; random pairs do not reach them.", "anchors": ["include/lm/math.h math::balance_heuristic", "src/renderer/renderer_pt.cpp Renderer_PT"]}
{"id": "C104", "title": "Refraction in double precision follows the law of refraction", "statement": "Computed in double precision, the refracted direction is that of the law of refraction up to rounding (the tangential part scaled by eta, the rest along the negative normal) with length 1 up to rounding; total reflection is reported only where the sine after refraction is at least 1 up to rounding, and whenever it is greater by more than that; components of the direction are between -1 and 1.", "quantifier": "every incident direction and normal that are unit vectors up to rounding, every eta from 0 to 3", "why_tests_cant": "Close to total reflection the square root amplifies errors, and sums at the boundary of the unit ball exceed it for few inputs.", "anchors": ["include/lm/math.h math::refraction", "src/material/material_glass.cpp Material_Glass"]}
{"id": "C105", "title": "Calls from Python with properties", "statement": "lm.load_<interface>(name, impl, **properties) and lm.load_<interface>(name, impl, properties) load the asset once, under the key <interface>::<impl>, with exactly the properties given, and return the asset; both forms do the same; every other call raises and changes nothing. init of the contexts takes the type and properties by position, by name or as keywords, with the same meaning; add_primitive takes them as keywords or as one value.", "quantifier": "every list of positional and keyword arguments of any Python values, every state of the framework and outcome of loading", "why_tests_cant": "Overload resolution depends on number, names and values of all arguments; tests call with a few usual combinations.", "anchors": ["src/pylm.cpp PYLM_DEF_ASSET_LOAD_AND_GET_FUNC, bind_user, bind_logger, bind_parallel, bind_objloader, bind_progress, bind_scene", "include/lm/pylm.h type_caster<lm::Json>"]}
{"id": "C106", "title": "Construction of the acceleration structure in double precision", "statement": "Computed in double precision and by any number of worker threads, building the acceleration structure over finite triangles ends under every schedule without getting stuck or doing anything undefined, and leaves a tree over all triangles whose boxes contain everything below them, whatever rounding does to the costs that decide the splits. Queries of it report a triangle that the triangle test hits, with what that test says, and no triangle that is hit is nearer.", "quantifier": "every number of triangles below 2^31 with finite corners, every permuting sort, every schedule of every number of threads, every ray not along a coordinate plane", "why_tests_cant": "Rounding decides which of several splits of equal cost is taken, and schedules decide the numbering of nodes; tests see few of either.", "anchors": ["src/accel/accel_sahbvh.cpp Accel_SAHBVH::build, Accel_SAHBVH::intersect", "include/lm/math.h Bound::surface_area, merge"]}
{"id": "C107", "title": "Raster positions, pixels and tables in double precision", "statement": "Computed in double precision, a raster position in [0,1] is assigned a pixel of the film, one in which it lies up to the rounding of one product, and a position outside is assigned the nearest pixel. The position that a renderer makes for a pixel and a random number is assigned that pixel if the random number keeps 2^-19 from 0 and 1, so the ray for the centre of a pixel always is, and otherwise that pixel or the one beside it. Under the same condition, a position sampled from a two-dimensional table lies in a cell of positive weight and the density reported for it is that of the cell to four roundings.", "quantifier": "every film and table size of an int, every pixel and cell, every random number, every finite weight whose sums do not overflow", "why_tests_cant": "Whether a position computed for a pixel is mapped back to it depends on rounding at every pixel of every size: 1/49 times 49 is less than 1, but neighbouring sizes behave.", "anchors": ["include/lm/film.h Film::raster_to_pixel", "include/lm/math.h Dist2::init, Dist2::pdf, Dist2::sample", "src/renderer/renderer_pt.cpp Renderer_PT::render", "src/renderer/renderer_volpt.cpp render", "src/renderer/renderer_raycast.cpp render"]}
{"id": "C108", "title": "Meshes and transformations of imported PBRT scenes", "statement": "A mesh imported from a PBRT scene enumerates its faces in order, each with the positions, normals and texture coordinates of the vertices that its three indices name (zero if the scene gives none), and random access agrees. A point of a face is the barycentric combination of its vertices, its geometry normal the unit normal of the face, its normal the unit vector of the combined normals or the geometry normal. The mesh cannot be told from one loaded from a Wavefront OBJ file with the same arrays. The matrix made of a PBRT transformation takes every point where the transformation takes it, and compositions become products.", "quantifier": "every mesh with indices in range and attributes for all vertices or none, every face, every barycentric coordinate, every affine map", "why_tests_cant": "Meshes and transformations range over all arrays and all real matrices; swapped attributes or a transposed matrix agree on symmetric examples.", "anchors": ["plugin/model_pbrt/model_pbrt.cpp Mesh_PBRT, convertPbrtXfm, convertPbrtMat3"]}
{"id": "C109", "title": "The pinhole camera in floating point", "statement": "With the arithmetic of double: a pinhole camera placed by position, centre and up vector has an orthonormal basis up to rounding, and the directions of its primary rays are unit vectors up to rounding. The raster position of the direction of the primary ray of a raster position is that position, up to 2^-32; a ray sampled in a pixel is recorded in that pixel. The raster position of a direction, if there is one, is a pair of numbers in [0,1] within 2^-32 of the exact one, and directions behind the camera have none.", "quantifier": "every camera with a basis orthonormal up to rounding and half sides of the screen between 1/16 and 16, every raster position, every direction, every pixel of films up to 8192 pixels a side, every random number", "why_tests_cant": "Rounding errors depend on every bit of camera and position; tests with round numbers and tolerances neither bound the error nor find the positions whose rays come back outside the film.", "anchors": ["src/camera/camera_pinhole.cpp construct, primary_ray, raster_position", "src/renderer/renderer_pt.cpp 200-216", "include/lm/film.h raster_to_pixel"]}
{"id": "C110", "title": "Rendering with components written in Python neither deadlocks nor overlaps Python code", "statement": "render() called from Python on a renderer whose serial code, loop iterations and progress or log reports call methods of components written in Python any number of times: only one thread at a time is in Python code, and none while another Python thread has the interpreter. Whatever the interleaving, the call can always be brought to its end by letting the Python methods under way return, and it does not work for ever while they return. In each parallel loop every iteration is begun once. When the call returns the caller has the interpreter again and gets an exception exactly if one was raised, namely one of those raised; no exception is lost or ends the process.", "quantifier": "every renderer (any finite or unbounded number of calls per iteration, depending on the results of earlier calls), any number of loops, threads and iterations, every interleaving, every result, exception or pause of a Python method, every activity of other Python threads", "why_tests_cant": "Deadlocks between the interpreter lock, the lock of the captured exception and the barrier of the loop depend on the schedule, and exceptions in destructors on which call raises; tests see a few schedules.", "anchors": ["src/pylm.cpp bind_renderer render (772), bind_logger, bind_progress", "src/parallel/parallel_openmp.cpp foreach", "src/scheduler.cpp run", "include/lm/progress.h ScopedReport"]}
{"id": "C111", "title": "The Python package and its notebook components", "statement": "A notebook's progress bar shows after every report the largest report so far, never goes back, and shows the total at the end. The notebook logger prints the same lines as the terminal logger for every history of log calls, indentations and severity changes, errors and warnings on the error stream. lm.registered_components() lists every registered component once. Arrays made by lm.array are accepted wherever the API takes vectors. The film reporter shows the film after every report.", "quantifier": "every history of reports and totals, every history of log calls, every registry, every list of numbers", "why_tests_cant": "Bar and log depend on the whole history of calls; two of the helpers fail on every input, which no test exercises.", "anchors": ["lightmetrica/__init__.py", "lightmetrica_jupyter/__init__.py JupyterLogger, JupyterProgress, JupyterFilmProgress", "src/pylm.cpp bind_component, bind_user", "include/lm/pylm.h type_caster<glm::vec>"]}
{"id": "C112", "title": "Points on triangles in floating point", "statement": "In double precision, the position of every hit on a triangle and every position sampled on an area light is, up to a rounding error of 20 * 2^-53 times the size of the coordinates, a point of the triangle. The coordinates sampled on a triangle are in [0,1] and add up to at most 1 up to rounding. The weight of a triangle in the table of the light is its area up to rounding, is never negative and positive for a proper triangle, and a sampled position lies on a triangle of positive weight.", "quantifier": "every triangle, every ray, every list of triangles, every random number, of coordinates between 2^-200 and 2^200 in size (2^-900 to 2^1000 for interpolation)", "why_tests_cant": "Rounding errors depend on all bits of the inputs; a test sees a few triangles, mostly with coordinates that make every operation exact.", "anchors": ["include/lm/math.h mix_barycentric, safe_sqrt, Dist", "src/light/light_area.cpp sample_position_on_triangle_mesh, construct", "src/accel/accel_sahbvh.cpp Tri::intersect", "src/mesh/mesh_raw.cpp surface_point"]}
{"id": "C113", "title": "The geometry term in floating point", "statement": "In double precision, the geometry term and the distance of two points are the same number, bit for bit, from both ends, for every pair of points. For points that are apart, with unit normals, the term is finite, not negative, and times the square of the distance it is the product of the two cosines up to 200 * 2^-53; the distance has a relative error of at most 7.5 * 2^-53.", "quantifier": "every pair of points, on surfaces, in the air and at infinity; accuracy for coordinates up to 2^200 and distances from 2^-200", "why_tests_cant": "Symmetry has to hold for all bit patterns including signed zeros, infinities and NaN; the error bound is over all positions and normals.", "anchors": ["include/lm/surface.h geometry_term, distance"]}
{"id": "C114", "title": "Lookups in an image texture in floating point", "statement": "In double precision, a lookup in an image texture at any two numbers reads a texel of the image: the one where the coordinates fall in the image repeated over the plane, up to 2^-20 of a texel. Coordinates that differ by integers read the same texel. A lookup at the computed coordinates of a point inside of a texel agrees with the lookup by the texel's place. The lookup is defined exactly if both coordinates are finite.", "quantifier": "every image whose number of values is an int and every pair of Float coordinates, including huge, tiny, negative, infinite and NaN", "why_tests_cant": "All bit patterns of the coordinates: rounding turns the fractional part of small negative numbers into 1, which only a few inputs show.", "anchors": ["src/texture/texture_bitmap.cpp eval, eval_by_pixel_coords, eval_alpha"]}
{"id": "C115", "title": "Volumes read from OpenVDB files", "statement": "Constructing an OpenVDB volume succeeds exactly if the path names a loadable file and the scale is absent or a number; the volume then has the bound of the file and its densities times the scale. If the scale is positive, the reported maximum bounds the density everywhere, events sampled in a medium with this density are inside of the bound where the density is positive, and estimates of the transmittance are between 0 and 1 with mean exp(- scale * integral of the density). A march calls the given function where the library stops, in order, until it asks to stop.", "quantifier": "all files and grids whose values are between 0 and the maximum that the library reports, all scales, rays, ranges and random numbers", "why_tests_cant": "Unbiasedness is a statement on an integral over all sequences of random numbers, and the majorant must hold at every point.", "anchors": ["plugin/volume_openvdb/volume_openvdb.cpp construct, max_scalar, eval_scalar, march", "src/medium/medium_heterogeneous.cpp"]}
{"id": "C116", "title": "Triangle hits in double precision are the hits there are", "statement": "Where the SAH BVH's triangle test reports a hit, the point of the ray at the reported distance is the point of the triangle with the reported coordinates up to rounding, and, if the triangle faces the ray enough, the ray really meets the triangle about there. Conversely a ray that goes through the triangle is reported to hit it, at about the distance and coordinates where it does.", "quantifier": "all triangles and rays of coordinates up to 2^k for k from -200 to 200, all ranges of distances, with every operation rounded as IEEE 754 binary64", "why_tests_cant": "The bounds are on the rounding errors of all inputs; the ones that violate a wrong bound are rare, and a test has no exact answer to compare with.", "anchors": ["src/accel/accel_sahbvh.cpp Tri, Tri::intersect"]}
{"id": "C117", "title": "Parameters of the Embree structures reach Embree", "statement": "The scene flags given as properties of accel::embree and accel::embreeinstanced (dynamic, compact, robust, filter) are exactly the flags that each Embree scene gets, every build argument given as a property takes effect in the build, and defaults are taken for those left out. The parameters' JSON form gives the same parameters back. A construct that fails leaves the instance as it was.", "quantifier": "all JSON objects of properties, all combinations of flags, all build arguments, all earlier constructs of the instance, any number of scenes", "why_tests_cant": "There are sixteen combinations of flags and 2^32 values for each argument, and whether an argument has an effect cannot be seen in the image; a test would have to look inside of Embree.", "anchors": ["plugin/accel_embree/embree_params.h from_json, to_json", "plugin/accel_embree/accel_embree.cpp construct, build", "plugin/accel_embree/accel_embree_instanced.cpp construct, build"]}
{"id": "C118", "title": "Command line arguments become the options asked for", "statement": "lm::json::parse_positional_args puts the arguments into the places of the template in order, and if the result is a JSON text, returns its value; with the template of the examples this is an object with the arguments as strings and numbers. Further arguments make no difference; too few arguments, and more places than arguments, are reported as errors.", "quantifier": "all templates, all numbers of arguments, all texts as arguments, any nesting of the JSON text and any white space in it", "why_tests_cant": "Arguments are texts of any length and content; a test shows some that work, not that no file name or number is changed on the way.", "anchors": ["include/lm/json.h parse_positional_args, format", "example/pt.cpp main"]}
{"id": "C119", "title": "Saved images hold the film's values in double precision arithmetic", "statement": "In a PNG file each byte is the integer part of 256 v^(1/2.2), at most 255, for a v that differs from the film's value by rounding only: it is the byte of the exact value unless this is within 2^-32 of the limit of a byte, and then one next to it; darker pixels never get larger bytes, black is 0 and all values from 1 on are 255. In HDR and PFM files each float is the nearest to the film's value. This holds for values from 0 to 2^48 (bytes) and up to 2^127 in magnitude (floats).", "quantifier": "all Floats in the range, and every pow function that errs by at most 2^-52 of the result", "why_tests_cant": "Whether the truncation after a rounded power gives the right byte depends on each of 2^63 values and on the math library; the ones at the limits of bytes are rare.", "anchors": ["src/film/film_bitmap.cpp Film_Bitmap::copy, Film_Bitmap::save"]}
{"id": "C120", "title": "The loader based on tinyobjloader hands over the whole file and stops at the first failure", "statement": "If all callbacks succeed, the loader returns true, fills the positions, normals and texture coordinates with those of the file, hands over the materials of the file in order with their values (a file without materials gets one white diffuse material named default), and then hands over every triangle exactly once, in order, with its material. A callback that fails is the last one called and the loader returns false; a file that cannot be read changes nothing.", "quantifier": "all files the library can return, all callbacks with any answers depending on the history", "why_tests_cant": "Triangles are grouped by a running comparison of materials over faces; whether one is lost depends on the sequence of materials of each shape.", "anchors": ["plugin/objloader_tinyobjloader/objloader_tinyobjloader.cpp OBJLoaderContext_TinyOBJLoader::load", "include/lm/objloader.h"]}
{"id": "C121", "title": "Maxima of volumes bound their densities in double precision arithmetic", "statement": "Computed in double precision, the reported maximum of a volume bounds its density exactly at every point, for constant volumes, spheres and combinations nested to any depth, although both sums are rounded; the box of a combination contains the boxes of its volumes and its density is zero outside of them. In tracking, the probability of a collision is between 0 and 1 and the ratio of density and maximum up to rounding; the estimated transmittance is a number between 0 and 1, for any random numbers and any number of steps; sampled collisions are before the end of the segment and where the density is not zero.", "quantifier": "all volumes built of constants, spheres and combinations of any size and depth, all points (also those that are not numbers), rays, segments, random numbers and logarithm functions", "why_tests_cant": "A density one rounding above the maximum gives a negative transmittance; it depends on the values and the order of unbounded sums.", "anchors": ["src/volume/volume_multi.cpp", "src/volume/volume_sphere.cpp", "src/volume/volume_constant.cpp", "src/medium/medium_heterogeneous.cpp"]}
{"id": "C122", "title": "Conversions of densities in double precision arithmetic", "statement": "Converting a density to projected solid angle gives the density divided by the cosine up to rounding, keeps it at points without a normal, gives zero along the surface, and does not depend on the side from which the surface is seen. Converting a density to area gives the density times both cosines over the square of the distance up to rounding, and the same number from both ends.", "quantifier": "all Floats for the symmetries; densities up to 2^500, unit vectors, cosines from 2^-40 on and points up to 2^200 in size for the accuracy", "why_tests_cant": "Cancellation in the scalar product, overflow of the quotient and different rounding from the two ends happen for few of the inputs.", "anchors": ["include/lm/surface.h surface::convert_pdf_SA_to_projSA, surface::convert_pdf_to_area"]}
{"id": "C123", "title": "Messages of the default progress reporter", "statement": "Two messages about progress are never less than 501 milliseconds apart, and the first comes at least that long after the start; an update of the mode the reporter was started in is reported exactly when the pause is over, an update of the other mode never. The time left that a message shows is the time so far in whole milliseconds times the share of the work that is left, rounded down. The end is always reported. No update has undefined behaviour.", "quantifier": "all histories of calls after a start and all clock readings", "why_tests_cant": "The rate depends on when updates arrive; an overflow shows only after days of rendering.", "anchors": ["src/progress.cpp ProgressContext_Default"]}
{"id": "C124", "title": "Densities of Gaussian volumes in double precision arithmetic", "statement": "The density of a Gaussian volume is a number between zero and the reported maximum at every point, is the maximum in the centre, does not grow when every coordinate gets farther from the centre, does not change when centre and point are exchanged, and is the maximum times the exponential of minus half the sum of the squared distances in standard deviations, up to rounding in the exponent.", "quantifier": "all points, positions, maxima and standard deviations, with an exponential function that is correct at zero and at most one for arguments that are not positive", "why_tests_cant": "Squares overflow to infinity or underflow to zero only for extreme coordinates and deviations.", "anchors": ["src/volume/volume_gaussian.cpp Volume_Gaussian::eval_scalar"]}
