{"id": "C01", "title": "Ray history grammar", "statement": "Every history produced by photon_tracer.step_forward/follow is: one GENERATE, then any number of interactions each of which is REFLECT, TRANSMIT, or ABSORB immediately followed by EMIT or SCATTER, then at most one ending which is EXIT, KILL, or ABSORB followed by NONRADIATIVE or REACT. Nothing follows an ending.", "quantifier": "all scenes, all start rays, all random-number sequences, all maxsteps/maxpathlength settings", "why_tests_cant": "A test sees a handful of seeded histories; downstream code (tallies, LSC, renderer, SQL counts) indexes histories by position and relies on the shape for every possible sequence of random decisions.", "anchors": ["pvtrace/algorithm/photon_tracer.py: step_forward, follow", "pvtrace/light/event.py: Event"]}
{"id": "C02", "title": "Tracing terminates within the step budget", "statement": "follow() returns after at most maxsteps+1 passes of its loop and the history holds at most 2*maxsteps+2 events, whatever the scene does (including a ray trapped forever by total internal reflection).", "quantifier": "all scenes, rays, random sequences and all non-negative maxsteps", "why_tests_cant": "Non-termination only shows for trapped rays under particular random sequences; no finite number of runs excludes it.", "anchors": ["pvtrace/algorithm/photon_tracer.py: step_forward"]}
{"id": "C03", "title": "Path length, time of flight and wavelength bookkeeping", "statement": "Along a history, travelled and duration never decrease; each propagation adds exactly the distance between consecutive positions to travelled and n*distance/c to duration; an absorption happens strictly before the next interface; wavelength and source change only at an EMIT/SCATTER event.", "quantifier": "all histories of all scenes with positive hit distances", "why_tests_cant": "Relation between every consecutive pair of events in unboundedly long histories.", "anchors": ["pvtrace/algorithm/photon_tracer.py: step_forward", "pvtrace/light/ray.py: propagate", "pvtrace/material/material.py: is_absorbed"]}
{"id": "C04", "title": "KILL means a budget was exceeded", "statement": "A KILL event appears only when the number of steps exceeded maxsteps or the travelled distance exceeded maxpathlength, and once either is exceeded the ray makes no further interaction: the next event, if any, is KILL.", "quantifier": "all scenes, rays, random sequences, budgets", "why_tests_cant": "Budgets interact with every control path of the loop.", "anchors": ["pvtrace/algorithm/photon_tracer.py: step_forward"]}
{"id": "C05", "title": "The container is the innermost object around the ray", "statement": "When objects are nested or disjoint, every line meets each object in one interval and no two faces coincide, the container reported by next_hit (photon_tracer.find_container) is the innermost object that contains the ray position, and the hit node is the owner of the nearest face ahead.", "quantifier": "all finite families of nested-or-disjoint intervals along a ray (any number of objects, any order in the scene tree)", "why_tests_cant": "Container detection is by counting hits; correctness is a statement about all nestings, far beyond enumerable scenes.", "anchors": ["pvtrace/algorithm/photon_tracer.py: find_container, next_hit", "pvtrace/scene/scene.py: Scene.intersections"]}
{"id": "C06", "title": "The adjacent node is the medium on the far side of the interface", "statement": "The adjacent node reported by next_hit (whose refractive index is used for Fresnel reflection and refraction, and whose name goes to the event log) is the object that contains the points just beyond the hit face.", "quantifier": "all nested-or-disjoint families of objects along a ray", "why_tests_cant": "Depends on the relative order of all faces further along the ray, which a per-scene test fixes once.", "anchors": ["pvtrace/algorithm/photon_tracer.py: next_hit", "pvtrace/engine/_kernel.pyx: trace_one (adjacent)"]}
{"id": "C07", "title": "An interface always separates two different nodes", "statement": "Whenever next_hit reports an adjacent node, it is different from the container node, so REFLECT/TRANSMIT metadata never has container == adjacent.", "quantifier": "all multisets of intersections for which a container exists", "why_tests_cant": "Counting argument over arbitrary intersection lists.", "anchors": ["pvtrace/algorithm/photon_tracer.py: find_container, next_hit"]}
{"id": "C08", "title": "Every traced photon has a recorded fate", "statement": "A history ends with EXIT, KILL, NONRADIATIVE or REACT, so every emitted ray is accounted for exactly once in the final-fate counts.", "quantifier": "all scenes and rays", "why_tests_cant": "Requires knowing what happens for every ray, including those that miss all geometry.", "anchors": ["pvtrace/algorithm/photon_tracer.py: step_forward, next_hit"]}
{"id": "C09", "title": "The compiled engine traces the same histories as the Python tracer", "statement": "For scenes both support, given the same intersections and the same outcomes of the random decisions, the event kinds and node/component labels produced by the compiled kernel's trace_one equal those of photon_tracer.step_forward.", "quantifier": "all scenes with unique containers, all sequences of random outcomes, all step budgets (event budget not reached)", "why_tests_cant": "Existing tests compare means of two Monte Carlo runs; equality of control flow over all decision sequences is not observable that way.", "anchors": ["pvtrace/engine/_kernel.pyx: trace_one", "pvtrace/algorithm/photon_tracer.py: step_forward"]}
{"id": "C10", "title": "Recorder tallies do not depend on history sampling", "statement": "trace_bundle's promise 'recorders tally every ray regardless': the recorder tallies are the same for every value of record_every and max_events.", "quantifier": "all scenes, seeds, record_every and max_events values", "why_tests_cant": "Differences need a ray whose history is longer than the event budget; tests pick budgets that avoid it.", "anchors": ["pvtrace/engine/_kernel.pyx: trace_one, trace_bundle", "pvtrace/engine/api.py: simulate"]}
{"id": "C11", "title": "Event budget exhaustion is always visible", "statement": "When a recorded ray runs out of its event budget the kernel does not silently drop events: the stored history ends with a KILL event ('leave room for the KILL record').", "quantifier": "all rays, all max_events >= 1", "why_tests_cant": "Needs histories ending exactly at the budget boundary.", "anchors": ["pvtrace/engine/_kernel.pyx: trace_one, record"]}
{"id": "C12", "title": "Results are independent of thread scheduling", "statement": "For a given seed the compiled engine's integer tallies, histogram bins, event log and event counts are the same for every number of threads and every assignment of rays to threads and every execution order.", "quantifier": "all partitions of rays over threads and all interleavings of whole-ray tasks", "why_tests_cant": "Schedules cannot be enumerated by running the code.", "anchors": ["pvtrace/engine/_kernel.pyx: trace_bundle, tally, record"]}
{"id": "C13", "title": "Event log rows of different rays never overlap and decode to the traced history", "statement": "The row used for event k of recorded ray j lies inside the allocated log, two different recorded rays never write the same row, the number of recorded rays equals the number of history slots, and EngineResult.histories() yields exactly the events each recorded ray produced.", "quantifier": "all ray counts, record_every >= 1, max_events >= 1, all histories", "why_tests_cant": "Index arithmetic over unbounded sizes.", "anchors": ["pvtrace/engine/_kernel.pyx: trace_bundle, record", "pvtrace/engine/api.py: EngineResult.histories, event_counts"]}
{"id": "C14", "title": "Per-ray random streams are well-formed and distinct", "statement": "Every draw lies in [0,1); the generator state of a ray is never all-zero, at seeding and after any number of draws; and two rays of the same run with different indices start from different generator states.", "quantifier": "all 64-bit seeds, all ray indices, all draw counts", "why_tests_cant": "2^64 seeds; all-zero state or seed collision would silently break the statistics.", "anchors": ["pvtrace/engine/_kernel.pyx: _splitmix64, rng_seed, rng_uniform, trace_bundle"]}
{"id": "C15", "title": "Streaming gives the same rays as one big simulation", "statement": "engine.simulate_stream with bundle size b assigns to each ray of the total run the same light, the same kernel seed and the same recording decision as engine.simulate of the whole.", "quantifier": "all ray counts, bundle sizes, numbers of lights, record_every", "why_tests_cant": "Depends on divisibility relations among the four numbers.", "anchors": ["pvtrace/engine/api.py: simulate, simulate_stream", "pvtrace/engine/emit.py: emit_bundle"]}
{"id": "C16", "title": "Rays are dealt to lights round robin", "statement": "Ray i of num_rays comes from light i mod L in both scene.emit and emit_bundle; every row of the bundle is written exactly once and each light gets floor or ceil of num_rays/L rays.", "quantifier": "all ray counts and light counts", "why_tests_cant": "Arithmetic over all sizes; uninitialised rows would only be visible statistically.", "anchors": ["pvtrace/engine/emit.py: emit_bundle", "pvtrace/scene/scene.py: Scene.emit"]}
{"id": "C17", "title": "Recorder counts are distinct rays and raw crossings", "statement": "A recorder's rays is the number of rays with at least one matching event, crossings is the total number of matching events, and so rays <= crossings and rays <= number of rays traced.", "quantifier": "all lists of histories and all recorders with distinct names", "why_tests_cant": "Counting law over all histories.", "anchors": ["pvtrace/engine/tally.py: tally_histories", "pvtrace/engine/recorder.py: Recorder", "pvtrace/engine/_kernel.pyx: tally"]}
{"id": "C18", "title": "Kernel tallies agree with tally_histories", "statement": "The counts, crossings and histogram bins accumulated by the kernel equal those computed by tally_histories from the same rays' histories.", "quantifier": "all histories, all recorders (distinct recorder and node names)", "why_tests_cant": "The two selectors are written differently (node index and container test vs names); agreement must hold for every event.", "anchors": ["pvtrace/engine/tally.py: tally_histories, _matches", "pvtrace/engine/_kernel.pyx: tally, trace_one"]}
{"id": "C19", "title": "A histogram counts a value only in the bin that contains it", "statement": "If a value is counted in bin i of a Histogram(start, stop, bins), then start + i*w <= value < start + (i+1)*w with w the bin width; values outside [start, stop) are not counted.", "quantifier": "all real values and all histogram specifications", "why_tests_cant": "Boundary behaviour of truncation just outside the range is a measure-small set of inputs.", "anchors": ["pvtrace/engine/tally.py: _bin_index", "pvtrace/engine/_kernel.pyx: tally"]}
{"id": "C20", "title": "Histogram storage does not overlap", "statement": "The flat bin array slices assigned to different histograms are disjoint, cover the array exactly, and within a heatmap distinct (a,b) bin pairs use distinct cells; every increment stays in its histogram's slice.", "quantifier": "all lists of recorders and histogram shapes", "why_tests_cant": "Layout arithmetic over all recorder sets.", "anchors": ["pvtrace/engine/compiler.py: _compile_recorders", "pvtrace/engine/api.py: EngineResult.recorders", "pvtrace/engine/_kernel.pyx: tally"]}
{"id": "C21", "title": "Recorder statistics are the sample statistics", "statement": "mean(prop) is the average of the recorded values, std(prop)^2 is their population variance (never negative before the clamp), and error is std/sqrt(rays).", "quantifier": "all finite sequences of recorded values", "why_tests_cant": "Algebraic identity over all samples.", "anchors": ["pvtrace/engine/api.py: RecorderResult.mean, std, error"]}
{"id": "C22", "title": "Histogram mass", "statement": "The sum of a histogram's bins never exceeds rays and equals rays when all recorded values are in range.", "quantifier": "all histories, recorders and histogram specifications", "why_tests_cant": "Invariant over arbitrary accumulation sequences.", "anchors": ["pvtrace/engine/tally.py: _TallyState.accumulate", "pvtrace/engine/_kernel.pyx: tally"]}
{"id": "C23", "title": "Database throw identifiers identify rays", "statement": "In the CLI database every thrown ray has its own throw_id, numbered densely from 0, and all events of one ray share it, for every interleaving of the workers' queue messages.", "quantifier": "all interleavings of worker message sequences, all assignments of tasks to pool processes", "why_tests_cant": "Depends on operating-system scheduling of pool processes.", "anchors": ["pvtrace/cli/main.py: monitor_queue", "pvtrace/scene/scene.py: do_simulation_add_to_queue, simulate"]}
{"id": "C24", "title": "--end-rays does not change any count", "statement": "Storing only end rays leaves every CLI count query (entering, escaping, reflected, lost, reacted, killed; with any normal or source filter) unchanged.", "quantifier": "all histories, all node names, all filters", "why_tests_cant": "Equality of query results for all databases.", "anchors": ["pvtrace/scene/scene.py: is_end_ray, do_simulation_add_to_queue", "pvtrace/cli/db.py: _boundary_query, _volume_query"]}
{"id": "C25", "title": "CLI counts equal recorder counts", "statement": "For the same histories the CLI count queries return the same number as the recorder with the corresponding event and facet filter on the same node.", "quantifier": "all histories, node names, facets and tolerances", "why_tests_cant": "Relational query semantics vs imperative accumulation over all inputs.", "anchors": ["pvtrace/cli/db.py: _boundary_query, _volume_query, sql_count_*", "pvtrace/engine/tally.py: _matches, tally_histories"]}
{"id": "C26", "title": "Work is split without losing or duplicating rays", "statement": "Scene.simulate(num_rays, workers) throws exactly num_rays rays in total and, when it uses a pool, every worker gets at least one ray and workers differ only by the remainder given to the first.", "quantifier": "all num_rays >= 0 and workers >= 1", "why_tests_cant": "Modular arithmetic with several branches over all pairs.", "anchors": ["pvtrace/scene/scene.py: Scene.simulate"]}
{"id": "C27", "title": "A seed is either honoured or rejected", "statement": "Scene.simulate with a seed either runs in a single process seeded with it or raises ValueError; it never silently runs workers with unrelated seeds. Without a number of workers half of the processors are used, and at least one.", "quantifier": "all num_rays, workers, seeds", "why_tests_cant": "Branch structure over all inputs.", "anchors": ["pvtrace/scene/scene.py: Scene.simulate, do_simulation"]}
{"id": "C28", "title": "A crash leaves a consistent prefix in the database", "statement": "After the monitor has processed any prefix of the queue, the database holds exactly one ray row and one event row per message in order, with each event row pointing to the ray row written with it.", "quantifier": "all message sequences and all crash points between commits", "why_tests_cant": "Crash points cannot be enumerated by tests.", "anchors": ["pvtrace/cli/main.py: monitor_queue, write_ray, write_event", "pvtrace/data/schema.sql"]}
{"id": "C29", "title": "A Distribution's cumulative function is a proper CDF", "statement": "For accepted data the stored CDF is non-decreasing, starts at 0 and ends at exactly 1.", "quantifier": "all ascending x and non-negative, not identically zero y", "why_tests_cant": "Property of cumulative sums of arbitrary data.", "anchors": ["pvtrace/material/distribution.py: Distribution.__init__"]}
{"id": "C30", "title": "Samples stay inside the spectrum and are monotone", "statement": "Distribution.sample(p) for p in [0,1] lies within [x[0], x[-1]] and is non-decreasing in p; lookup(x) lies in [0,1] and is non-decreasing in x. The same holds for histograms, which only return given abscissae.", "quantifier": "all distributions, all probabilities", "why_tests_cant": "Interpolation over arbitrary tables.", "anchors": ["pvtrace/material/distribution.py: sample, lookup"]}
{"id": "C31", "title": "lookup and sample are inverse", "statement": "For a distribution with strictly increasing CDF, sample(lookup(x)) = x for x in range and lookup(sample(p)) = p for p in [0,1]. For a histogram without empty bins lookup(x) is the fraction of the counts up to the bin of x, and sample returns the upper knot of that bin.", "quantifier": "all such distributions, all x and p", "why_tests_cant": "Round trip for all reals.", "anchors": ["pvtrace/material/distribution.py: sample, lookup"]}
{"id": "C32", "title": "'redshift' emission never gains energy", "statement": "With emit_method='redshift' the emitted wavelength is at least the absorbed wavelength; with 'kT' the emitted photon energy exceeds the absorbed energy by at most 3/2 kB T.", "quantifier": "all emission spectra, all absorbed wavelengths, all random numbers", "why_tests_cant": "Flat regions of the CDF and the edges of the spectrum are exceptional inputs.", "anchors": ["pvtrace/material/component.py: Luminophore.emit", "pvtrace/material/distribution.py: sample, lookup", "pvtrace/engine/_kernel.pyx: trace_one (EMIT), interp_clamped"]}
{"id": "C33", "title": "Component choice is proportional to attenuation", "statement": "Material.component picks component i exactly when the uniform draw falls in an interval of length alpha_i / sum(alpha); it always returns an existing component and never one with zero attenuation coefficient.", "quantifier": "all component lists, all coefficients >= 0 with positive sum, all draws in [0,1)", "why_tests_cant": "Exactness over all draws; statistical tests cannot see boundary draws.", "anchors": ["pvtrace/material/material.py: component", "pvtrace/engine/_kernel.pyx: trace_one (component selection)"]}
{"id": "C34", "title": "Absorption follows Beer-Lambert exactly", "statement": "For attenuation alpha > 0 the sampled depth is >= 0 and exceeds d exactly for draws u >= 1 - exp(-alpha d), an interval of length exp(-alpha d); a ray is absorbed before distance D exactly for u < 1 - exp(-alpha D).", "quantifier": "all alpha > 0, all distances, all draws in [0,1)", "why_tests_cant": "A probability law, tests only sample it.", "anchors": ["pvtrace/material/material.py: penetration_depth, is_absorbed", "pvtrace/engine/_kernel.pyx: trace_one (volume absorption)"]}
{"id": "C35", "title": "Attenuation is additive", "statement": "The total attenuation coefficient of a material is the sum over its components, independent of their order, and zero without components.", "quantifier": "all component lists and wavelengths", "why_tests_cant": "Law over all lists.", "anchors": ["pvtrace/material/material.py: total_attenutation_coefficient"]}
{"id": "C36", "title": "Quantum yield is a probability and decides re-emission", "statement": "The quantum yield derived from lifetimes lies in [0,1]; a component re-emits exactly for draws below it; Absorber and Reactor never re-emit.", "quantifier": "all lifetimes, yields and draws", "why_tests_cant": "Over all reals.", "anchors": ["pvtrace/material/component.py: Scatterer.__init__, is_radiative, Absorber, Reactor"]}
{"id": "C37", "title": "Fresnel reflectivity is a probability with the right limits", "statement": "For positive indices and incidence angle in [0, pi/2] the reflectivity is in [0,1]; it is 1 exactly above the critical angle region, 0 for matched indices (angle < pi/2) and ((n1-n2)/(n1+n2))^2 at normal incidence.", "quantifier": "all n1, n2 > 0 and all angles", "why_tests_cant": "Real-analytic statement over a continuum.", "anchors": ["pvtrace/material/utils.py: fresnel_reflectivity", "pvtrace/engine/_kernel.pyx: fresnel_reflectivity"]}
{"id": "C38", "title": "Fresnel reciprocity", "statement": "The reflectivity seen from the other side at the refracted angle is the same: R(theta1; n1, n2) = R(theta2; n2, n1) when n1 sin theta1 = n2 sin theta2.", "quantifier": "all index pairs and angles below critical", "why_tests_cant": "Identity over a continuum.", "anchors": ["pvtrace/material/utils.py: fresnel_reflectivity"]}
{"id": "C39", "title": "Specular reflection obeys the law of reflection", "statement": "The reflected direction has unit length, the same tangential part, opposite normal part, does not depend on the sign of the normal, and reflecting twice restores the direction.", "quantifier": "all unit directions and unit normals", "why_tests_cant": "Vector identity over a continuum.", "anchors": ["pvtrace/material/utils.py: specular_reflection", "pvtrace/engine/_kernel.pyx: specular_reflect"]}
{"id": "C40", "title": "Refraction obeys Snell's law", "statement": "Below the critical angle the refracted direction has unit length, lies in the plane of incidence on the transmission side, satisfies n1 sin theta1 = n2 sin theta2, and equals the incident direction for equal indices; kernel and Python formulas agree.", "quantifier": "all unit directions and normals, all index pairs", "why_tests_cant": "Vector identity over a continuum.", "anchors": ["pvtrace/material/utils.py: fresnel_refraction", "pvtrace/engine/_kernel.pyx: fresnel_refract", "pvtrace/material/surface.py: FresnelSurfaceDelegate"]}
{"id": "C41", "title": "Surfaces reflect with probability equal to their reflectivity", "statement": "Surface.is_reflected is true exactly for draws below the reflectivity; NullSurface never reflects and never deviates a ray; a totally reflecting interface always reflects.", "quantifier": "all reflectivities and draws", "why_tests_cant": "Over all draws.", "anchors": ["pvtrace/material/surface.py: Surface.is_reflected, NullSurfaceDelegate, FresnelSurfaceDelegate"]}
{"id": "C42", "title": "Phase functions return unit directions in their advertised solid angle", "statement": "isotropic, cone, lambertian and Henyey-Greenstein return unit vectors for every draw; cone stays within theta_max of +z; lambertian stays in the upper hemisphere.", "quantifier": "all draws in [0,1)^2, all theta_max in [0, pi/2]", "why_tests_cant": "Over all draws; a NaN for one draw would poison a ray.", "anchors": ["pvtrace/material/utils.py: isotropic, cone, lambertian, henyey_greenstein, spherical_to_cart", "pvtrace/engine/_kernel.pyx: sample_phase"]}
{"id": "C43", "title": "Henyey-Greenstein is defined for every asymmetry parameter", "statement": "henyey_greenstein(g) returns a direction with cosine in [-1,1] for every |g| < 1, including the default g = 0 which is isotropic.", "quantifier": "all g in (-1,1), all draws", "why_tests_cant": "Singular parameter values.", "anchors": ["pvtrace/material/utils.py: henyey_greenstein", "pvtrace/engine/_kernel.pyx: sample_phase"]}
{"id": "C44", "title": "Light masks stay inside their aperture", "statement": "Rectangular, circular and cube position masks return points inside the declared half-widths/radius, with z = 0 for the planar ones.", "quantifier": "all sizes and draws", "why_tests_cant": "Over all draws.", "anchors": ["pvtrace/light/light.py: rectangular_mask, circular_mask, cube_mask", "pvtrace/engine/emit.py"]}
{"id": "C45", "title": "Coordinate conversion between nodes is consistent", "statement": "point_to_node/vector_to_node between any two nodes of a tree are mutually inverse and compose: A->B then B->C equals A->C, whatever the path through the tree.", "quantifier": "all trees of nodes with invertible poses, all points", "why_tests_cant": "Induction over tree shape.", "anchors": ["pvtrace/scene/node.py: transformation_to, point_to_node, vector_to_node"]}
{"id": "C46", "title": "Poses are rigid", "statement": "Any node built by translate, rotate, look_at and location assignments has a rigid pose: distances, dot products and hence angles and hit distances are preserved by conversion to and from its frame.", "quantifier": "all finite sequences of operations", "why_tests_cant": "Invariant over all operation sequences.", "anchors": ["pvtrace/geometry/transformable.py: Transformable", "pvtrace/geometry/transformations.py: rotation_matrix, translation_matrix", "pvtrace/scene/node.py"]}
{"id": "C47", "title": "location always equals the pose's translation and rotation preserves it", "statement": "After any sequence of translate, rotate, location= and pose= operations, node.location equals the translation part of node.pose; rotate leaves location unchanged and translate(v) adds v.", "quantifier": "all finite sequences of operations", "why_tests_cant": "Two redundant copies of the state updated by different code; must agree after every sequence.", "anchors": ["pvtrace/geometry/transformable.py: pose, location, translate, rotate"]}
{"id": "C48", "title": "rotate() is a body rotation about an axis given in the node's own frame", "statement": "As documented, node.rotate(angle, axis) keeps the node's own axis direction fixed: the axis expressed in the node's coordinate system is not moved by the rotation.", "quantifier": "all poses, angles and axes", "why_tests_cant": "Only visible after a previous rotation.", "anchors": ["pvtrace/geometry/transformable.py: rotate"]}
{"id": "C49", "title": "look_at points the node's face along the vector", "statement": "After node.look_at(v) the node's +z axis maps to the direction of v, as documented ('will always point the face of the node along the direction vector').", "quantifier": "all prior poses and all non-zero vectors v", "why_tests_cant": "Exceptional inputs: already rotated nodes and non-unit vectors.", "anchors": ["pvtrace/scene/node.py: look_at"]}
{"id": "C50", "title": "Sphere intersections are exactly the forward points of the sphere on the ray", "statement": "Every returned point lies on the sphere and on the ray at non-negative parameter, points are sorted by distance, and every forward intersection is returned.", "quantifier": "all radii, origins and directions", "why_tests_cant": "Over a continuum.", "anchors": ["pvtrace/geometry/sphere.py: intersections", "pvtrace/engine/_kernel.pyx: intersect_sphere"]}
{"id": "C51", "title": "Inside, surface and outside are mutually exclusive for a sphere", "statement": "No point is both contained and on the surface; the outward normal has unit length and a ray is entering exactly when it heads towards the inside.", "quantifier": "all points and radii", "why_tests_cant": "Over a continuum with tolerances.", "anchors": ["pvtrace/geometry/sphere.py: contains, is_on_surface, normal, is_entering"]}
{"id": "C52", "title": "Kernel box intersection is exact", "statement": "intersect_box returns exactly the parameters greater than EPS at which the ray enters and leaves the box, in increasing order; the interval between them is exactly the part of the line inside the box.", "quantifier": "all box sizes, origins and directions", "why_tests_cant": "Over a continuum, with axis-parallel special cases.", "anchors": ["pvtrace/engine/_kernel.pyx: intersect_box"]}
{"id": "C53", "title": "Box.is_on_surface is true only for points of the box surface", "statement": "If Box.is_on_surface(point) is true then the point is within tolerance of the box's surface.", "quantifier": "all box sizes and points", "why_tests_cant": "Points outside the box on the extension of a face plane are not tested.", "anchors": ["pvtrace/geometry/box.py: is_on_surface, normal", "pvtrace/geometry/utils.py: on_aabb_surface"]}
{"id": "C54", "title": "Cylinder intersections are sound and complete", "statement": "Every point returned by Cylinder.intersections lies on the closed cylinder's surface; every forward point where the ray meets the surface is returned.", "quantifier": "all cylinders and rays", "why_tests_cant": "Rim points are a measure-zero set.", "anchors": ["pvtrace/geometry/utils.py: ray_z_cylinder", "pvtrace/geometry/cylinder.py", "pvtrace/engine/_kernel.pyx: intersect_cylinder"]}
{"id": "C55", "title": "Wavelength colours are valid RGB", "statement": "wavelength_to_rgb returns three integers in 0..255 for every wavelength and rgb_to_hex_int packs them injectively into 0..0xffffff.", "quantifier": "all wavelengths, all colour triples", "why_tests_cant": "Piecewise function over a continuum.", "anchors": ["pvtrace/light/utils.py: wavelength_to_rgb, rgb_to_hex_int, wavelength_to_hex_int"]}
{"id": "C56", "title": "Scene files: references are resolved or rejected", "statement": "Parsing either fails or yields a tree rooted at world in which every node has the declared parent (world by default), every material's components exist, and every recorder is attached to an existing node; explicit recorders take precedence over automatic ones of the same name.", "quantifier": "all scene documents (abstract syntax)", "why_tests_cant": "Over all documents, including dangling and reordered references.", "anchors": ["pvtrace/cli/parse.py: parse_v_1_0, parse_recorders, auto_recorders"]}
{"id": "C57", "title": "Components that the schema allows can be built", "statement": "Every component specification allowed by the scene schema (coefficient only, spectrum only, both) builds the corresponding component.", "quantifier": "all combinations of optional keys", "why_tests_cant": "Combination of optional keys and truthiness of values.", "anchors": ["pvtrace/cli/parse.py: parse_absorber, parse_scatterer, parse_luminophore"]}
{"id": "C58", "title": "Automatic recorders are well-formed and do not collide", "statement": "record: true produces valid recorders (bins between 10 and 60, start < stop for positive sizes) whose names are distinct across nodes and faces.", "quantifier": "all node names and box sizes", "why_tests_cant": "Over all names and sizes.", "anchors": ["pvtrace/cli/parse.py: auto_recorders", "pvtrace/studio/server.py: _patch add-face-recorders"]}
{"id": "C59", "title": "A rejected document leaves studio unchanged", "statement": "If applying a new document fails for any reason, studio keeps the previous document, scene and spec; after success all three correspond to the new text. Holds after any sequence of edits.", "quantifier": "all sequences of documents and patches, all failure points", "why_tests_cant": "Failure points and histories.", "anchors": ["pvtrace/studio/server.py: Studio.apply, _patch"]}
{"id": "C60", "title": "Generated names are fresh", "statement": "_unique_name returns a name not already in use, of the form stem-k with the smallest such k >= 1, for any set of existing names.", "quantifier": "all finite sets of names and stems", "why_tests_cant": "Termination and freshness over all sets.", "anchors": ["pvtrace/studio/server.py: _unique_name"]}
{"id": "C61", "title": "Deleting things in studio leaves no dangling references", "statement": "After delete-component no node material mentions the component; after delete-node no recorder refers to the node and no node names it as parent.", "quantifier": "all documents", "why_tests_cant": "Over all documents.", "anchors": ["pvtrace/studio/server.py: _patch"]}
{"id": "C62", "title": "LSC facet names mean the same face everywhere", "statement": "The face on which add_solar_cell('near') puts a solar cell is the face counted as 'near' in counts(), spectrum() and summary(); likewise far, left, right.", "quantifier": "all LSC sizes and facets", "why_tests_cant": "Cross-checks two modules that are never run against each other.", "anchors": ["pvtrace/device/lsc.py: OptionalMirrorAndSolarCell, label_facets, summary"]}
{"id": "C63", "title": "LSC photon accounting is complete", "statement": "Every simulated photon contributes exactly one entrance and one exit entry; non-radiative losses are reported by spectrum(events={'absorb'}) and the summary's loss fraction.", "quantifier": "all histories", "why_tests_cant": "Depends on the final event of each history.", "anchors": ["pvtrace/device/lsc.py: simulate, spectrum, summary"]}
{"id": "C64", "title": "The air-gap mirror reflects", "statement": "With lambertian=False a photon hitting the air-gap mirror leaves in the specular direction.", "quantifier": "all directions and normals", "why_tests_cant": "Direction algebra.", "anchors": ["pvtrace/device/lsc.py: AirGapMirror"]}
{"id": "C65", "title": "The renderer keeps a bounded number of histories and removes what it drew", "statement": "MeshcatRenderer keeps at most max_histories ray paths and every object drawn for an evicted history is deleted.", "quantifier": "all sequences of histories", "why_tests_cant": "Unbounded sequences.", "anchors": ["pvtrace/scene/renderer.py: add_history, remove_object"]}
{"id": "C66", "title": "Spectrum queries list one entry per counted ray", "statement": "`pvtrace-cli spectrum` lists exactly one wavelength per ray counted by `pvtrace-cli count` with the same arguments.", "quantifier": "all databases", "why_tests_cant": "Rays that cross more than once with different wavelengths.", "anchors": ["pvtrace/cli/db.py: sql_spectrum_*, sql_count_*"]}
{"id": "C67", "title": "Sampling follows the area under the spectrum", "statement": "The probability that Distribution.sample returns a value between two spectrum points is proportional to the area under the spectrum between them, whatever the spacing of x.", "quantifier": "all accepted spectra", "why_tests_cant": "Test spectra are uniformly spaced; the property distinguishes weighting by samples from weighting by area.", "anchors": ["pvtrace/material/distribution.py: Distribution.__init__, sample"]}
{"id": "C68", "title": "Compiled spectra agree with Python spectra", "statement": "Inside the data range the compiled kernel's absorption coefficient and emitted wavelength equal those of the Python components for the same draw.", "quantifier": "all accepted interpolated spectra, wavelengths inside the data, all draws, all emit methods", "why_tests_cant": "Two independent implementations of interpolation over arbitrary tables.", "anchors": ["pvtrace/engine/_kernel.pyx: interp_clamped, trace_one", "pvtrace/engine/compiler.py", "pvtrace/material/distribution.py"]}
{"id": "C69", "title": "Refraction is reversible", "statement": "A ray sent back along the reversed transmitted direction from the second medium is refracted exactly back along the reversed incident direction.", "quantifier": "all indices > 0, unit directions and normals below total internal reflection", "why_tests_cant": "Algebraic identity over continuous inputs; round trips are never tested.", "anchors": ["pvtrace/material/utils.py: fresnel_refraction"]}
{"id": "C70", "title": "A transmitted ray has a valid direction", "statement": "Whenever the Fresnel surface decides to transmit, the transmitted direction is defined (no square root of a negative number) and is a unit vector continuing to the far side of the surface.", "quantifier": "all unit directions and normals, all indices (ratio up to 10^4), all draws", "why_tests_cant": "Depends on the coin-flip and the total-internal-reflection condition agreeing for every angle.", "anchors": ["pvtrace/material/surface.py: FresnelSurfaceDelegate", "pvtrace/material/utils.py"]}
{"id": "C71", "title": "Light.emit yields the number of rays asked for", "statement": "Light.emit(n) yields exactly n rays with the light's position, direction and wavelength samples; Light.emit(None) yields rays without end, as documented.", "quantifier": "all n and all draws", "why_tests_cant": "An endless generator cannot be tested by running it to the end.", "anchors": ["pvtrace/light/light.py: Light.emit"]}
{"id": "C72", "title": "translate moves a node whatever the numeric type of its location", "statement": "node.translate(v) succeeds and adds v to node.location for every location and vector, including locations given as Python integers.", "quantifier": "all locations and vectors", "why_tests_cant": "Depends on the numpy dtype the location happened to get; the existing tests use floats.", "anchors": ["pvtrace/geometry/transformable.py: Transformable.__init__, location, translate"]}
{"id": "C73", "title": "Scene.intersections reports exactly the forward hits of every geometry, nearest first", "statement": "For a ray in world coordinates Scene.intersections returns, with multiplicity, every hit of every geometry in the tree computed in that node's own frame, converted to world coordinates, restricted to points ahead of the ray and sorted by distance; with rigid poses each point is on the ray and the stored distance is its world distance.", "quantifier": "all node trees, geometries and rays", "why_tests_cant": "Arbitrary nesting of frames.", "anchors": ["pvtrace/scene/scene.py: intersections", "pvtrace/scene/node.py: intersections", "pvtrace/geometry/intersection.py"]}
{"id": "C74", "title": "A ray crosses a convex solid once from inside and never or twice from outside", "statement": "For box, sphere and cylinder the number of intersections ahead of a ray is exactly one when it starts inside the solid and leaves it, and zero or two when it starts outside. Medium tracking (find_container counts hits) depends on this.", "quantifier": "all sizes, origins and directions", "why_tests_cant": "Grazing rays, rims and small solids are measure-zero or unusual inputs.", "anchors": ["pvtrace/geometry/sphere.py: intersections", "pvtrace/geometry/utils.py: ray_z_cylinder", "pvtrace/engine/_kernel.pyx: intersect_box, intersect_sphere, intersect_cylinder", "pvtrace/algorithm/photon_tracer.py: find_container"]}
{"id": "C75", "title": "Cylinder.is_on_surface accepts exactly the points of the surface", "statement": "Cylinder.is_on_surface is true for every point of the closed cylinder's surface (and within tolerance of it) and only for points within tolerance of the surface.", "quantifier": "all cylinders and points", "why_tests_cant": "It is implemented by shooting a ray in the fixed direction (1,1,1); the failing points are special.", "anchors": ["pvtrace/geometry/cylinder.py: is_on_surface", "pvtrace/geometry/utils.py: ray_z_cylinder"]}
{"id": "C76", "title": "Surface normals are unit, outward and the same in both engines", "statement": "At every surface point box, sphere and cylinder report the unit outward normal of the face they lie on (so the cylinder tells rays that go inside from those that do not), and the compiled kernel reports the same normal as the Python tracer wherever the latter is defined.", "quantifier": "all sizes and surface points", "why_tests_cant": "Over a continuum with tolerance bands at edges.", "anchors": ["pvtrace/geometry/box.py: normal", "pvtrace/geometry/sphere.py: normal", "pvtrace/geometry/cylinder.py: normal", "pvtrace/engine/_kernel.pyx: local_normal"]}
{"id": "C77", "title": "Absorption is decided in every medium the ray crosses", "statement": "Whenever the penetration depth drawn for the container's material is smaller than the distance to the next interface, the next event is ABSORB at exactly that depth; otherwise the ray reaches the interface.", "quantifier": "all scenes, media (including the world's own material), rays and draws", "why_tests_cant": "Which interface comes next depends on the whole scene; tests use scenes whose world is empty air.", "anchors": ["pvtrace/algorithm/photon_tracer.py: step_forward", "pvtrace/material/material.py: is_absorbed"]}
{"id": "C78", "title": "Phase functions act in the frame of the node that re-emits", "statement": "When a component re-emits or scatters a ray, the direction drawn from its phase function is relative to the node that contains it: turning the node turns the emission pattern with it. This holds in the Python tracer and in the compiled kernel.", "quantifier": "all scenes, node poses, components, phase functions and draws", "why_tests_cant": "Engine comparison tests use unrotated nodes or isotropic emission, for which the frame does not matter.", "anchors": ["pvtrace/algorithm/photon_tracer.py: step_forward", "pvtrace/material/component.py: Scatterer.emit, Luminophore.emit", "pvtrace/engine/_kernel.pyx: sample_phase, trace_one"]}
{"id": "C79", "title": "The progress bar counts rays", "statement": "While a simulation runs, the CLI progress bar advances once per ray whose first message has arrived, and ends at the number of rays thrown.", "quantifier": "all interleavings of worker messages, all assignments of tasks to pool processes", "why_tests_cant": "Depends on operating-system scheduling of pool processes.", "anchors": ["pvtrace/cli/main.py: monitor_queue, simulate"]}
{"id": "C80", "title": "A coefficient sets the peak of a spectrum", "statement": "When a component gives both a spectrum and a coefficient, the absorption coefficient of the built component has the shape of the spectrum and its maximum is the coefficient.", "quantifier": "all spectra (values, sampling, integer or float files), all coefficients", "why_tests_cant": "Test spectra are float tables; the truncation of tables of integers depends on the data file.", "anchors": ["pvtrace/cli/parse.py: parse_absorber, parse_scatterer, parse_luminophore"]}
{"id": "C81", "title": "Structured edits keep a document loadable", "statement": "Adding nodes, components, recorders and face recorders, editing recorders, and deleting components and recorders through the studio never turns a document that loads into one that is rejected.", "quantifier": "all accepted documents, all edits, all node and recorder names", "why_tests_cant": "Needs every document and every name clash.", "anchors": ["pvtrace/studio/server.py: _patch"]}
{"id": "C82", "title": "Recorders in a document are tallied", "statement": "Every recorder of an accepted document is tallied by the compiled scene, exactly once; compilation refuses recorders only for a facet on a volume event or for more than 256 recorders.", "quantifier": "all accepted documents", "why_tests_cant": "The space of documents is unbounded.", "anchors": ["pvtrace/engine/compiler.py: _compile_recorders", "pvtrace/cli/parse.py: parse_recorders"]}
{"id": "C83", "title": "Editing one recorder changes only that recorder", "statement": "update-recorder changes event, facet or tolerance of the named recorder and nothing else in the scene; an automatic recorder is first copied into the document unchanged and the node's other automatic recorders stay.", "quantifier": "all accepted documents, recorders and changes", "why_tests_cant": "Depends on the merge of explicit and automatic recorders for every document.", "anchors": ["pvtrace/studio/server.py: _patch update-recorder, _recorder_to_spec", "pvtrace/cli/parse.py: parse_v_1_0, auto_recorders"]}
{"id": "C84", "title": "What enters a concentrator comes from a light", "statement": "In LSC.counts() 'Luminescent In' is zero on every face, and 'Solar In' of a face is the number of photons whose first event is on that face.", "quantifier": "all runs, all faces and sizes", "why_tests_cant": "Rests on which event of a history can come first.", "anchors": ["pvtrace/device/lsc.py: simulate, _make_counts"]}
{"id": "C85", "title": "Solar cells take every photon and the back mirror none", "statement": "On a face with a solar cell a photon is never reflected and passes undeviated, and does not come back; on a mirrored bottom it is always reflected specularly; all other faces follow Fresnel. Exactly the faces named in calls of add_solar_cell have a cell; top and bottom are refused.", "quantifier": "all faces, directions, draws and configurations", "why_tests_cant": "A simulation samples finitely many directions.", "anchors": ["pvtrace/device/lsc.py: OptionalMirrorAndSolarCell, add_solar_cell, add_back_surface_mirror"]}
{"id": "C86", "title": "simulate can be called again to add photons", "statement": "Calling LSC.simulate a second time appends the new photons to the earlier ones.", "quantifier": "all first and second runs", "why_tests_cant": "The tests call simulate once.", "anchors": ["pvtrace/device/lsc.py: simulate"]}
{"id": "C87", "title": "Reported efficiencies are fractions", "statement": "The optical efficiency, the waveguide efficiency and its thermodynamic prediction in LSC.summary() lie between 0 and 1.", "quantifier": "all runs and configurations", "why_tests_cant": "Depends on where photons are first seen in every possible history.", "anchors": ["pvtrace/device/lsc.py: summary, _make_counts"]}
{"id": "C88", "title": "Cylinders are drawn where they are traced", "statement": "The Meshcat cylinder drawn for a node covers exactly the points of the node's cylinder in world coordinates.", "quantifier": "all poses, lengths and radii", "why_tests_cant": "Drawing is not tested.", "anchors": ["pvtrace/scene/renderer.py: add_geometry"]}
{"id": "C89", "title": "Drawn paths follow the photon", "statement": "add_history draws one line per flight of the photon, from where it starts to where it ends; only the flight to the world is left out ('exclude') or drawn with short_length ('short').", "quantifier": "all histories, all sequences of calls", "why_tests_cant": "Drawing is not tested.", "anchors": ["pvtrace/scene/renderer.py: add_history"]}
{"id": "C90", "title": "The compiled tables hold the scene", "statement": "compile_scene refuses a scene exactly when some node cannot be represented; otherwise every node, component, spectrum, phase function, lifetime and name of the scene is found where the kernel looks it up, and a photon traced over the tables has the history it has in the scene.", "quantifier": "all scene trees, all components per node, all photons, draws and limits", "why_tests_cant": "Tests compile a few scenes; an offset mistake in the flat tables shows only for particular combinations of nodes, components and spectra.", "anchors": ["pvtrace/engine/compiler.py: CompiledScene.__init__, _compile_geometry, _surface_tag, _compile_component, _phase_tag, _compile_distribution", "pvtrace/engine/_kernel.pyx: trace_one"]}
{"id": "C91", "title": "Compiled nodes are rigidly placed", "statement": "Every node placed by translations and rotations is accepted, its table frame is the composition of the poses up to the root and world_to_local is its inverse; every node that is accepted keeps distances.", "quantifier": "all trees of poses, all affine poses", "why_tests_cant": "The accepted set of matrices is a continuum; tests try one scaled node.", "anchors": ["pvtrace/engine/compiler.py: _compile_transform", "pvtrace/scene/node.py: transformation_to"]}
{"id": "C92", "title": "Live figures of a run are those of its bundles so far", "statement": "While a simulation runs in the studio, each run sends 'started', then one report per finished bundle in order, then 'done'; the k-th report shows exactly the recorder results of the first k bundles taken together, counters never fall, and the last report of a completed run equals the result of one single simulate call.", "quantifier": "all interleavings of websocket commands, document changes and asyncio tasks; all scenes, bundles and thread schedules", "why_tests_cant": "Interleavings of coroutines cannot be enumerated by tests; the studio tests do not run the websocket under concurrency.", "anchors": ["pvtrace/studio/server.py: websocket, run, _recorder_payload", "pvtrace/engine/api.py: simulate_stream, EngineResult.recorders"]}
{"id": "C93", "title": "Stop stops the run", "statement": "After the stop command has been processed, no further report of the runs in progress is sent.", "quantifier": "all interleavings of commands and tasks", "why_tests_cant": "Needs a particular interleaving of stop, run and a bundle in flight.", "anchors": ["pvtrace/studio/server.py: websocket, run", "pvtrace/studio/static/app.js: startRun"]}
{"id": "C94", "title": "A run reports on one scene", "statement": "The recorders announced at the start of a run and the figures of all its reports belong to the same scene, even if the document is changed during the run.", "quantifier": "all interleavings of document changes and runs", "why_tests_cant": "Needs a document change in the short time between two awaits.", "anchors": ["pvtrace/studio/server.py: run"]}
{"id": "C95", "title": "Paths shown during a run are recorded histories", "statement": "The polylines sent to the viewport are the positions and wavelengths of recorded histories in order, rounded to 6 and 2 decimals; a run sends at most max_paths of them.", "quantifier": "all bundles, thread schedules and limits", "why_tests_cant": "Depends on the slot arithmetic of the log for every ray number, event count and limit.", "anchors": ["pvtrace/studio/server.py: _extract_paths"]}
{"id": "C96", "title": "Distribution commands print the samples of the selected rays", "statement": "pvtrace-cli time and spectrum print, for every query, filter and output format, exactly the distinct (ray, value) pairs of the matching events: as table or object, or as a ten-bin histogram in which every value lies within the edges of the bin it is counted in.", "quantifier": "all databases, nodes, filters, queries and output formats", "why_tests_cant": "The commands are only tried by hand; whether they fail depends on the query and on rays that match twice.", "anchors": ["pvtrace/cli/time.py: handle_output, reflected, entering, escaping, lost, reacted, killed", "pvtrace/cli/spectrum.py: handle_output"]}
{"id": "C97", "title": "Bundled dyes give usable spectra on every grid", "statement": "On every wavelength grid the bundled absorption spectra are positive with peak exactly 1, the emission spectra give distributions that can be sampled at every draw, and the documented peak of 1 holds for the emission spectra; a dye named in a document is tabulated on an increasing grid that covers the requested range. Both dyes absorb in a band in the green and yellow and hardly in the red, and Lumogen emits around 600 nm.", "quantifier": "all grids of two or more points, all ranges and spacings", "why_tests_cant": "Grids are user input: tests tabulate the dyes on one or two grids, while normalisation and coverage depend on where the points fall.", "anchors": ["pvtrace/data/lumogen_f_red_305.py: absorption, emission", "pvtrace/data/fluro_red.py: absorption, emission", "pvtrace/cli/parse.py: load_named_spectrum"]}
{"id": "C98", "title": "Moving a node in the viewport puts it where it was dropped", "statement": "Every node other than the world can be moved; afterwards the document still gives the same nodes, materials and recorders, the node lies within rounding of the place it was dropped at, its descendants have moved with it as one body, and no other node has moved.", "quantifier": "all documents (as data; the numbers in the text are C144), nodes, parents, rotations and target positions", "why_tests_cant": "The result depends on the placement of all ancestors in the node tree; tests move one node of one scene.", "anchors": ["pvtrace/studio/server.py: _patch (move)", "pvtrace/cli/parse.py: parse"]}
{"id": "C99", "title": "Nodes sit where the document says", "statement": "A node with a location has its origin there in the frame of its parent, and a node with a direction looks along that direction.", "quantifier": "all documents, locations and directions", "why_tests_cant": "look_at goes through a quaternion built from an eigenvector; special directions are hit only by exhaustive reasoning.", "anchors": ["pvtrace/cli/parse.py: parse", "pvtrace/scene/node.py: look_at"]}
{"id": "C100", "title": "The studio only writes the files it is asked to write", "statement": "Uploads, saving and previewing write only the uploaded file or the document in the directory of the document and leave no temporary files behind; an uploaded file has the uploaded contents; the document changes only when it is saved.", "quantifier": "all documents, file names and contents, all sequences of requests", "why_tests_cant": "File names are user input; tests cannot try every name, and what goes wrong is the destruction of a user's file.", "anchors": ["pvtrace/studio/server.py: upload_file, save_document, Studio.apply"]}
{"id": "C101", "title": "The bin readout shows the bin under the mouse", "statement": "When the mouse is over a heatmap or a bar chart, the readout shows an existing bin, namely the one that is drawn under the mouse.", "quantifier": "all canvas sizes, numbers of bins and mouse positions", "why_tests_cant": "Drawing and readout compute the position separately; the page has no tests at all.", "anchors": ["pvtrace/studio/static/app.js: inspectBin, drawBars, drawHeatmapInto"]}
{"id": "C102", "title": "Heatmap colours are comparable", "statement": "All heatmaps share one scale that covers all counts; colours are valid, a bin with more rays never has a less bright colour on any heatmap, and a bin that was hit looks different from an empty one.", "quantifier": "all runs, counts, maxima and scale settings", "why_tests_cant": "The colour is a composition of a logarithm, clamping and table interpolation; its order over all counts cannot be sampled.", "anchors": ["pvtrace/studio/static/app.js: viridis, heatmapT, refreshHeatmaps"]}
{"id": "C103", "title": "The page shows wavelengths in the colours of the Python viewer", "statement": "The page uses the same colours for wavelengths as pvtrace.light.utils.wavelength_to_rgb, and every ray is visible on it.", "quantifier": "all wavelengths", "why_tests_cant": "Two implementations in two languages; no test runs the JavaScript one.", "anchors": ["pvtrace/studio/static/app.js: wavelengthToColor", "pvtrace/light/utils.py: wavelength_to_rgb"]}
{"id": "C104", "title": "Heatmap overlays show rays where they crossed the face", "statement": "The heatmap drawn on a face of a box shows every ray in the bin drawn at the point where it crossed, and lies along the face.", "quantifier": "all boxes, faces, heatmaps and crossing points", "why_tests_cant": "Joins the binning of the kernel with texture coordinates and flips of axes in the page; no test spans both.", "anchors": ["pvtrace/studio/static/app.js: buildRecorderOverlay, drawHeatmapInto", "pvtrace/engine/tally.py: _bin_index", "pvtrace/cli/parse.py: auto_recorders"]}
{"id": "C105", "title": "Face recorders watch the face they are named after", "statement": "Of the six face recorders of a box, a ray that escapes is counted by exactly the one of the face through which it left, and the position heatmap of that recorder shows where.", "quantifier": "all boxes, positions and rotations of boxes, all rays", "why_tests_cant": "The kernel compares facets with the normal in the world while names and heatmap axes are those of the node; tests only use unrotated boxes.", "anchors": ["pvtrace/cli/parse.py: auto_recorders", "pvtrace/studio/server.py: _patch (add-face-recorders)", "pvtrace/engine/_kernel.pyx: tally, local_normal", "pvtrace/engine/tally.py: tally_histories"]}
{"id": "C106", "title": "Both engines emit the same rays from lights", "statement": "For the same random draws the compiled engine's bundle of rays holds, ray by ray, the rays that Scene.emit yields: same light, wavelength, position, direction and source.", "quantifier": "all scenes with any lights, all draws, all numbers of rays", "why_tests_cant": "The bundle is built by vectorised code with its own formulas and its own order of draws; a test can compare a few statistics only.", "anchors": ["pvtrace/engine/emit.py: emit_bundle, _sample_wavelengths, _sample_positions, _sample_directions", "pvtrace/light/light.py: Light.emit", "pvtrace/scene/scene.py: Scene.emit"]}
{"id": "C107", "title": "Rays leave a light inside its aperture and cone", "statement": "Every ray of a light starts inside the light's position mask, as placed and turned by its node, has a unit direction within the light's divergence around the direction the node faces, a wavelength of the light's spectrum, and names the light as its source.", "quantifier": "all lights with the built-in delegates, all placements of the node, all draws, both engines", "why_tests_cant": "Random positions and directions; a draw outside the mask can be rare.", "anchors": ["pvtrace/light/light.py: Light.emit", "pvtrace/engine/emit.py: emit_bundle", "pvtrace/scene/scene.py: Scene.emit"]}
{"id": "C108", "title": "Light masks fill the aperture and cone asked for", "statement": "Every direction inside the cone (hemisphere, sphere) and every position inside the mask asked for can be emitted, and a mask has the size that is documented.", "quantifier": "all half-angles, radii, directions and positions", "why_tests_cant": "Existence of a draw for each of a continuum of directions cannot be tested.", "anchors": ["pvtrace/material/utils.py: cone, isotropic, lambertian", "pvtrace/light/light.py: circular_mask, rectangular_mask, Light", "pvtrace/engine/emit.py: _sample_directions"]}
{"id": "C109", "title": "Lights in documents emit what is written", "statement": "A light that the schema accepts can be used, and its rays have the wavelength, aperture and half-angle (in degrees) written in the document, where a wavelength mask takes precedence over the wavelength.", "quantifier": "all documents' lights, all draws, both engines", "why_tests_cant": "Unlimited combinations of masks; the schema and the parser are separate descriptions of the format.", "anchors": ["pvtrace/cli/parse.py: parse_v_1_0 (parse_light)", "pvtrace/cli/pvtrace-schema-scene-spec.json"]}
{"id": "C110", "title": "The compiled kernel reads and writes only inside its arrays", "statement": "For every scene that the compiler accepts, every set of recorders, every number of rays, workers, recorded events and steps: while a ray is traced, each index that the compiled kernel uses into a table, a fixed-size work array, a tally or the event log is at least zero and less than the length of that array, whatever the floating-point comparisons and conversions give.", "quantifier": "all scenes, recorders, call arguments, threads, rays and all outcomes of comparisons of doubles and of casts to int (also nan and overflow)", "why_tests_cant": "The kernel is compiled with bounds checks off, so a wrong index corrupts memory silently; which indices are used depends on hit counts, recorder tables, spectra lengths and thread numbers that tests sample a handful of.", "anchors": ["pvtrace/engine/_kernel.pyx:1-20", "pvtrace/engine/_kernel.pyx:219-238", "pvtrace/engine/_kernel.pyx:245-400", "pvtrace/engine/_kernel.pyx:501-597", "pvtrace/engine/_kernel.pyx:603-897", "pvtrace/engine/_kernel.pyx:899-1096", "pvtrace/engine/compiler.py:60-204"]}
{"id": "C111", "title": "Worker threads of the compiled engine never write to the same memory", "statement": "When two rays are traced at the same time by different workers, neither writes to a cell of a table, tally or event log that the other reads or writes: each worker has its own row of tallies and each recorded ray its own rows of the log.", "quantifier": "all scenes, recorders, call arguments with at least one worker, pairs of distinct threads and distinct rays, and all outcomes of floating-point comparisons", "why_tests_cant": "Data races appear only under particular schedules; a test that passes many times says little about others.", "anchors": ["pvtrace/engine/_kernel.pyx:501-597", "pvtrace/engine/_kernel.pyx:1012-1096"]}
{"id": "C112", "title": "Components that can be constructed can be used", "statement": "If the constructor of a component (Absorber, Scatterer, Luminophore, Reactor) accepts its coefficient, then coefficient(wavelength) returns a number that is not negative at every wavelength of its range.", "quantifier": "for all coefficients given as None, an integer, a float, an array or a list (of functions or numbers), all wavelength grids, hist or not", "why_tests_cant": "Tests pass floats and one or two arrays; an integer is accepted by every constructor test that only constructs, and whether all accepted arguments can be used needs reasoning over all argument kinds and all spectra.", "anchors": ["pvtrace/material/component.py:104-119", "pvtrace/material/component.py:137-141", "pvtrace/material/distribution.py:35-66"]}
{"id": "C113", "title": "Spectra given as functions are tabulated as their sum", "statement": "A component built from a list of functions and wavelengths x has, at each of those wavelengths, a coefficient equal to the sum of the values of the functions, a value that is not finite counting as 0. The forms in the docstrings work: lists of numbers y with x=x, and a Luminophore without emission gets a Gaussian centred at 600 nm, which can be sampled at every draw. bandgap is alpha below the cut-off, half of it at the cut-off and 0 above.", "quantifier": "for all lists of functions and numbers, all wavelength grids, hist or not", "why_tests_cant": "Tests build a spectrum from one or two line shapes; the sum at each knot for every list of functions, including those that overflow, and the documented forms for all data are universal statements.", "anchors": ["pvtrace/material/distribution.py:183-193", "pvtrace/material/component.py:75-119", "pvtrace/material/component.py:355-378", "pvtrace/material/utils.py:51-56"]}
{"id": "C114", "title": "Spectra with a value that is not finite are refused", "statement": "Distribution raises ValueError if any element of y is not finite or is negative (the documented errors of the components), and only then, for increasing x.", "quantifier": "for all increasing x and all arrays y of floats with nan and both infinities", "why_tests_cant": "The test that passes a spectrum of nan only sees arrays where no element is finite; that a single nan is refused as well is a statement about all arrays.", "anchors": ["pvtrace/material/distribution.py:35-42", "pvtrace/material/component.py:95-101"]}
{"id": "C115", "title": "Thermodynamic emission is Planck's law times absorption with peak 1", "statement": "convert_spectrum turns nm into eV (1239.8 / x) and back. thermodynamic_emission gives values on the wavelengths of the absorption, proportional to absorption * E^2 / (exp((E - mu)/kT) - 1), between 0 and 1, with peak 1, and zero exactly where the absorption is zero.", "quantifier": "for all absorption spectra, temperatures T > 0 and chemical potentials mu", "why_tests_cant": "A plot for one spectrum shows one curve; the shape, normalisation and sign for every spectrum, T and mu cannot be sampled, and the sign fails only for photon energies below mu.", "anchors": ["pvtrace/material/utils.py:59-87"]}
{"id": "C116", "title": "Directions and positions follow the advertised distributions", "statement": "Isotropic emission is uniform over the sphere; Henyey-Greenstein scattering has the Henyey-Greenstein density with mean cosine g; cone and Lambertian sampling follow the cosine law inside the cone or hemisphere; the azimuth is uniform and independent of the polar angle; circular masks are uniform in area, rectangles and cubes uniform in each coordinate. This holds in the Python tracer, the compiled kernel and the bundle emitter.", "quantifier": "for all draws, all caps and sectors of the sphere, all asymmetries with 0 < |g| < 1 (tiny ones fall back to isotropic, whose density differs by at most 2|g|), all cone angles up to 90 degrees, all apertures", "why_tests_cant": "A statistical test with a finite sample can only reject gross errors in a density and is run for a few parameters; the exact law for every parameter and every cap is an identity between integrals.", "anchors": ["pvtrace/material/utils.py:104-186", "pvtrace/engine/_kernel.pyx:449-476", "pvtrace/engine/emit.py:62-89", "pvtrace/light/light.py:60-77"]}
{"id": "C117", "title": "Angle and spectrum plots of the studio draw what was counted", "statement": "The half-polar plot of an angle histogram is symmetric, lies inside its frame, touches the frame at the bin with most counts per solid angle, and an isotropic distribution reads as a circular arc; the bars of a 1-D histogram have heights in proportion to the counts, stand on the base line, stay inside the canvas and do not overlap. Refuted for the arc with the angle bins automatic recorders get (the bin at normal incidence is drawn inside the arc because the sine is clamped at 0.05); proved for bins whose middle is at least arcsin 0.05 from the poles, with the drawn radius for the others.", "quantifier": "all canvas sizes, bin edges and non-negative counts; all equal bins and rates for the isotropic case", "why_tests_cant": "A unit test compares pixels of one drawing; the claim is about every histogram, and the failing bin is a small notch in the middle of the plot.", "anchors": ["pvtrace/studio/static/app.js:973-1027", "pvtrace/cli/parse.py:470-485"]}
{"id": "C118", "title": "The ray paths shown are those of the current run", "statement": "After any sequence of messages the page shows, of the paths received since the last 'started', those with at least two points, the first 400 in order of arrival, each as a line through the points of the path with every point in the colour of the wavelength the ray has there; nothing of an earlier run remains.", "quantifier": "all sequences of messages, all paths", "why_tests_cant": "The cap, the short paths and the reset interact over a whole session of runs.", "anchors": ["pvtrace/studio/static/app.js:928-956", "pvtrace/studio/static/app.js:1270-1295", "pvtrace/studio/server.py:545-575"]}
{"id": "C119", "title": "Editing one number of a field leaves the others alone", "statement": "Editing one component of a vector in the inspector sets that component to what was typed and leaves the others as they were. Refuted: the others are re-committed from their displayed text, rounded to six decimals, so a component of 1e-7 becomes 0; proved: the edited one is what was typed (0 for no number), the others move by at most 5e-7, and not at all if they are multiples of a millionth.", "quantifier": "all vectors, edited components and typed texts", "why_tests_cant": "The loss is invisible on the screen, and only for components with more than six decimals.", "anchors": ["pvtrace/studio/static/app.js:558-577"]}
{"id": "C120", "title": "The inspector always shows an existing item", "statement": "After any sequence of scene updates, segment changes, list choices and clicks in the view, the selected name is an item of the active segment (none exactly if there are none); a choice is kept until another is made or the item disappears; clicking the background clears the selection; two clicks on a recorder's face select its node, then the recorder. Refuted: clicking the background selects the first item; if another node lies behind the clicked face, that node is selected however often the face is clicked. Proved: what the background click does, and the two clicks when the owner (or nothing) lies behind the face.", "quantifier": "all scenes, all sequences of events", "why_tests_cant": "It is an invariant of an event-driven state machine over arbitrary histories.", "anchors": ["pvtrace/studio/static/app.js:347-373", "pvtrace/studio/static/app.js:410-470", "pvtrace/studio/static/app.js:512-528"]}
{"id": "C121", "title": "Overlay layers show what they are set to show", "statement": "After any sequence of scene updates, event choices, isolations and switches, a recorder's overlay is shown exactly when its own switch was not last set to off, its event is the chosen one (or all), and its node is the isolated one (if any); isolation only ever names a node of the scene. Refuted: a node stays isolated after it was deleted or renamed, and every overlay of the scene is hidden; proved at the time of isolating, and that a text naming no node isolates nothing.", "quantifier": "all sequences of events, all scenes", "why_tests_cant": "The failing case needs an edit of the document between two uses of a filter.", "anchors": ["pvtrace/studio/static/app.js:314-345", "pvtrace/studio/static/app.js:844-852"]}
{"id": "C122", "title": "Quaternions represent rotations and compose like them", "statement": "quaternion_matrix of any quaternion is a rotation (orthogonal, determinant 1) and does not depend on its length or sign; the product of quaternions is the composition of the rotations, the conjugate the opposite rotation, the inverse a two-sided inverse; quaternion_about_axis is a unit quaternion and gives the same matrix as rotation_matrix. (Squared lengths of at least EPS = 8.9e-16; shorter ones count as the identity.)", "quantifier": "for all quaternions, angles, axes longer than EPS and points", "why_tests_cant": "Doctests check a handful of numbers; that a rotation results for every quaternion, also unnormalised ones, is an algebraic identity.", "anchors": ["pvtrace/geometry/transformations.py:1250-1293", "pvtrace/geometry/transformations.py:1381-1427"]}
{"id": "C123", "title": "A rotation matrix becomes a quaternion and back", "statement": "quaternion_from_matrix of a rotation matrix is a unit quaternion with w >= 0 whose matrix is the given one, with isprecise on or off. Refuted for isprecise=True: if the trace is not positive the indices are off by one, so half a turn about x raises an exception and half a turn about z gives another rotation; proved for positive traces, and for isprecise=False for every rotation, given an eigenvector of the largest eigenvalue (which is shown to exist).", "quantifier": "for all rotation matrices (and translations, and contents of uninitialised memory)", "why_tests_cant": "The doctests of the precise branch use small rotations; the wrong branch needs an angle of at least 120 degrees and runs without an error for most.", "anchors": ["pvtrace/geometry/transformations.py:1296-1378"]}
{"id": "C124", "title": "Euler angles mean the rotations their axis names say", "statement": "For each of the 24 axis sequences euler_matrix is the product of the three rotations about the coordinate axes named, fixed ('s') or turning ('r'); quaternion_from_euler is the product of the three quaternions and gives the same matrix; euler_from_matrix gives angles that rebuild the matrix, also at gimbal lock (closer to it than EPS, but not at it, is a matter of rounding and left out).", "quantifier": "for all angles, all 24 sequences, all rotation matrices exactly at gimbal lock or further than EPS from it", "why_tests_cant": "24 sequences, two branches each, over continuous angles; gimbal lock has measure zero and is not hit by random tests.", "anchors": ["pvtrace/geometry/transformations.py:1061-1247", "pvtrace/geometry/transformations.py:1690-1723"]}
{"id": "C125", "title": "Interpolated, random and aligning rotations are rotations of the right angle", "statement": "quaternion_slerp succeeds for quaternions that are not zero and gives a unit quaternion in their plane that starts at the first, ends at the second and turns at a constant rate, the short way round if asked; random_quaternion is a unit quaternion; rotating by angle_between_vectors about vector_product takes the first vector into the direction of the second. Refuted for odd spin, where the interpolated quaternion has squared length 3; proved for even spin.", "quantifier": "for all quaternions, fractions and spins; all draws in [0, 1]; all pairs of vectors that are not parallel", "why_tests_cant": "Tests evaluate three fractions of one pair; unit length at all fractions and spins is a trigonometric identity.", "anchors": ["pvtrace/geometry/transformations.py:1450-1532", "pvtrace/geometry/transformations.py:1824-1873"]}
{"id": "C126", "title": "Mirrors, scalings, projections, viewing volumes, shears and crystal cells do what they are named for", "statement": "reflection_matrix maps a point to its mirror image in the plane (and is its own inverse, fixing the plane); scale_matrix scales distances from the origin, or along one direction only; projection_matrix puts points on the plane along the normal, along the direction or on the line to the eye, and orthogonal after pseudo-perspective projection is the perspective one, with depth ordered as before; clip_matrix maps exactly the box or frustum to the cube from -1 to 1; shear_matrix moves points along the direction by the tangent of the angle times the height over the plane, keeping volumes; the columns of orthogonalization_matrix have the given lengths and angles.", "quantifier": "for all planes, points, directions, eyes, bounds, angles and cells", "why_tests_cant": "Doctests use random or fixed points with a tolerance; these are identities for every point.", "anchors": ["pvtrace/geometry/transformations.py:248-271", "pvtrace/geometry/transformations.py:392-423", "pvtrace/geometry/transformations.py:467-524", "pvtrace/geometry/transformations.py:599-683", "pvtrace/geometry/transformations.py:870-897"]}
{"id": "C127", "title": "A transformation taken apart can be put together again", "statement": "decompose_matrix succeeds for every matrix whose linear part is not singular and whose corner is not near zero, and compose_matrix of its scale, shear, angles, translation and perspective is the matrix divided by its corner. Refuted for a perspective row that is not zero but below EPS, which is dropped; proved if it is zero or has an entry above EPS.", "quantifier": "for all 4x4 matrices", "why_tests_cant": "The round trip involves Gram-Schmidt, a sign flip, and two branches of Euler angles, one of which random matrices never reach.", "anchors": ["pvtrace/geometry/transformations.py:731-867"]}
{"id": "C128", "title": "The generator of a ray does not repeat within 2^256 - 1 draws", "statement": "The random generator of the compiled engine (xoshiro256+), seeded for any seed and ray, returns to an earlier state only after a multiple of 2^256 - 1 draws. Over that period it passes through every state but zero, so every 64-bit value is drawn equally often (the value 0 one time less): whatever the other three words of the state, exactly one position of the cycle draws a given value.", "quantifier": "all seeds, rays and numbers of draws", "why_tests_cant": "A period of 2^256 - 1 cannot be observed by running; a wrong shift or rotation gives a shorter cycle that no statistical test of usual length detects.", "anchors": ["pvtrace/engine/_kernel.pyx:72-113 splitmix64, rng_seed, rng_next, rng_uniform"]}
{"id": "C129", "title": "Inside and surface of a cylinder", "statement": "Cylinder.contains is true exactly for the points strictly inside. Cylinder.is_on_surface is true only for points within the tolerance of the closed surface and for every point of it, and no point is both contained and on the surface.", "quantifier": "all lengths, radii and points", "why_tests_cant": "Over a continuum with tolerances; rims and the shell below the surface are never sampled.", "anchors": ["pvtrace/geometry/cylinder.py: contains, is_on_surface", "pvtrace/geometry/utils.py: ray_z_cylinder, close_to_zero"]}
{"id": "C130", "title": "Integer arithmetic of the kernel does not overflow", "statement": "The C kernel computes array positions with int and long variables. For every scene, recorder set, number of workers and rays, each position it computes is the exact one: no signed overflow occurs on the way.", "quantifier": "all scenes with built spectra, recorders, calls, rays, threads and outcomes of comparisons", "why_tests_cant": "Overflow needs many threads and huge tallies or logs; a test with small tables can never see it, and signed overflow is undefined behaviour, so a passing run proves nothing.", "anchors": ["pvtrace/engine/_kernel.pyx:501-556", "pvtrace/engine/_kernel.pyx:562-597", "pvtrace/engine/_kernel.pyx:219-238", "pvtrace/engine/_kernel.pyx:1075-1096"]}
{"id": "C131", "title": "The LSC device simulates the scene it was configured with", "statement": "The scene of an LSC has exactly the luminophores, absorbers and lights that were added, with the poses asked for; the plate, and the mirror below it separated by an air gap, lie inside the world; with nothing added the defaults are Lumogen F Red with a background absorption and a lamp above the plate shining on it. What is listed is what is simulated, for every argument and order of calls.", "quantifier": "all sizes, refractive indices, wavelength ranges and sequences of calls", "why_tests_cant": "Depends on the sequence of calls (additions after a run, failed runs, argument combinations); the suite builds one or two fixed devices.", "anchors": ["pvtrace/device/lsc.py:95-340"]}
{"id": "C132", "title": "A document finds the data files it names", "statement": "A relative file name in a document means a file relative to the directory of the document, on the command line and in the studio, whatever the current directory; a data file uploaded to the studio is found under its announced name; a spectrum file gives exactly its x and y columns.", "quantifier": "all current directories, document paths, file names, uploads and tables", "why_tests_cant": "Tests use one document in one directory; the meaning depends on the combination of three paths.", "anchors": ["pvtrace/cli/parse.py:72-80", "pvtrace/cli/parse.py:130-138", "pvtrace/cli/parse.py:228-243", "pvtrace/studio/server.py:52-68", "pvtrace/studio/server.py:161-174"]}
{"id": "C133", "title": "The viewport shows the scene that is traced", "statement": "For every scene that compiles and whose nodes are placed by rotations, reflections and translations, the viewport draws one solid per node with a geometry, under the node's name, and it covers exactly the points that the node occupies in world coordinates; only the root is drawn as the world. A light's marker and arrow start at the light and point along the light's z axis.", "quantifier": "all scenes the compiler accepts with rigid node poses, all points; all poses of lights", "why_tests_cant": "The page takes the 16 numbers of a matrix apart into position, quaternion and scale by a case distinction over rotations; tests can draw a few poses but not cover all rotations (half turns and reflections take other branches).", "anchors": ["pvtrace/studio/server.py:76-101", "pvtrace/studio/static/app.js:144-152", "pvtrace/studio/static/app.js:228-287", "pvtrace/engine/compiler.py:208-233"]}
{"id": "C134", "title": "A drag leaves the node where the viewport shows it", "statement": "When a drag of the gizmo ends, the last position posted to the server is the one the node is shown at; without real-time mode there is at most one post per drag.", "quantifier": "all drags: all sequences of gizmo events, positions and clock readings, real-time mode on or off", "why_tests_cant": "The posted positions depend on the clock, on the checkbox and on the path of the mouse.", "anchors": ["pvtrace/studio/static/app.js:90-128"]}
{"id": "C135", "title": "Editor, viewport and traced scene agree when the studio is idle", "statement": "Whenever no request is under way and no timer is running, the viewport shows the scene that a run would trace, which is the scene of the document; if the status says 'scene ok' the document is the text in the editor, if it says 'saved' the file holds it; text that was typed is not lost.", "quantifier": "all documents, all sequences of typing, apply, save, structured edits, drags, timer events, handling of requests and arrival of replies", "why_tests_cant": "The outcome depends on the order in which requests are handled and replies arrive, and on the 0.7 s timer; tests exercise one order.", "anchors": ["pvtrace/studio/static/app.js:109-127", "pvtrace/studio/static/app.js:1131-1256", "pvtrace/studio/server.py:45-74", "pvtrace/studio/server.py:138-196"]}
{"id": "C136", "title": "The Python viewer shows the objects of the scene in their places", "statement": "After MeshcatRenderer.render(scene) the viewer shows every object of the scene below the root once, covering exactly the points that are traced, and nothing else. (True if all nodes are named, siblings have different names, names contain neither '|' nor '/', and all geometries are of a known class; also when nodes with the same names were drawn before. False for siblings with equal names, names with '/', unnamed nodes, show_root=True and nodes removed since the last drawing.)", "quantifier": "For all trees of nodes, poses, geometries and names, and all earlier pictures of nodes with the same names.", "why_tests_cant": "The test draws one sphere and looks at nothing; which objects overwrite each other depends on all names in the tree.", "anchors": ["pvtrace/scene/renderer.py:50-105", "pvtrace/scene/node.py:20-34", "pvtrace/scene/node.py:73-95"]}
{"id": "C137", "title": "Tallies from histories tell nodes apart", "statement": "A recorder on a node counts the rays of that node only, also when histories are tallied in Python from the node names they contain. (True if no two nodes of the scene have the same name, which nothing enforces for scenes built in Python; false otherwise: a ray entering one node is counted for its namesake as well, unlike in the compiled engine.)", "quantifier": "For all scenes, names, recorders and histories.", "why_tests_cant": "Tests use scenes with one recorded node or different names; the claim is about every assignment of names.", "anchors": ["pvtrace/engine/tally.py:26-46", "pvtrace/engine/tally.py:111-147", "pvtrace/algorithm/photon_tracer.py:166-270", "pvtrace/scene/node.py:20-34"]}
{"id": "C138", "title": "The compiled engine follows a scene as the Python tracer does, from the tree of nodes to the event log", "statement": "Take any scene of library objects: nodes placed by rigid poses below a root, boxes, spheres and cylinders of positive size, Fresnel or plain surfaces, absorbers, reactors, luminophores and scatterers with library spectra and phase functions. If engine/compiler.py accepts it, then tracing a ray over the tables it makes gives, event by event, the history the Python tracer gives in the scene for the same random numbers: the same kinds of events, positions, directions, wavelengths, path lengths, durations, nodes, components and normals. This holds while no ray of the history grazes a surface, re-emitting nodes are not turned (see C78), the scene has at most 128 geometries, and trimesh finds the true crossings of boxes.", "quantifier": "For all scene trees, rays, sequences of random numbers, step limits and emission methods.", "why_tests_cant": "Tests compare the two engines statistically on a few scenes; the claim is equality of every single history in every scene.", "anchors": ["pvtrace/engine/compiler.py:57-326", "pvtrace/engine/_kernel.pyx:603-897", "pvtrace/algorithm/photon_tracer.py:26-300", "pvtrace/scene/scene.py:153-195", "pvtrace/scene/node.py:73-174", "pvtrace/material/surface.py:79-177"]}
{"id": "C139", "title": "A mesh stands with its centre of mass at the origin of its node", "statement": "When a closed triangle mesh with non-zero volume is wrapped in a Mesh geometry, its centre of mass lies at the origin of the node, whatever coordinates its file uses. Its edges and normals are those of the file. Wrapping the same mesh object again does not move it.", "quantifier": "For all closed meshes of any number of faces with non-zero volume, and all offsets in the file.", "why_tests_cant": "Tests wrap a sphere that is already centred. The claim is about the volume integral of any closed surface.", "anchors": ["pvtrace/geometry/mesh.py:15-19", "pvtrace/cli/parse.py:129-138"]}
{"id": "C140", "title": "Parts of one assembly keep their places", "statement": "Two meshes exported from one drawing, loaded as two nodes without locations, stand to each other as in the drawing.", "quantifier": "For all pairs of closed meshes with non-zero volume.", "why_tests_cant": "It is a claim about all meshes; no test loads two parts.", "anchors": ["pvtrace/geometry/mesh.py:15-19", "pvtrace/cli/parse.py:129-138"]}
{"id": "C141", "title": "Ray hits, normals and the entering test of a mesh fit together", "statement": "With exact queries from trimesh, the intersections of a ray with a mesh are all places ahead where it crosses a face, each once, the nearest first. A normal is given exactly where the surface is nearer than EPS_ZERO and is the unit normal of a face that near; every hit has one. On a convex mesh, away from the edges between sides, is_entering is true exactly when the ray runs on into the solid.", "quantifier": "For all meshes without degenerate faces, all rays and all points; the last part for convex meshes.", "why_tests_cant": "Tests probe one sphere with a few rays along the axes.", "anchors": ["pvtrace/geometry/mesh.py:34-94"]}
{"id": "C142", "title": "A box made of triangles is the box", "statement": "Box builds twelve triangles. Their surface is the surface of the box of the given size centred on its node, not moved by the wrapper. A ray cast at the triangles is given exactly the places ahead where it passes into or out of the box, nearest first and each once, even on an edge shared by two triangles. So a scene of boxes, spheres and cylinders has equal histories in the Python tracer and in the compiled engine, without assuming more of trimesh than exact ray-triangle hits.", "quantifier": "For all box sizes, positions and directions; for the histories all scenes as in C138.", "why_tests_cant": "Tests try a few boxes and rays; the claim covers every ray, including those that meet edges.", "anchors": ["pvtrace/geometry/box.py:22-44", "pvtrace/geometry/mesh.py:44-61", "pvtrace/engine/_kernel.pyx:245-300"]}
{"id": "C143", "title": "Histories drawn while a simulation runs", "statement": "With --zmq, pvtrace-cli simulate draws the whole history of the first ray of each worker process and of every n-th ray thrown (--render-every n), each at most once, and draws no other.", "quantifier": "For all ray numbers, worker numbers and orders in which the workers' messages arrive, with and without --end-rays.", "why_tests_cant": "The order of arrival of messages from several processes is not under a test's control.", "anchors": ["pvtrace/cli/main.py:111-152", "pvtrace/scene/scene.py:60-88"]}
{"id": "C144", "title": "A number entered in the studio is the number of the scene", "statement": "A number typed in a field of the inspector, or written when a node is dropped in the viewport, is read back from the document as the same number, and the scene uses it.", "quantifier": "For all numbers (doubles), whole or not, of any size.", "why_tests_cant": "The number passes through four textual formats (JSON from JavaScript, Python's repr, ruamel.yaml, PyYAML) that change notation with size and number of digits; tests try a few ordinary values.", "anchors": ["pvtrace/studio/static/app.js:1190-1200", "pvtrace/studio/server.py:304-359", "pvtrace/cli/parse.py:65-69", "pvtrace/cli/parse.py:245-267"]}
{"id": "C145", "title": "A field of the inspector shows and changes what it names", "statement": "Every field in the studio's forms for nodes and components shows the value the scene uses; editing it changes that value in the scene and nothing else.", "quantifier": "For all documents that the schema accepts, all nodes and components, all fields and all values.", "why_tests_cant": "The server edits the loaded document by a path built in the page, and the parser reads it by its own rules (order of kinds, defaults, masks, aliases); tests edit single fields of plain documents.", "anchors": ["pvtrace/studio/static/app.js:664-796", "pvtrace/studio/server.py:329-343", "pvtrace/cli/parse.py:91-211", "pvtrace/cli/parse.py:387-466"]}
{"id": "C146", "title": "A recorder shows the same figures whichever engine traced the rays", "statement": "For a scene of nodes, the rays counted, the crossings, the histograms and the sums of every recorder in the compiled engine equal those that tally_histories computes from the histories of the Python tracer for the same rays and random numbers.", "quantifier": "For all trees of nodes that the compiler accepts, all recorders, all rays and random numbers for which the Python tracer raises no exception and meets no tie, and all orders in which the threads of the engine write.", "why_tests_cant": "Tests compare the engines statistically on a few scenes, with different random numbers.", "anchors": ["pvtrace/engine/tally.py:86-156", "pvtrace/engine/_kernel.pyx:501-900", "pvtrace/algorithm/photon_tracer.py:112-275", "pvtrace/engine/compiler.py:1-331"]}
{"id": "C147", "title": "The figures shown beside a recorder are those of the scene shown", "statement": "The line of counts and the plots that the studio's inspector shows for the selected recorder come from the newest report about that recorder in the scene shown.", "quantifier": "For all sequences of messages, edits, selections, runs and stops.", "why_tests_cant": "The page keeps parts of several reports and updates them at different events; tests look at one run of one scene.", "anchors": ["pvtrace/studio/static/app.js:355-373", "pvtrace/studio/static/app.js:512-545", "pvtrace/studio/static/app.js:865-927", "pvtrace/studio/static/app.js:1056-1080"]}
{"id": "C148", "title": "A photon that the spectra cover is traced to an end", "statement": "If a scene inside a spherical world is built of boxes, spheres and cylinders and its spectra cover the wavelengths from lo to hi, a photon between lo and hi is traced to EXIT, KILL, NONRADIATIVE or REACT and no exception escapes from the tracer.", "quantifier": "For all trees of nodes, poses, components, draws and photons whose rays do not graze a surface or meet an edge, for both engines and the three emission methods.", "why_tests_cant": "The exceptions come from a container that is not found, a normal that does not exist, a lookup outside a table, a component that is not found or a critical angle; a test follows a few photons and these meet few of them.", "anchors": ["pvtrace/algorithm/photon_tracer.py:26-273", "pvtrace/material/component.py:380-438", "pvtrace/material/distribution.py:59-181", "pvtrace/material/surface.py:79-177", "pvtrace/geometry/box.py:22-44"]}
{"id": "C149", "title": "pvtrace-cli count prints what the compiled engine's recorders show", "statement": "For the same scene, rays and random numbers, the number printed by a pvtrace-cli count command for the database of a simulation equals the rays of the compiled engine's recorder with the corresponding event, node and facet, whatever the interleaving of the worker processes and with or without --end-rays.", "quantifier": "For all trees of nodes that the compiler accepts, recorders, rays and random numbers for which the Python tracer raises no exception and meets no tie, divisions of the rays between processes and interleavings of their messages, and all six queries.", "why_tests_cant": "Tests compare neither the engines nor the command line with the recorders on the same random numbers, and cannot choose the interleaving.", "anchors": ["pvtrace/cli/count.py:17-206", "pvtrace/cli/db.py: _boundary_query, _volume_query", "pvtrace/cli/main.py:85-161", "pvtrace/engine/_kernel.pyx:501-900", "pvtrace/engine/compiler.py:1-331"]}
{"id": "C150", "title": "pvtrace-cli simulate stores every event before it ends, and ends", "statement": "When pvtrace-cli simulate has ended without an exception, every event of every ray is in the database, each once and in the order of its process; if a task raises, the database holds a beginning of what each process sent. The command always comes to an end.", "quantifier": "For all numbers of processes, event sequences, queue sizes and interleavings of the processes, the writing thread and the main thread.", "why_tests_cant": "A race between threads and processes: a test sees a few of the interleavings.", "anchors": ["pvtrace/cli/main.py:85-161", "pvtrace/cli/main.py:205-242", "pvtrace/scene/scene.py:64-92", "pvtrace/scene/scene.py:286-300"]}
{"id": "C151", "title": "The figures of the recorders account for every photon", "statement": "With a lost, a reacted and a killed recorder on every node and an exit recorder on the world, the rays of these recorders add up to the number of photons thrown, in the Python tally and in the compiled engine: no photon is counted twice and none is missing.", "quantifier": "For all scenes, photons, random numbers and recorder lists that contain one such recorder each among any others.", "why_tests_cant": "A test adds up the figures of some scenes; that no photon can be missed or counted at two nodes concerns every scene and every random number.", "anchors": ["pvtrace/engine/tally.py:26-147", "pvtrace/algorithm/photon_tracer.py:112-273", "pvtrace/engine/_kernel.pyx:501-900"]}
{"id": "C152", "title": "Every random decision of a compiled ray takes a number of its own", "statement": "Ray i of a run with the compiled engine is traced with the numbers 0, 1, 2, ... of the generator seeded for it. What each number decides (depth, component, re-emission, two angles, wavelength, delay, reflection, in which pass) is settled by the numbers before it, no decision takes two numbers and no number serves two decisions, the states of the generator behind them all differ, at most seven numbers are used per pass, and anything that independent choices could bring about some stream of numbers brings about.", "quantifier": "For all scenes, rays, seeds, ray indices, budgets, step limits and emission methods.", "why_tests_cant": "A test runs a few seeds; a number used for two decisions gives plausible but correlated results that no single run shows.", "anchors": ["pvtrace/engine/_kernel.pyx:76-113", "pvtrace/engine/_kernel.pyx:455-476", "pvtrace/engine/_kernel.pyx:603-897"]}
{"id": "C153", "title": "The table of an LSC counts each photon by whose it is", "statement": "After any calls that gave an LSC its scene, the table of counts can be made; a spectrum by names contains exactly the photons whose source has one of the names and is refused exactly for a name that was never added; if no light has the name of a component, Solar counts the photons that come from a light, Luminescent those emitted in the plate, and every photon on a face is in one of the two columns.", "quantifier": "For all sequences of calls, names, results, faces, kinds and events.", "why_tests_cant": "The columns are selected by comparing texts; tests use one dye and one lamp with different names.", "anchors": ["pvtrace/device/lsc.py:148-229", "pvtrace/device/lsc.py:456-578", "pvtrace/scene/scene.py:121-140"]}
{"id": "C154", "title": "The run controls of the studio tell how far a run is", "statement": "The number of rays a run traces is the number entered. From its first message on the progress bar shows the share of the rays of the run that have been traced and never goes back; the bar is full and the status says 'done' only if all rays have been traced.", "quantifier": "all texts entered, all streams of bundles, all orders in which commands are processed and runs continued", "why_tests_cant": "Tests would have to try every text and every interleaving of commands, bundles and messages; a stopped run and the start of the next run are moments a test of the server alone does not see.", "anchors": ["pvtrace/studio/static/app.js:1260-1307", "pvtrace/studio/server.py:202-271", "pvtrace/engine/api.py:249-264"]}
{"id": "C155", "title": "The compiled engine reads no scratch slot before it has filled it", "statement": "While it traces a ray, the compiled engine reads a slot of one of its scratch arrays (distances and nodes of the hits, hits per node, nearest hit per node, distances of one shape, candidates of a cylinder, marks of the recorders) only after it has written that slot for the same ray. Distances, nodes, counts and candidates are written in the same pass of the loop, so nothing that an earlier pass left behind is used. A call for one shape fills every distance that it reports and uses only candidates of its own.", "quantifier": "For all tables (well formed or not), all numbers of nodes, recorders and hits, all outcomes of every comparison of floating point numbers (nan included), all numbers of passes, and any state left by what ran before.", "why_tests_cant": "The arrays live on the stack and hold whatever was there before. A test that reads a stale slot usually sees a plausible number from the previous pass and passes; which slots are filled depends on every combination of comparisons.", "anchors": ["pvtrace/engine/_kernel.pyx:245-356", "pvtrace/engine/_kernel.pyx:501-556", "pvtrace/engine/_kernel.pyx:622-711"]}
{"id": "C156", "title": "Studio pages do not disturb each other's runs, and closing a page ends its runs", "statement": "With several pages open at the studio, what reaches a page is determined by that page's own commands and by the documents that were applied: runs, stops, closings and new connections of other pages make no difference. A page that connects again receives nothing of the runs of its former connection. When a page is closed, nothing reaches it any more, the run that was started last is cancelled, and all its other runs end: from then on the engine traces at most one more bundle for each of them, and none is left after three turns of the event loop.", "quantifier": "For all numbers of pages, scenes, run parameters, streams of bundles, and all interleavings of commands, documents, connections, closings and continuations of tasks; whether or not the web server raises when a task sends to a closed connection.", "why_tests_cant": "The runs are coroutines on one event loop; the order in which commands, closings and continuations are processed varies from run to run. A test can try a few orders with one page, not all orders with any number of pages.", "anchors": ["pvtrace/studio/server.py:198-274", "pvtrace/studio/static/app.js:1264-1270"]}
{"id": "C157", "title": "The axis and angle of a rotation are read off its matrix, and look_at turns by them", "statement": "For every rotation_matrix(angle, axis, point), rotation_from_matrix returns an angle, an axis and a point from which rotation_matrix builds the same matrix, and Node.look_at finds the axis of the turn from +z to the vector, in whatever order numpy.linalg.eig returns the eigenvalues. Refuted for turns by less than about 1.4e-4 that are not 0: the complex eigenvalues have real parts within 1e-8 of 1, and if such a column comes last the node is not turned at all. Proved for all other angles, axes, points and unit vectors.", "quantifier": "for all angles, axes and points with cos(angle) <= 1 - 1e-8 or cos(angle) = 1, all unit vectors not within that distance of +z and not close to -z, and all results of numpy.linalg.eig (unit eigenvectors, all eigenvalues, any order) whose chosen column is not at infinity", "why_tests_cant": "The doctest uses random angles, which are almost never below 1e-4; the order of eigenvalues is an accident of the linear algebra library.", "anchors": ["pvtrace/geometry/transformations.py:351-389", "pvtrace/scene/node.py:39-69"]}
{"id": "C158", "title": "Mirrors, scalings and shears can be taken apart and put together again", "statement": "reflection_from_matrix, scale_from_matrix and shear_from_matrix return parameters from which reflection_matrix, scale_matrix and shear_matrix build the same matrix. Refuted for uniform scalings whose factor is within 5e-9 of 1 but is not 1 (taken for a scaling along one direction, whatever eig returns) and for shears by the angle 0 (0/0). Proved for all mirrors, for scaling factors further from 1 and for 1 itself, and for shears along directions in the plane by other angles.", "quantifier": "for all points, normals, origins, directions, factors and angles outside the refuted cases, and all results of numpy.linalg.eig in any order whose chosen column is not at infinity (and, for shears, is not a multiple of the same vector throughout)", "why_tests_cant": "The doctests draw random parameters and compare up to a tolerance; the failing factors and angles have probability 0.", "anchors": ["pvtrace/geometry/transformations.py:248-300", "pvtrace/geometry/transformations.py:392-464", "pvtrace/geometry/transformations.py:655-729"]}
{"id": "C159", "title": "Projections can be taken apart and put together again", "statement": "projection_from_matrix returns arguments from which projection_matrix builds the same matrix, for orthogonal, parallel, perspective and pseudo-perspective projections. Proved for orthogonal and parallel projections. Refuted for a perspective point at distance 1 from the plane (ValueError) and for a plane through the origin (0/0), whatever eig returns, and for pseudo=True if the column of the eigenvalue -1 comes last; proved for perspective projections otherwise.", "quantifier": "for all points, normals, directions and perspective points outside the refuted cases, and all results of numpy.linalg.eig in any order whose chosen column is not at infinity", "why_tests_cant": "The doctests draw random perspective points and planes; distance exactly 1 and planes through the origin never occur there although they are what a user would write first.", "anchors": ["pvtrace/geometry/transformations.py:467-596"]}
{"id": "C160", "title": "Edges and counts of a histogram belong together", "statement": "RecorderResult.histogram returns for a histogram of n bins n + 1 edges that rise in equal steps from start to stop, and n counts; the count between two edges is the number of rays whose recorded value (that of the first matching interaction) lies between them, the lower edge included. A heatmap returns the edges of both axes, and the count in row ia and column ib belongs to the edges ia of the first and ib of the second axis. The readout of the studio shows, for every position of the mouse over a plot, two neighbouring edges of the histogram (of each axis) with the count that belongs to them, its square root and a percentage between 0 and 100, and the percentages make 100. (True except for the first bin of an axis, which also counts values up to one bin width below start.)", "quantifier": "all recorder tables, histograms and heatmaps with start < stop and at least one bin, all rays and interactions, all mouse positions", "why_tests_cant": "Counts are made by the kernel from start, stop and the number of bins, edges by numpy.linspace in two other places, and the page puts them together by index. Tests look at the sum of the counts.", "anchors": ["pvtrace/engine/api.py:63-72", "pvtrace/studio/server.py:501-554", "pvtrace/studio/static/app.js:1081-1113"]}
