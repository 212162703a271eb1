# Design of the formal model of pvtrace

Subject: danieljfarrell/pvtrace, the pinned sources in `/repo` (read as text, never run).
Prover: Coq/Rocq 8.16.1, standard library only. Sources in `rocq/theories`.

## Layout

For each area there are up to four kinds of files.

* `XModel.v`  Gallina transcription of the code, function by function. Each definition has a
  comment citing the file and lines it models and every simplification made.
* `XSpec.v`   small independent specifications (no reference to the model's helpers).
* `XProofs.v` lemmas.
* `XProps.v`  only the final theorems `Cnn_...`, each followed by `Print Assumptions`, plus
  `Example`s which show concrete non-trivial inputs that satisfy the hypotheses.

Naming: `Cnn_...` proves property nn of `properties.jsonl`. The suffix `_partial` marks a
theorem that needs an extra hypothesis, or covers only part of the English statement. The
suffix `_refuted` marks a proof that the English statement is false of the faithful model
(an existential with a concrete witness).

## Modelling conventions

* Real quantities (`float`, numpy scalars) are Coq reals `R`. Floating-point rounding is **not**
  modelled. Comparisons are `Rlt_dec`/`Rle_dec` turned into booleans (`Rltb`, `Rleb`).
* Integers are `Z` or `nat`; 64-bit unsigned words are `Z` reduced mod 2^64.
* Python exceptions are values of a result type.
* Random numbers are an explicit input: a draw `u` with `0 <= u < 1`, or a stream of draws.
  Theorems quantify over all of them, so they do not depend on how good the generator is.
  Probability statements are about the exact set of draws leading to an outcome.
* For the tracer control flow, physics (intersection lists, reflectivity, directions) is a
  record of arbitrary functions (an oracle): theorems hold for every oracle.
* `numpy.interp` is modelled by an explicit piecewise linear interpolation over the knots.
* Threads: every thread runs a list of rays; an execution interleaves the writes of the
  threads to shared memory arbitrarily (BundleModel.v).

## Trusted base

* The Coq kernel (8.16.1) and `coqchk`.
* The standard-library axioms of classical reals as shown by `Print Assumptions`:
  `ClassicalDedekindReals.sig_forall_dec`, `ClassicalDedekindReals.sig_not_dec`,
  `FunctionalExtensionality.functional_extensionality_dep` (and `Classical_Prop.classic` when
  trigonometric lemmas are used). Theorems about discrete code are closed under the global
  context. No axiom is added by this development.
* That the Gallina definitions transcribe the Python/Cython code. The comments give file and
  lines for each. Python's semantics (dict order, list slicing, integer truncation) is
  transcribed by hand.

Not modelled: floating point rounding and NaN, trimesh beyond the functions named at C139-C142, numpy internals,
pyyaml/jsonschema parsing of text, sqlite's implementation (queries are modelled by their
relational meaning), the browser code except where a property says so, WebSocket transport, meshcat drawing, click argument
parsing, OpenMP itself.

## Property by property plan

| Id | What is modelled | How it is proved |
|----|------------------|------------------|
| C01 C02 C04 C08 C77 | `step_forward` (TracerModel.v) as a loop with fuel (proved irrelevant above maxsteps+1) over an arbitrary scene record and arbitrary draws | shape of one pass, induction over passes; worked scenes of spheres through the modelled `Scene.intersections` |
| C03 | same, with ray state (position, travelled, duration, wavelength, source) | invariant over consecutive events |
| C05 C06 C07 | `find_container`, `next_hit` over lists of (node, distance) | laminar intervals; sorting and counting lemmas; witness for the refutation |
| C09 C78 | `trace_one` (KernelModel.v) over compiled tables; `compiled S K` relates them to the Python scene | pass-by-pass simulation (KernelSim.v); hit tables and sorted intersections agree node by node |
| C10 C11 | `record`/`trace_one` event budget; the loop without a log as reference (`free_run`, LogProofs.v) | a budgeted run is the reference run or a cut of it (`loop_cut`); witnesses for refutations; C10 for whole bundles from C12 |
| C12 | `trace_bundle` (BundleModel.v): writes to shared log, counts and per-thread accumulators; an execution is any interleaving of the writes of any number of threads | writes go to distinct places; tallying is addition (`tally_ray_adds`), sums over threads are permutation invariant. Float addition order is not modelled (sums are reals) |
| C13 | log rows with integer codes, `EngineResult.histories`, `event_counts` | row arithmetic, encode/decode round trip for the events trace_one can produce |
| C20 | recorder table layout | induction on the layout |
| C14 | splitmix64, xoshiro256+ over Z mod 2^64 | each mixing step injective (xorshift, odd multiplier with explicit inverse); the step is linear over xor and injective |
| C15 C16 | emit_bundle row assignment, Scene.emit, simulate_stream (StreamModel.v) | div/mod lemmas, witnesses; sums over bundles |
| C17 C18 C19 C22 | tally_histories and the kernel tables and tally as folds (TallyModel.v) | fold invariants per recorder slot, equality with counts over lists of histories; agreement by the simulation of C09 |
| C21 | moments | algebra over R |
| C23 C28 C79 | `monitor_queue` (CliModel.v) as a fold over queue messages, with the states between the ray insert, the event insert and the commit; any interleaving of the processes' messages, any deal of tasks to processes | invariant over messages (`monitor_spec`), per-process order (`climbs`) for the progress bar |
| C24 C25 C66 | `is_end_ray`, the two SQL builders as join, filter, DISTINCT over the tables written by the monitor (CliModel.v); names are numbers, NULL comparisons false | a count is the number of distinct keys with a matching message (`count_keys`); set equality, NoDup counting; C17 for the recorder side |
| C26 C27 | `Scene.simulate`: what it decides to run, over Z (CliModel.v) | div/mod |
| C29 C30 C31 C32 | Distribution, Luminophore.emit | piecewise-linear interpolation lemmas |
| C33 C34 C35 C36 | Material, components | reals |
| C37 C38 C39 C40 C41 C64 C69 C70 | Fresnel, reflection, refraction | algebra, nra/field |
| C42 C43 C44 C71 | phase functions, masks | trigonometric identities |
| C45 C46 C47 C48 C49 C72 C73 | 4x4 poses, node trees | affine-map algebra, induction over operations |
| C50 - C54 C74 C75 C76 | sphere, box, cylinder intersection | quadratic/slab reasoning |
| C55 | wavelength_to_rgb, rgb_to_hex_int, wavelength_to_hex_int (ColourModel.v); the wavelength is truncated to an integer first, hexadecimal text is a list of digits | case analysis on the wavelength bands, bounds of truncation |
| C56 C57 C58 C80 C82 | parse.py after YAML loading and the schema check: components, materials, anytree's parent setter with its loop check, merging of explicit and automatic recorders, Histogram/Recorder constructors, `_compile_recorders` (SpecModel.v). Dicts are association lists with distinct keys. Not modelled: spectrum files, poses, constructors of geometries and lights | invariant of the forest under construction (acyclic, the loop check sees every ancestor), acceptance characterised by an independent predicate `acceptable`; witnesses for refutations |
| C59 C60 C61 C81 C83 | `Studio.apply`, `put_document`, `patch_document`, `_patch`, `_unique_name`, `_recorder_to_spec` (SpecModel.v); text loading, dumping and compilation are arbitrary functions | case analysis on failure points, pigeonhole on decimal names, preservation of `acceptable` |
| C62 C63 C84 C85 C86 C87 | `device/lsc.py`: surface delegate, entrance and exit entries of a run, face labels, `spectrum`, `counts`, `summary` (LscModel.v). pandas frames are lists of rows; scene construction and printing are not modelled | face labels through distances to the six planes; the grammar of histories (C01) decides the last and first events; counting; witnesses for refutations |
| C65 C88 C89 | `MeshcatRenderer.add_history`, its queue, the objects on the server by path, cylinder transform (RendererModel.v). Colours and the Meshcat protocol are not modelled | invariant over all sequences of calls (fresh numbers, ordered disjoint identifier lists, lines shown are exactly those of kept histories); for a traced photon that escapes the last two rays differ, since the last flight is longer than 0; witnesses |
| C90 C91 | `CompiledScene.__init__`, `_compile_geometry/_transform/_component/_distribution`, `_surface_tag`, `_phase_tag` over a tree of nodes (CompilerModel.v); `read_scene` is what the kernel reads at the offsets of the tables. Offsets and tags are naturals (int32 and the float rows they pass through are not modelled) | tables only grow, so slices stay valid (`row_ok_grows`); congruence of `trace_one` in the scene; Gram matrix estimate for the rigidity test |
| C92 C93 C94 C95 | the websocket of the studio (server.py 198-274) as commands and tasks that run from await to await in any order (LiveModel.v); `_recorder_payload`, `_extract_paths`; scenes, parameters and the bundles of `simulate_stream` are parameters of the section, tied to the engine model in `C92_final_report` and `C95_paths_are_histories`. Not modelled: disconnection, clock times, numpy broadcasting of one-element arrays | invariant over all schedules (`in_order`), one line per task state (`follows`); progress by counting turns; C15 and C13 for the connection to the engine |
| C96 | `handle_output` of cli/time.py and cli/spectrum.py, numpy.histogram with ten bins, the commands' use of the queries of C66 (CliOutModel.v). Not modelled: termplotlib's drawing, number formatting by pandas | rows of SELECT DISTINCT are the matching pairs; bin arithmetic; refutations from a one-photon run and from C66's witness |
| C97 | the two bundled dyes and `load_named_spectrum` (DyeModel.v); constants as decimal fractions, `scipy.special.erf` a parameter in the model | positivity of the sums; maximum of a list; C31 for sampling; arithmetic of np.arange. ErfProofs.v defines erf as the Riemann integral and proves the Gaussian integral, -1 < erf < 1, Mills' inequality and Taylor bounds; ErfProps.v instantiates the model with it and locates the only maximum of the Fluro Red emission |
| C98, C99 | PlaceModel.v: the placement of nodes in parse.py 432-457 (`place_node`, tree of frames) and the move command of server.py 345-359. numpy's eigenvector in look_at is a parameter; lists of three numbers only; Python's `round` is any nearest rounding to 6 decimals. Documents are data; the text of the numbers written is C144. | Move: the new local location is the dropped point in the parent's frame; frames of descendants change by the same rigid motion. Direction: composition of the rotation lemmas of Transform/Node; refuted by the loose tolerance test for -z. |
| C100 | FilesModel.v: upload, save and the temporary file of `Studio.apply` (server.py 139-186) on a file system as a map from paths (lists of pathlib parts). Symbolic links, case-insensitive file systems and non-ASCII names are not modelled. | Induction over request sequences; refuted by an upload named like the document. |
| C101-C104 | BrowserModel.v: app.js `wavelengthToColor`, `viridis`, `heatmapT`, `refreshHeatmaps` (maximum), `drawHeatmapInto`, `drawBars` (horizontal layout), `inspectBin`, `buildRecorderOverlay` (axes and texture coordinates). Images are maps from pixel index to colour; stretching is nearest neighbour; texture filtering, the 256-pixel resolution of overlay canvases, colour management and antialiasing are not modelled. | Loop invariants for the image; floor arithmetic for pixel rows; the green channel of the table is strictly increasing, hence the colour is strictly monotone in the clamped level; overlay position compared with `cell` of TallyModel.v. |
| C105 | KernelModel.v (`k_pass` and its tally calls), TallyModel.v (`call_matches`), SpecModel.v (`faces`, `face_position`); no new model. | Every escaping call carries the world normal of the nearest face; for an identity rotation this is the facet of exactly one face recorder. Refuted by a full pass of the kernel on a turned box. |
| C106-C109 | LightModel.v: the delegates of light.py, `Scene.emit`, all of engine/emit.py for one row, and `parse_light` with its mask parsers (parse.py 140-211). Draws are given by purpose (one record per ray), so the order in which numpy draws whole columns is not modelled; nan from a zero divisor is not modelled. | Case analysis over delegates; C107 by isometry of the node's transformation; C108 by constructing the draws with acos and a polar decomposition; C109 composes parsing with C107 and C30. |
| C110-C111 | MemModel.v: every array access of _kernel.pyx 206-897 and 1075-1096, marked as read or write. Each comparison of doubles and each cast to int is answered by an oracle, so no arithmetic is assumed. MemLayoutModel.v: lengths and integer contents of the arrays, from the tables of CompilerModel.v and TallyModel.v (compiler.py 60-204, _kernel.pyx 922-1068). Widths of C integers, the small arrays of fixed constant index (local_o, nrm, new_dir) and `source`/`wnormal` pointers are not modelled. | A program logic for access traces (MemProofs.v): loop invariants for hits, components, spectra, recorders and log rows; tables are shown well formed for every compiled scene. C110 is refuted for workers <= 0 by a world with one recorder. |
| C112-C115 | ComponentModel.v: component.py 104-119, 137-141 and 355-378 (argument kinds None, int, float, array, list), distribution.py 35-42 and 183-193, material/utils.py 51-87. Functions passed by users are total and map an array to an array; wavelength grids are finite. | Case analysis over the argument kinds on top of C29-C31; the values at the knots by induction on the grid; C115 by algebra and monotonicity of exp. Refutations by concrete arguments. |
| C116 | The samplers of PhaseModel.v (material/utils.py 104-186, _kernel.pyx 449-476, emit.py 62-89, light.py 60-77), with their uniform draws as arguments. | Densities are integrated with the Riemann integral of the standard library (fundamental theorem of calculus with explicit antiderivatives); the inverse CDF identities are algebra; uniqueness of the azimuth by trigonometry. |
| C117–C121 | PageModel.v: drawPolar, drawBars, addPaths/clearPaths with the messages that drive them, numberField, select/renderInspector and the click handlers as a state machine, applyLayer with isolation and switches (studio/static/app.js) | PageProps.v: the cosine difference of a bin is 2 sin(mid) sin(width/2), so the density is constant where the sine is not clamped; paths by induction over messages with the count as invariant; floor lemmas for toFixed; invariants over event sequences | drawing, ray casting of three.js, and the DOM are not modelled; hits of a click are inputs |
| C122–C127 | MatrixModel.v: the rest of geometry/transformations.py (reflection, scale, projection, clip, shear, orthogonalization, compose/decompose, Euler angles for the 24 axis tuples, quaternions, slerp, random rotations, angle between vectors) | MatrixProofs.v, MatrixProps.v, MatrixProps2.v: ring identities; every rotation comes from a unit quaternion (four candidates, one of which has squared length at least 1); Euler branches by renaming rows to the x-y-z case; projections pointwise through outer products; Gram–Schmidt step by step | not modelled: superimposition_matrix, affine_matrix_from_points, Arcball and the axis/out arguments of vector_norm and unit_vector; numpy.linalg.eigh is an oracle |
| C128 | RngModel.v (splitmix64, rng_seed, rng_next of the compiled kernel on 64-bit words) | PrimeProofs.v: the eleven prime factors of 2^256 - 1 are proved prime by trial division and Pocklington certificates checked by vm_compute; PeriodProps.v: the step is linear over the two-element field, its characteristic polynomial is checked on the 256 unit states, x^(2^256-1) = 1 and x^((2^256-1)/q) + 1 is invertible modulo it (inverses given, products computed), so the order of the step on every non-zero state is 2^256 - 1; pigeonhole for the single cycle | the kernel's 53-bit conversion of a draw is in C14 |
| C129 | GeomModel.v (cylinder_contains, cylinder_on_surface); MemberProps.v models on_aabb_surface for integer points | MemberProps.v, from the exact description of ray_z_cylinder (C54) along the diagonal | exact arithmetic |
| C130 | WidthModel.v: the integer expressions of _kernel.pyx that address arrays, evaluated with 32-bit int and 64-bit long; no value when a part overflows. LP64 is assumed | every access of MemModel.v is split into the moved pointer and the rest, both shown to fit (from the invariant behind C110); the refutation runs the access model on a heatmap of 12000 x 12000 bins |
| C131 | LscSceneModel.v: device/lsc.py 95-340 as a state (size, indices, component and light dictionaries, mirror, scene) and one function for each call; exceptions as values. Components are built with ComponentModel.v, poses with the transformations of TransformModel.v. Not modelled: simulate, reports, rendering | induction over the calls; the poses from the rotation and translation theorems, the lamp from C42 and the dye from C97 and C31 |
| C132 | LookupModel.v: opening a path (parts, '.', '..'), posixpath join and dirname on strings, load_spectrum, parse_mesh, Studio.apply's temporary file, read_csv on rows of cells; uploads from FilesModel.v. Not modelled: symbolic links, the text of CSV files | splitting of strings at slashes; the refutation runs the model |
| C133, C134 | `ViewModel.v`: the node and light entries of `scene_payload`, `Matrix4.determinant/decompose/compose` and `Quaternion.setFromRotationMatrix` of three.js for a last row 0 0 0 1, `buildGeometry`, `renderScene`, the events of the gizmo. A three.js geometry is the solid its triangles approximate; materials, camera, edges and picking are left out. | `ViewProps.v`: `C133_decomposed` (all four branches, reflections too) from the orthogonality and cofactor relations; `C133_solid`, `C133_scene`, `C133_lights` via C90/C91. C134 by induction over the events of a drag; refuted in real-time mode. |
| C135 | `SyncModel.v`: page, server and requests under way as a transition system; which texts load and what an edit does are parameters, the scene of a text is represented by the text. Network errors, runs and dropped files are left out. | `SyncProps.v`: an invariant over the queue of requests and replies (`step_inv`) for orderly sessions; five concrete sessions refute the general claim. Termination of every pause by a measure on the messages under way. |
| C136 | `MeshcatModel.v`: render, add_node and add_geometry over a tree of nodes in level order, the page as objects and transformations by address. Assumed of Meshcat (third party): addresses split at `/`, an object is shown with the product of the transformations down to its node. Materials are left out. | `MeshcatProps.v`: joined names are injective without bars (`join_inj`), names identify nodes (`reach_unique`), the fold over the nodes (`add_nodes_spec`), then points seen = points of the solids; five concrete scenes refute the general claim. |
| C137 | `NameModel.v`: tally_histories as in `TallyModel.v`, but with a naming of nodes and events that hold names. | `NameProps.v`: `matches` commutes with an injective renaming, then induction over the histories; two namesakes refute the general claim. |
| C138 | `EndModel.v`: the tracer's scene (`TracerModel.scene`) made of the same tree of nodes that `CompilerModel.v` compiles: geometries, normals, surfaces, components and phase functions as the Python classes define them; trimesh's ray caster is a function `mesh`. | `EndProps.v`: the tables equal the kernel scene read off the tree (C90; nodes beyond the last do not matter), that scene is `compiled` from the tracer's, the crossings agree node by node (C50, C52, C54 and an exact `mesh`), then C09. `kernel_mesh` shows that an exact `mesh` exists. |
| C139 C140 C141 C142 | `MeshModel.v`: Mesh.__init__, intersections, is_on_surface, normal, is_entering, Box.__init__. Of trimesh: mass_properties (surface integrals), face normals, the twelve faces of creation.box and ray-triangle hits by barycentric coordinates are written out from its documented algorithms without tolerances; the nearest point is a function assumed to be exact. Mesh.contains is not modelled | C139: antisymmetric edge terms of a closed surface cancel (`stokes`), each volume integral differs from the tetrahedron sum by edge terms, checked by `field`. C140 by two wedges. C141: barycentric coordinates are exact on the plane of a face; sorting lemmas; finitely many planes give a positive step. C142: explicit weights for the twelve faces; crossings of a box axis by axis; then C138 |
| C143 | `DrawnModel.v` (monitor_queue 131-152: global ids, open histories per process, calls of add_history; what the renderer does with them is `RendererModel.v`) | `DrawnProps.v`. Invariant over messages in which the throw numbers of one process never decrease (follows from `received` when each process runs one task): `C143_drawn_partial`. Refutations with runs of the tracer model: `C143_last_ray_refuted`, `C143_end_rays_refuted`, `C143_reused_process_refuted` |
| C144 | `TextModel.v`: the text of a number on its way from the page to the scene: JSON.stringify, Python's json, repr, ruamel.yaml's writer, PyYAML's resolver. Doubles are represented by their shortest decimal. Assumed from the language definitions and library sources, which are not in the repository: ECMA-262 Number::toString, json.scanner's NUMBER_RE, float.__repr__, ruamel's represent_float without the YAML 1.1 correction, PyYAML's implicit resolvers for float and int. | `TextProps.v`. `C144_reading`: what each text is read as, by cases on the notation; `C144_number_arrives_partial`, `C144_ordinary_numbers_partial`: the same number arrives for all numbers except single digits below 0.0001, `C144_small_number_refuted`. `C144_refused`, `C144_moved_partial`, `C144_moved_refuted`: what the server then does (models of C98 and C112); `C144_coefficient_refuted`, `C144_coefficient_partial`: a whole number as coefficient. |
| C145 | `InspectModel.v`: documents as trees of mappings, lists and scalars, the set command of server.py 336-343 on trees and on objects (an alias is a second reference to one object), how parse.py reads the tree into the records of `SpecModel.v` and `LightModel.v` (spectra, the recorders section and two kinds of masks are arbitrary functions), the forms of app.js 664-796 with the requests their fields make. Limits of the schema on values (minimum) are not part of it; that the kinds exclude each other is a hypothesis. The text of the document is not modelled. | `InspectHeap.v`: with distinct objects the edit of objects is the edit of the tree (induction over the path, footprint of each object). `InspectProps.v`: `C145_node_edit_partial`, `C145_component_edit_partial` by cases on the field; `C145_shown_partial`; `C145_wavelength_partial`, `C145_cone` (what the light then emits); `C145_parent_partial` (refused exactly for the node and those below it). Refuted: `C145_alias_refuted`, `C145_wavelength_refuted`, `C145_parent_refuted`, `C145_field_refuted`. |
| C146 | No new functions: `tally_histories` (`TallyModel.v`) over the histories of `step_forward` (`TracerModel.v`) for the scene of a tree (`EndModel.v`), and the compiled engine's recorders over the compiled tree. A ray is `traceable` if the Python tracer follows it without an exception, its history fits in the log and there is a normal where it leaves a node. | `EndTallyProps.v`: the simulation of C138 gives equal histories; a killed ray has a node behind the surface (`pass_kill`) and a surface event has two different sides, which discharges the conditions of C18. |
| C147 | `PanelModel.v`: what the inspector of the studio shows beside a recorder (app.js 355-373, 512-545, 822-826, 865-927, 1056-1080, 1268-1296): the line of counts, the plots, the selected entry, the messages of `LiveModel.v`. Formatting of numbers is not modelled. | `PanelProps.v`: an invariant (`good`) over the happenings of one run; the final figures by `C92_final_report`. Refuted by three runs: `C147_line_refuted`, `C147_scene_refuted`, `C147_mixed_refuted`. |
| C148 | No new functions: `step_forward` (`TracerModel.v`) for the scene of a tree (`EndModel.v`). Conditions stated in `RaiseProps.v`: `sphere_world` (the root is a sphere and the rest lies well inside), `spectra_cover`, `phases_usable`, `thick_boxes`, and at each ray of the history `ordinary` (C138) and `clean_hit` (no edge of a box, not along the surface). | `RaiseProofs.v`, `RaiseProps.v`: the world is hit exactly once from inside (`world_once`), so a container and a neighbour exist (`hit_found`); the point met lies on the surface and has a normal (`met_point`, with C50, C52, C54); coefficients, phase functions, emission and Fresnel coefficients are defined (`pass_ok`); the position stays in the ball, the wavelength in the range. With C138 the compiled engine ends the photon too. Refuted for "kT" in `C148_kT_refuted`. |
| C149 | No new functions: the database and queries of `CliModel.v` over the histories of `step_forward`, and the compiled engine's recorders over the compiled tree. Nodes are numbers here; the command line uses names (C137). | `CountProps.v`: composition of C25 and C146; two tasks in one process as witness of the refutation. |
| C150 | `simulate` and the loop of `monitor_queue` as threads: worker processes, queue of bounded size, writing thread, main thread, one step per operation on a shared object (ShutModel.v). Time-outs and sleeps take no time; `queue` and `Event` operations are atomic and the queue is first-in first-out. | `ShutProps.v`: invariant that file, hand and queue together interleave what the processes have sent; a cost that falls with every step that gets something done; witnesses for a thread that dies. |
| C151 | Nothing new: `tally_histories`, the tallies of the kernel (C17, C146) and the tracer. | `AccountProps.v`: a final event belongs to a node that was hit, so to one of the scene's; it is the last event (C01), so exactly one of the recorders takes the history; the sums over recorders and over histories are exchanged. The engine through C146, the spherical world through C148. |
| C152 | `trace_one` and `sample_phase` with the generator threaded through (SequenceModel.v); `KernelModel.v` is given the numbers of a pass by purpose. | `SequenceProps.v`: the list of purposes of a pass, given the stream; the pass with the numbers taken one after the other is the pass of `KernelModel.v` with the numbers handed out; a stream for given numbers is built number by number. The generator through C14 and C128. |
| C153 | `LSC.spectrum` and `_make_counts` with the names of lights and components (LscTableModel.v) over the rows of LscModel.v and the scene of LscSceneModel.v. The cached table and arguments of wrong types are left out. | `LscTableProps.v`: an invariant of all calls, that the names of the scene are among those listed; filters compared row by row with those of C84 and C87. Refuted for a light and a component of the same name, and for the name "all". |
| C154 | parseInt with its default, the progress bar and the 'done' of the status (BarModel.v) as functions of the messages of LiveModel.v. ASCII only; the rate and the rounding of doubles are left out. | `BarProps.v`: the messages of a single run from C92, the sizes of the bundles of simulate_stream (StreamModel.v), integer arithmetic for toFixed. Refuted for texts with more than digits, stopped runs, the start of the next run and the rounding. |
| C155 | Reads and writes of MemModel.v in the order in which they happen. `node_hits[node] += 1` is a read and a write. The vectors of three doubles (local_o, nrm, new_dir, …) and scalar locals are not traced. | `InitProps.v`: a program logic whose assertions say which slots are filled. No hypothesis on tables or oracles: `C155_ray`, `C155_pass` (any pass, whatever ran before), `C155_intersect`. |
| C156 | A server with a list of pages, each with its own stop flag and tasks; what a task does is LiveModel.v (VisitModel.v). A page is closed when the receive loop sees WebSocketDisconnect; sends that fail before that are not modelled. Whether a send to a closed connection raises is a parameter. | `VisitProps.v`: an open page simulates LiveModel.v on its own events (`C156_apart`), so C92–C95 hold for every page; measures on the tasks of a closed page. |
| C157 C158 C159 | `ApartModel.v`: translation_, reflection_, rotation_, scale_, projection_ and shear_from_matrix and the column chosen in look_at. numpy.linalg.eig is an oracle: a list of complex eigenpairs of unit length with the right characteristic polynomial, in any order, real where the eigenvalue is real (`eig3_spec`, `eig4_spec`); that the column chosen for a point is not at infinity is a stated condition (`anchored`). is_same_transform is replaced by equality of matrices. | `ApartProofs.v`: mirrors, scalings along a direction, shears and parallel projections are 1 + k u vᵀ, whose eigenvectors for other eigenvalues than 1 are along u (`dyad_pair`, `dyad_along`); the real part of an eigenvalue of a rotation is 1 or the cosine (`rotation_pair`); for perspective matrices, the plane function of an eigenvector vanishes unless the eigenvalue is 0 or -1 (`central_pair`). `ApartProps.v`, `ApartProps2.v` then compare the rebuilt matrices. |
| C160 | `EdgesModel.v`: numpy.linspace, RecorderResult.histogram with reshape, `_histogram_meta` and the numbers in the text of inspectBin (the bin under the mouse is that of BrowserModel.v, the figures are those of LiveModel.v). toFixed is not modelled; negative indices of histogram() are not modelled. | `EdgesProps.v`: `bin_index_exact` (C19) with the edges in place of start + i * width; `engine_result_spec` for the kernel's bins, `shows` for the figures of the studio. Refuted for the first bin. |

## Assumptions of each theorem

Generated from the output of `Print Assumptions` during the build.

* Closed under the global context (no axioms) (72 theorems): `C71_light_emit_unbounded_refuted`, `C71_light_emit_partial`, `C20_heatmap_cells`, `C14_state_never_zero`, `C14_distinct_streams`, `C14_streams_stay_distinct`, `C13_rows_inside_and_disjoint`, `C13_slots`, `C16_round_robin`, `C16_fair_share`, `C16_no_lights_refuted`, `C15_seeds_partial`, `C15_stream_partial`, `C15_stream_refuted`, `C26_work_split`, `C27_seed_honoured_or_rejected`, `C27_default_workers`, `C28_consistent_prefix`, `C23_events_share_id`, `C55_packing`, `C55_bytes`, `C60_unique_name`, `C85_cells_added`, `C100_nothing_else_written`, `C100_upload_saved`, `C100_document_only_saved_partial`, `C100_document_only_saved_refuted`, `C120_selection`, `C120_kept`, `C120_background_refuted`, `C120_background_partial`, `C120_two_clicks_partial`, `C120_two_clicks_refuted`, `C121_visible`, `C121_isolation_partial`, `C121_isolation_refuted`, `C128_period`, `C128_equidistributed`, `C130_indices_partial`, `C132_command_line`, `C132_studio_partial`, `C132_upload_partial`, `C132_studio_refuted`, `C132_table`, `C132_two_columns_refused`, `C132_numbered_output`, `C132_first_row_lost`, `C135_comes_to_rest`, `C135_no_file`, `C135_idle_partial`, `C135_nothing_lost_partial`, `C135_typed_text_refuted`, `C135_replies_refuted`, `C135_apply_refuted`, `C135_live_refuted`, `C135_saved_refuted`, `C144_characters`, `C144_plus`, `C147_selection`, `C150_all_stored_partial`, `C150_stored_prefix_partial`, `C150_returns_partial`, `C150_one_process_partial`, `C150_ends_partial`, `C153_spectrum_by_name`, `C153_single_name`, `C154_rays_partial`, `C154_rays_refuted`, `C154_rounded_refuted`, `C155_ray`, `C155_pass`, `C155_intersect`.

* Axioms `ClassicalDedekindReals.sig_forall_dec` (13 theorems): `C72_translate_partial`, `C20_slices_partition`, `C23_throw_ids_refuted`, `C79_progress_refuted`, `C136_once_partial`, `C136_root_refuted`, `C147_panel_partial`, `C147_line_partial`, `C147_line_refuted`, `C147_scene_refuted`, `C150_hangs_refuted`, `C150_lost_refuted`, `C154_engine_counts`.

* Axioms `ClassicalDedekindReals.sig_forall_dec`, `FunctionalExtensionality.functional_extensionality_dep` (199 theorems): `C29_cdf_is_proper`, `C29_hist_cdf_ends_at_one`, `C29_valid_spectrum_accepted`, `C29_invalid_spectrum_rejected`, `C30_sample_in_range`, `C30_sample_monotone`, `C30_lookup_probability`, `C30_lookup_monotone`, `C30_hist_sample_is_a_knot`, `C30_hist_lookup`, `C30_hist_sample`, `C31_sample_after_lookup`, `C31_lookup_after_sample`, `C31_positive_spectrum_has_increasing_cdf`, `C31_hist_bins`, `C32_redshift_never_gains_energy`, `C32_kT_energy_bound`, `C32_emission_inside_spectrum`, `C32_hist_redshift_refuted`, `C32_kernel_redshift_refuted`, `C32_kernel_redshift_partial`, `C67_sampling_follows_area_refuted`, `C67_sampling_follows_area_partial`, `C68_kernel_coefficient_agrees`, `C68_kernel_constant_agrees`, `C68_kernel_emission_agrees`, `C33_component_choice_interval`, `C33_interval_length`, `C33_component_exists_and_attenuates`, `C33_negative_coefficient_rejected`, `C33_kernel_choice_refuted`, `C33_kernel_choice_partial`, `C33_engines_choose_alike`, `C35_attenuation_order_independent`, `C35_attenuation_additive`, `C35_attenuation_base`, `C35_kernel_total_agrees`, `C36_quantum_yield_from_lifetimes`, `C36_quantum_yield_required`, `C36_reemits_below_yield`, `C36_absorbers_never_reemit`, `C36_engines_agree`, `C36_absorber_stored_yield`, `C39_law_of_reflection`, `C39_normal_sign_irrelevant`, `C39_involution`, `C39_kernel_agrees`, `C39_frame_independent`, `C41_reflects_below_reflectivity`, `C41_null_surface_never_interacts`, `C44_rectangular_mask`, `C44_rectangular_mask_covers`, `C44_cube_mask`, `C45_conversion_inverse`, `C45_conversion_composes`, `C45_one_step_up`, `C52_kernel_box_exact`, `C74_kernel_box_crossings`, `C17_kernel_counts`, `C19_bin_contains_value_refuted`, `C19_bin_contains_value_partial`, `C20_increments_stay_in_slice`, `C22_kernel_histogram_mass`, `C14_draws_in_unit_interval`, `C24_end_rays_counts`, `C66_spectrum_partial`, `C66_spectrum_refuted`, `C55_channels_valid`, `C55_visible_not_black`, `C56_parents`, `C56_tree`, `C56_materials`, `C56_recorders`, `C56_accepted_iff`, `C57_refuted`, `C57_buildable_partial`, `C57_declared_partial`, `C80_scaled_peak_partial`, `C80_scaled_peak_refuted`, `C58_valid`, `C58_names_distinct`, `C58_faces`, `C82_recorders_compiled_partial`, `C82_recorders_compiled_refuted`, `C59_atomic`, `C59_any_sequence`, `C61_delete_component`, `C61_delete_node_recorders`, `C61_delete_node_refuted`, `C61_delete_node_partial`, `C81_edits_accepted`, `C83_update_recorder`, `C63_run_finishes`, `C85_collected_for_good`, `C86_append_refuted`, `C86_append_partial`, `C87_waveguide_efficiency`, `C87_optical_efficiency_refuted`, `C65_bounded_partial`, `C65_kept_histories_shown`, `C65_baubles_stay`, `C65_removed_refuted`, `C88_cylinder_drawn_in_place`, `C89_path_without_world`, `C89_path_with_short_end_partial`, `C90_refused_iff_unsupported`, `C90_tables_hold_the_scene`, `C91_frames_compose`, `C91_scaled_nodes_refused_partial`, `C92_reports`, `C92_counts_never_fall`, `C92_no_scene`, `C92_runs_end`, `C93_stop_partial`, `C93_tasks_end_partial`, `C94_one_scene_partial`, `C95_at_most_max_paths`, `C95_rounding`, `C93_stop_refuted`, `C94_one_scene_refuted`, `C96_spectrum_partial`, `C96_time_partial`, `C96_time_volume_refuted`, `C96_json_refuted`, `C101_readout_defined`, `C101_heatmap_readout_partial`, `C101_heatmap_readout_refuted`, `C101_bar_readout_refuted`, `C101_bar_readout_partial`, `C102_common_scale`, `C103_same_colour_partial`, `C103_same_colour_refuted`, `C103_always_visible`, `C104_overlay_partial`, `C104_overlay_refuted`, `C104_auto_recorders`, `C104_auto_bins`, `C104_along_face`, `C108_unit_square_refuted`, `C110_accesses_inside_partial`, `C110_accesses_inside_refuted`, `C111_no_data_races`, `C112_usable_partial`, `C112_usable_refuted`, `C113_functions_summed_partial`, `C113_documented_lists_refuted`, `C113_band_edge`, `C114_refused_iff_partial`, `C114_nonfinite_refused_refuted`, `C115_conversion`, `C116_rectangle`, `C117_bars`, `C118_paths`, `C119_edit_partial`, `C119_edit_refuted`, `C126_clip`, `C130_addresses_partial`, `C130_addresses_refuted`, `C136_drawn_partial`, `C136_again_partial`, `C136_same_name_refuted`, `C136_slash_refuted`, `C136_double_slash_refuted`, `C136_unnamed_refuted`, `C136_left_over_refuted`, `C139_centred`, `C139_wrap_again`, `C139_file_origin`, `C140_assembly_refuted`, `C140_assembly_partial`, `C142_box_stays`, `C142_surface`, `C144_reading`, `C144_number_arrives_partial`, `C144_ordinary_numbers_partial`, `C144_small_number_refuted`, `C144_refused`, `C144_moved_partial`, `C144_moved_refuted`, `C144_coefficient_refuted`, `C144_coefficient_partial`, `C145_parent_partial`, `C147_mixed_refuted`, `C154_button`, `C154_bar_partial`, `C154_never_back_partial`, `C154_stopped_refuted`, `C154_status_refuted`, `C156_apart`, `C156_others_do_not_matter`, `C156_connects_again`, `C156_closed`, `C156_last_run`, `C160_edges`, `C160_histogram_partial`, `C160_heatmap_partial`, `C160_first_bin_refuted`, `C160_percentages`, `C160_offset`.

* Axioms `ClassicalDedekindReals.sig_forall_dec`, `ClassicalDedekindReals.sig_not_dec`, `FunctionalExtensionality.functional_extensionality_dep` (146 theorems): `C40_refraction_defined_iff`, `C40_snell`, `C40_snell_angles`, `C40_matched_indices_straight_on`, `C40_kernel_agrees`, `C69_refraction_reversible`, `C64_air_gap_mirror_refuted`, `C64_air_gap_mirror_transparent`, `C64_air_gap_mirror_partial`, `C44_circular_mask`, `C46_conversions_preserve_distance_and_angle`, `C47_rotate_keeps_location`, `C48_body_axis_partial`, `C48_parent_axis_partial`, `C48_angle_partial`, `C73_scene_intersections_complete`, `C73_hits_on_world_ray`, `C50_sphere_intersections_refuted`, `C50_sphere_intersections_partial`, `C50_kernel_sphere_exact`, `C50_engines_agree`, `C51_inside_and_surface_exclusive`, `C51_regions`, `C51_normal_unit_outward`, `C51_entering_iff_heading_inside`, `C53_surface_points_refuted`, `C53_surface_points_partial`, `C53_every_surface_point_accepted`, `C54_reported_points_on_surface`, `C54_complete_refuted`, `C54_complete_partial`, `C54_kernel_cylinder_exact`, `C54_engines_agree_off_rim`, `C74_kernel_sphere_crossings`, `C74_kernel_cylinder_crossings_partial`, `C74_python_sphere_crossings_partial`, `C74_python_sphere_crossings_refuted`, `C74_python_cylinder_crossings_refuted`, `C74_kernel_cylinder_crossings_refuted`, `C75_cylinder_surface_refuted`, `C75_cylinder_surface_tolerance_refuted`, `C75_cylinder_surface_partial`, `C76_box_normals_agree`, `C76_box_normal_outward`, `C76_sphere_normals_agree`, `C76_cylinder_normals_agree`, `C76_cylinder_normal_refuted`, `C76_cylinder_normal_partial`, `C76_cylinder_entering_partial`, `C76_cylinder_entering_refuted`, `C05_container_is_innermost`, `C06_adjacent_is_far_side_refuted`, `C06_adjacent_is_far_side_partial`, `C07_container_differs_from_adjacent`, `C09_geometry_agrees`, `C09_sphere_regular`, `C09_cylinder_regular`, `C21_kernel_statistics`, `C62_same_face_partial`, `C62_near_and_far_exchanged`, `C62_same_face_refuted`, `C91_rotated_nodes_accepted`, `C91_accepted_nodes_are_rigid_refuted`, `C91_distances_kept_partial`, `C97_absorption_peak_one`, `C97_emission_usable`, `C97_grid_covers_the_range`, `C113_emission_tabulated`, `C113_default_emission_refuted`, `C115_shape`, `C116_circle`, `C117_inside`, `C117_touches`, `C117_isotropic_partial`, `C122_matrix`, `C122_multiply`, `C122_inverse`, `C122_about_axis`, `C123_from_matrix_partial`, `C123_eigenvector_partial`, `C123_precise_partial`, `C123_precise_refuted`, `C124_euler_matrix`, `C124_quaternion_from_euler`, `C125_random`, `C126_reflection`, `C126_scale`, `C126_parallel_projection`, `C126_perspective`, `C126_shear`, `C126_cell`, `C129_contains`, `C129_surface_near`, `C129_surface_complete_partial`, `C129_surface_complete_refuted`, `C129_exclusive_refuted`, `C129_exclusive_partial`, `C53_integer_point_refuted`, `C53_integer_point_partial`, `C131_as_configured`, `C131_layout`, `C131_default_components`, `C131_no_names_without_scene`, `C131_scene_built_once`, `C131_later_additions_refuted`, `C131_wavelength_range_refuted`, `C131_scatterer_refuted`, `C131_failed_run_stays_failed`, `C133_decomposed`, `C133_solid`, `C133_rotation`, `C133_scene`, `C133_lights`, `C134_drop_partial`, `C134_drop_refuted`, `C139_shape_kept`, `C141_intersections`, `C141_normal`, `C141_hit_normal`, `C141_entering`, `C142_crossings`, `C145_node_edit_partial`, `C145_component_edit_partial`, `C145_shown_partial`, `C145_wavelength_partial`, `C145_wavelength_refuted`, `C145_cone`, `C145_parent_refuted`, `C145_alias_refuted`, `C145_field_refuted`, `C145_light_checked`, `C153_table_available`, `C153_table_partial`, `C153_same_name_refuted`, `C153_all_refuted`, `C158_mirror`, `C158_scale_direction_partial`, `C158_scale_uniform_partial`, `C158_scale_refuted`, `C159_parallel`, `C159_perspective_partial`, `C159_pseudo_partial`, `C159_distance_one_refuted`, `C159_origin_refuted`, `C159_pseudo_refuted`, `C160_readout_partial`.

* Axioms `ClassicalDedekindReals.sig_forall_dec`, `ClassicalDedekindReals.sig_not_dec`, `Classical_Prop.classic`, `FunctionalExtensionality.functional_extensionality_dep` (171 theorems): `C34_beer_lambert_refuted`, `C34_beer_lambert_partial`, `C34_no_attenuation_no_absorption`, `C34_kernel_depth_agrees`, `C34_depth_monotone`, `C36_delay_nonneg`, `C37_reflectivity_is_probability`, `C37_total_reflection_iff`, `C37_matched_indices`, `C37_normal_incidence`, `C37_brewster`, `C37_kernel_agrees`, `C38_reciprocity`, `C41_total_internal_reflection`, `C70_transmitted_direction_valid`, `C42_isotropic`, `C42_lambertian`, `C42_cone`, `C42_cone_accepts`, `C42_engines_agree`, `C42_kernel_directions_unit`, `C42_azimuth`, `C43_henyey_greenstein_total_refuted`, `C43_henyey_greenstein_total_partial`, `C43_kernel_henyey_greenstein`, `C43_bundle_henyey_greenstein`, `C46_built_poses_are_rigid`, `C46_orientation_preserved`, `C47_location_is_translation`, `C47_origin_moves`, `C72_translate_refuted`, `C72_float_locations_partial`, `C48_body_axis_fixed_refuted`, `C49_look_at_refuted`, `C49_non_unit_vector_refuted`, `C49_look_at_partial`, `C49_look_at_defined_partial`, `C01_history_grammar`, `C01_interrupted_history`, `C01_nothing_after_ending`, `C02_terminates_within_budget`, `C02_fuel_irrelevant`, `C03_bookkeeping`, `C03_flights_follow_next_hit`, `C03_fresnel_surface_wf`, `C04_kill_means_budget_exceeded`, `C04_no_step_beyond_budget`, `C04_exhausted_budget_kills`, `C07_events_separate_two_nodes`, `C08_every_photon_has_a_fate_refuted`, `C08_fate_or_no_geometry_partial`, `C08_enclosed_partial`, `C08_spherical_world_partial`, `C77_absorbed_in_every_medium_refuted`, `C77_absorbed_in_every_medium_partial`, `C09_same_history`, `C09_same_draws`, `C78_python_container_frame`, `C78_kernel_container_frame_partial`, `C78_kernel_container_frame_refuted`, `C10_tallies_independent_refuted`, `C10_tallies_independent_partial`, `C10_large_budget_partial`, `C10_tallies_prefix_partial`, `C11_exhaustion_visible_refuted`, `C11_exhaustion_visible_partial`, `C17_recorder_counts`, `C17_one_result_per_recorder`, `C18_tallies_agree_partial`, `C18_tallies_agree_refuted`, `C21_sample_statistics`, `C22_histogram_mass`, `C12_schedule_independent`, `C12_sequential`, `C13_histories_decode`, `C13_event_counts`, `C10_bundle_tallies_partial`, `C02_kernel_terminates`, `C15_tallies_add_up_partial`, `C15_histories_add_up_partial`, `C23_throw_ids_partial`, `C25_counts_agree_partial`, `C25_counts_agree_refuted`, `C66_volume_spectrum_partial`, `C79_progress_partial`, `C63_one_entry_each_partial`, `C63_loss_always_zero`, `C63_complete_refuted`, `C84_only_solar_photons_enter`, `C85_cells_and_mirror`, `C87_optical_efficiency_partial`, `C89_escaping_photon_short_partial`, `C89_path_with_short_end_refuted`, `C90_same_histories`, `C92_final_report`, `C95_paths_are_histories`, `C97_emission_peak_partial`, `C97_emission_peak_refuted`, `C97_bands`, `C98_moved`, `C98_defined`, `C99_location`, `C99_direction_partial`, `C99_direction_refuted`, `C102_colours_ordered`, `C102_hit_bins_visible_partial`, `C102_hit_bins_visible_refuted`, `C105_faces_partial`, `C105_faces_refuted`, `C106_same_rays_partial`, `C106_nearly_isotropic_partial`, `C106_same_rays_refuted`, `C107_bundle_rays`, `C107_python_rays`, `C108_isotropic_covers_partial`, `C108_lambertian_covers_partial`, `C108_cone_covers_partial`, `C108_circle_covers_partial`, `C108_wide_cone_refuted`, `C109_rays_as_written_partial`, `C109_usable_partial`, `C109_accepted_lights_refuted`, `C113_default_emission_partial`, `C115_emission_partial`, `C115_emission_refuted`, `C116_isotropic`, `C116_henyey_greenstein`, `C116_cone`, `C116_lambertian`, `C117_isotropic_refuted`, `C124_euler_from_matrix`, `C125_slerp_partial`, `C125_slerp_refuted`, `C125_angle_between`, `C127_compose_partial`, `C127_compose_refuted`, `C125_slerp_defined`, `C97_fluro_emission_peak`, `C97_fluro_emission_peak_refuted`, `C97_emission_sampled`, `C131_default_light`, `C137_distinct_names_partial`, `C137_same_name_refuted`, `C138_same_history`, `C142_same_history`, `C143_drawn_partial`, `C143_last_ray_refuted`, `C143_end_rays_refuted`, `C143_reused_process_refuted`, `C146_recorders_agree`, `C148_traced_to_an_end_partial`, `C148_both_engines_end_it_partial`, `C148_kT_refuted`, `C147_final_partial`, `C149_counts_agree_partial`, `C149_counts_agree_refuted`, `C151_recorders_account`, `C151_engine_accounts_partial`, `C151_every_photon_partial`, `C151_every_photon_refuted`, `C152_numbers_used_once`, `C152_every_choice_possible`, `C152_seeded_ray`, `C157_rotation_partial`, `C157_look_column_partial`, `C157_look_at_partial`, `C157_look_down_partial`, `C157_look_at_refuted`, `C157_rotation_refuted`, `C158_shear_partial`, `C158_shear_refuted`.
