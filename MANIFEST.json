{
 "claims": [
  {
   "property": "C01",
   "status": "proved",
   "theorems": [
    "C01_history_grammar",
    "C01_interrupted_history",
    "C01_nothing_after_ending"
   ],
   "note": ""
  },
  {
   "property": "C02",
   "status": "proved",
   "theorems": [
    "C02_terminates_within_budget",
    "C02_fuel_irrelevant",
    "C02_kernel_terminates"
   ],
   "note": ""
  },
  {
   "property": "C03",
   "status": "proved",
   "theorems": [
    "C03_bookkeeping",
    "C03_flights_follow_next_hit",
    "C03_fresnel_surface_wf"
   ],
   "note": ""
  },
  {
   "property": "C04",
   "status": "proved",
   "theorems": [
    "C04_kill_means_budget_exceeded",
    "C04_no_step_beyond_budget",
    "C04_exhausted_budget_kills"
   ],
   "note": ""
  },
  {
   "property": "C05",
   "status": "proved",
   "theorems": [
    "C05_container_is_innermost"
   ],
   "note": ""
  },
  {
   "property": "C06",
   "status": "partial",
   "theorems": [
    "C06_adjacent_is_far_side_refuted",
    "C06_adjacent_is_far_side_partial"
   ],
   "note": "Refuted: on leaving an object the adjacent node is the owner of the next face along the ray, not the surrounding medium (two balls in a world). Proved when entering an object, and when leaving exactly if that owner also contains the ray start."
  },
  {
   "property": "C07",
   "status": "proved",
   "theorems": [
    "C07_container_differs_from_adjacent",
    "C07_events_separate_two_nodes"
   ],
   "note": ""
  },
  {
   "property": "C08",
   "status": "partial",
   "theorems": [
    "C08_every_photon_has_a_fate_refuted",
    "C08_fate_or_no_geometry_partial",
    "C08_enclosed_partial",
    "C08_spherical_world_partial"
   ],
   "note": "Refuted for rays that meet no geometry (start outside the world): history is just GENERATE. Proved: meeting no geometry is the only way to lose a photon; with an enclosing region, and for a spherical world with objects 1e-4 inside it, every finished history has exactly one fate."
  },
  {
   "property": "C09",
   "status": "proved",
   "theorems": [
    "C09_same_history",
    "C09_same_draws",
    "C09_geometry_agrees",
    "C09_sphere_regular",
    "C09_cylinder_regular"
   ],
   "note": "Whole event lists are equal (kind, ray, labels, normal). 'Same intersections' is the hypothesis same_hits, derived for node trees of spheres and cylinders off grazing/rim incidence by C09_geometry_agrees; 'same outcomes' is generic + same_outcomes (draws off the np.isclose tolerance bands)."
  },
  {
   "property": "C10",
   "status": "partial",
   "theorems": [
    "C10_tallies_independent_refuted",
    "C10_tallies_independent_partial",
    "C10_large_budget_partial",
    "C10_tallies_prefix_partial",
    "C10_bundle_tallies_partial"
   ],
   "note": "Refuted: a recorded ray that fills its event budget is stopped, so tallies it would still have caused are lost (a ray leaving the world with max_events = 2). Proved: whenever the budget does not end the ray its tallies, log and ending do not depend on recording or max_events; this is always so for max_events >= 2*maxsteps+4; otherwise the tallies are a prefix of the unrecorded ones. C10_bundle_tallies_partial lifts this to whole parallel runs with any record_every and max_events."
  },
  {
   "property": "C11",
   "status": "partial",
   "theorems": [
    "C11_exhaustion_visible_refuted",
    "C11_exhaustion_visible_partial"
   ],
   "note": "Refuted: an ABSORB/EMIT or ABSORB/SCATTER pair can use the slot left for KILL, and with max_events = 1 the history is just GENERATE. Proved: otherwise the full log ends in KILL, and everything before it is a prefix of the true history."
  },
  {
   "property": "C12",
   "status": "proved",
   "theorems": [
    "C12_schedule_independent",
    "C12_sequential"
   ],
   "note": ""
  },
  {
   "property": "C13",
   "status": "proved",
   "theorems": [
    "C13_rows_inside_and_disjoint",
    "C13_slots",
    "C13_histories_decode",
    "C13_event_counts"
   ],
   "note": ""
  },
  {
   "property": "C14",
   "status": "proved",
   "theorems": [
    "C14_draws_in_unit_interval",
    "C14_state_never_zero",
    "C14_distinct_streams",
    "C14_streams_stay_distinct"
   ],
   "note": ""
  },
  {
   "property": "C15",
   "status": "partial",
   "theorems": [
    "C15_seeds_partial",
    "C15_stream_partial",
    "C15_stream_refuted",
    "C15_tallies_add_up_partial",
    "C15_histories_add_up_partial"
   ],
   "note": "Refuted: every bundle restarts the round robin over the lights and the record_every phase, so with 2 lights (or record_every = 2) and bundles of 3 rays the streamed run differs from one run. Proved: kernel seeds always agree; everything agrees when the bundle size is a multiple of the number of lights and of record_every, and then tallies and histories of the bundles add up to those of the whole."
  },
  {
   "property": "C16",
   "status": "partial",
   "theorems": [
    "C16_round_robin",
    "C16_fair_share",
    "C16_no_lights_refuted"
   ],
   "note": "Proved for every scene with at least one light. Refuted for no lights: scene.emit fails, emit_bundle silently returns rays with zero direction and wavelength."
  },
  {
   "property": "C17",
   "status": "proved",
   "theorems": [
    "C17_recorder_counts",
    "C17_one_result_per_recorder",
    "C17_kernel_counts"
   ],
   "note": ""
  },
  {
   "property": "C18",
   "status": "partial",
   "theorems": [
    "C18_tallies_agree_partial",
    "C18_tallies_agree_refuted"
   ],
   "note": "Proved for all histories without a surface event that has the same node on both sides and without a ray killed at a surface with nothing behind it (C07 gives this for well-nested scenes). Refuted otherwise: a ray inside an object outside the world is killed there, tally_histories counts it, the kernel does not. C146 shows that the histories of the Python tracer meet the conditions."
  },
  {
   "property": "C19",
   "status": "partial",
   "theorems": [
    "C19_bin_contains_value_refuted",
    "C19_bin_contains_value_partial"
   ],
   "note": "Refuted: int() truncates towards zero, so values up to one bin width below start are counted in bin 0. Proved: values not below start, and all bins but the first, are right; values >= stop are never counted."
  },
  {
   "property": "C20",
   "status": "proved",
   "theorems": [
    "C20_slices_partition",
    "C20_heatmap_cells",
    "C20_increments_stay_in_slice"
   ],
   "note": ""
  },
  {
   "property": "C21",
   "status": "proved",
   "theorems": [
    "C21_sample_statistics",
    "C21_kernel_statistics"
   ],
   "note": ""
  },
  {
   "property": "C22",
   "status": "proved",
   "theorems": [
    "C22_histogram_mass",
    "C22_kernel_histogram_mass"
   ],
   "note": ""
  },
  {
   "property": "C23",
   "status": "partial",
   "theorems": [
    "C23_events_share_id",
    "C23_throw_ids_partial",
    "C23_throw_ids_refuted"
   ],
   "note": "Refuted: multiprocessing.Pool may hand two tasks to one process (apply_async does not pin tasks); the monitor keys rays by (pid, idx) and idx restarts with each task. Then rays of both tasks share throw ids. Proved for every interleaving when no process runs two tasks (ids in bijection with rays, dense from 0); always: events of one ray share the id, ids have no gaps."
  },
  {
   "property": "C24",
   "status": "proved",
   "theorems": [
    "C24_end_rays_counts"
   ],
   "note": ""
  },
  {
   "property": "C25",
   "status": "partial",
   "theorems": [
    "C25_counts_agree_partial",
    "C25_counts_agree_refuted"
   ],
   "note": "Refuted when one process runs two tasks (see C23: rays are merged). Proved for every interleaving when no process runs two tasks, with or without --end-rays, for all six queries and normal filters giving all three components."
  },
  {
   "property": "C26",
   "status": "proved",
   "theorems": [
    "C26_work_split"
   ],
   "note": ""
  },
  {
   "property": "C27",
   "status": "proved",
   "theorems": [
    "C27_seed_honoured_or_rejected",
    "C27_default_workers"
   ],
   "note": ""
  },
  {
   "property": "C28",
   "status": "proved",
   "theorems": [
    "C28_consistent_prefix"
   ],
   "note": ""
  },
  {
   "property": "C29",
   "status": "proved",
   "theorems": [
    "C29_cdf_is_proper",
    "C29_hist_cdf_ends_at_one",
    "C29_valid_spectrum_accepted",
    "C29_invalid_spectrum_rejected"
   ],
   "note": ""
  },
  {
   "property": "C30",
   "status": "proved",
   "theorems": [
    "C30_sample_in_range",
    "C30_sample_monotone",
    "C30_lookup_probability",
    "C30_lookup_monotone",
    "C30_hist_sample_is_a_knot",
    "C30_hist_lookup",
    "C30_hist_sample"
   ],
   "note": ""
  },
  {
   "property": "C31",
   "status": "proved",
   "theorems": [
    "C31_sample_after_lookup",
    "C31_lookup_after_sample",
    "C31_positive_spectrum_has_increasing_cdf",
    "C31_hist_bins"
   ],
   "note": ""
  },
  {
   "property": "C32",
   "status": "partial",
   "theorems": [
    "C32_redshift_never_gains_energy",
    "C32_kT_energy_bound",
    "C32_emission_inside_spectrum",
    "C32_hist_redshift_refuted",
    "C32_kernel_redshift_refuted",
    "C32_kernel_redshift_partial"
   ],
   "note": "Python interpolated spectra: proved for redshift and kT. Refuted for histogram spectra and for the kernel when the absorbed wavelength is beyond the emission spectrum (clamping); kernel partial: absorbed wavelength not beyond the last emission knot."
  },
  {
   "property": "C33",
   "status": "partial",
   "theorems": [
    "C33_component_choice_interval",
    "C33_interval_length",
    "C33_component_exists_and_attenuates",
    "C33_negative_coefficient_rejected",
    "C33_kernel_choice_refuted",
    "C33_kernel_choice_partial",
    "C33_engines_choose_alike"
   ],
   "note": "Python choice proved in full. Kernel refuted at the draw u = 0 (picks a zero-coefficient first component); partial for u > 0."
  },
  {
   "property": "C34",
   "status": "partial",
   "theorems": [
    "C34_beer_lambert_refuted",
    "C34_beer_lambert_partial",
    "C34_no_attenuation_no_absorption",
    "C34_kernel_depth_agrees",
    "C34_depth_monotone"
   ],
   "note": "Refuted for 0 < alpha <= 1e-8 (np.isclose treats it as transparent); proved for every alpha > 1e-8."
  },
  {
   "property": "C35",
   "status": "proved",
   "theorems": [
    "C35_attenuation_order_independent",
    "C35_attenuation_additive",
    "C35_attenuation_base",
    "C35_kernel_total_agrees"
   ],
   "note": ""
  },
  {
   "property": "C36",
   "status": "proved",
   "theorems": [
    "C36_quantum_yield_from_lifetimes",
    "C36_quantum_yield_required",
    "C36_reemits_below_yield",
    "C36_absorbers_never_reemit",
    "C36_engines_agree",
    "C36_absorber_stored_yield",
    "C36_delay_nonneg"
   ],
   "note": ""
  },
  {
   "property": "C37",
   "status": "proved",
   "theorems": [
    "C37_reflectivity_is_probability",
    "C37_total_reflection_iff",
    "C37_matched_indices",
    "C37_normal_incidence",
    "C37_brewster",
    "C37_kernel_agrees"
   ],
   "note": ""
  },
  {
   "property": "C38",
   "status": "proved",
   "theorems": [
    "C38_reciprocity"
   ],
   "note": ""
  },
  {
   "property": "C39",
   "status": "proved",
   "theorems": [
    "C39_law_of_reflection",
    "C39_normal_sign_irrelevant",
    "C39_involution",
    "C39_kernel_agrees",
    "C39_frame_independent"
   ],
   "note": ""
  },
  {
   "property": "C40",
   "status": "proved",
   "theorems": [
    "C40_refraction_defined_iff",
    "C40_snell",
    "C40_snell_angles",
    "C40_matched_indices_straight_on",
    "C40_kernel_agrees"
   ],
   "note": ""
  },
  {
   "property": "C41",
   "status": "proved",
   "theorems": [
    "C41_reflects_below_reflectivity",
    "C41_null_surface_never_interacts",
    "C41_total_internal_reflection"
   ],
   "note": ""
  },
  {
   "property": "C42",
   "status": "proved",
   "theorems": [
    "C42_isotropic",
    "C42_lambertian",
    "C42_cone",
    "C42_cone_accepts",
    "C42_engines_agree",
    "C42_kernel_directions_unit",
    "C42_azimuth"
   ],
   "note": ""
  },
  {
   "property": "C43",
   "status": "partial",
   "theorems": [
    "C43_henyey_greenstein_total_refuted",
    "C43_henyey_greenstein_total_partial",
    "C43_kernel_henyey_greenstein",
    "C43_bundle_henyey_greenstein"
   ],
   "note": "Python HenyeyGreenstein refuted at g = 0 (division by zero, witness); proved for every g in (-1,1) except 0. Kernel and bundle samplers proved in full."
  },
  {
   "property": "C44",
   "status": "proved",
   "theorems": [
    "C44_rectangular_mask",
    "C44_rectangular_mask_covers",
    "C44_circular_mask",
    "C44_cube_mask"
   ],
   "note": ""
  },
  {
   "property": "C45",
   "status": "proved",
   "theorems": [
    "C45_conversion_inverse",
    "C45_conversion_composes",
    "C45_one_step_up"
   ],
   "note": ""
  },
  {
   "property": "C46",
   "status": "proved",
   "theorems": [
    "C46_built_poses_are_rigid",
    "C46_orientation_preserved",
    "C46_conversions_preserve_distance_and_angle"
   ],
   "note": ""
  },
  {
   "property": "C47",
   "status": "proved",
   "theorems": [
    "C47_location_is_translation",
    "C47_rotate_keeps_location",
    "C47_origin_moves"
   ],
   "note": ""
  },
  {
   "property": "C48",
   "status": "partial",
   "theorems": [
    "C48_body_axis_fixed_refuted",
    "C48_body_axis_partial",
    "C48_parent_axis_partial",
    "C48_angle_partial"
   ],
   "note": "Refuted: the axis is taken in the parent's frame (pose multiplied from the left), witness a node turned about z and then about x. Proved: the axis is fixed as a parent-frame direction, vectors perpendicular to it turn by exactly the angle, and the documented reading holds when both frames agree on the axis."
  },
  {
   "property": "C49",
   "status": "partial",
   "theorems": [
    "C49_look_at_refuted",
    "C49_non_unit_vector_refuted",
    "C49_look_at_partial",
    "C49_look_at_defined_partial"
   ],
   "note": "Refuted for a previously rotated node and for a non-unit vector. Proved for unit vectors and nodes whose face still points along +z, except vectors within the isclose tolerance of -z that are not exactly -z; eigenvector of numpy.linalg.eig specified by its defining property. C157 shows that this property holds for the column look_at chooses, except within about 1.4e-4 of +z, where it is refuted."
  },
  {
   "property": "C50",
   "status": "partial",
   "theorems": [
    "C50_sphere_intersections_refuted",
    "C50_sphere_intersections_partial",
    "C50_kernel_sphere_exact",
    "C50_engines_agree"
   ],
   "note": "Refuted for the Python sphere when the discriminant is in (0,1e-8]: a ray through the middle of a sphere of radius 1e-5 is reported to hit only its centre. Proved for every other ray; the kernel sphere is exact for all rays."
  },
  {
   "property": "C51",
   "status": "proved",
   "theorems": [
    "C51_inside_and_surface_exclusive",
    "C51_regions",
    "C51_normal_unit_outward",
    "C51_entering_iff_heading_inside"
   ],
   "note": ""
  },
  {
   "property": "C52",
   "status": "proved",
   "theorems": [
    "C52_kernel_box_exact"
   ],
   "note": ""
  },
  {
   "property": "C53",
   "status": "partial",
   "theorems": [
    "C53_surface_points_refuted",
    "C53_surface_points_partial",
    "C53_every_surface_point_accepted",
    "C53_integer_point_refuted",
    "C53_integer_point_partial"
   ],
   "note": "Refuted: points on the infinite extension of a face plane are accepted. Proved for points of the closed box, and every surface point is accepted. Also refuted for integer points: on_aabb_surface writes the face coordinate into an integer array, so the centre (0, 0, 0) of the unit cube counts as a surface point; proved that with even side lengths integer points are treated like floats."
  },
  {
   "property": "C54",
   "status": "partial",
   "theorems": [
    "C54_reported_points_on_surface",
    "C54_complete_refuted",
    "C54_complete_partial",
    "C54_kernel_cylinder_exact",
    "C54_engines_agree_off_rim"
   ],
   "note": "Soundness proved. Completeness refuted at rims (a diagonal through both rims reports no hit); proved for every transversal crossing not on a rim. The kernel cylinder is exact including rims."
  },
  {
   "property": "C55",
   "status": "proved",
   "theorems": [
    "C55_channels_valid",
    "C55_packing",
    "C55_bytes",
    "C55_visible_not_black"
   ],
   "note": ""
  },
  {
   "property": "C56",
   "status": "proved",
   "theorems": [
    "C56_parents",
    "C56_tree",
    "C56_materials",
    "C56_recorders",
    "C56_accepted_iff"
   ],
   "note": "Poses and the constructors of geometries are left out of the model; lights enter by whether parse_light returns."
  },
  {
   "property": "C57",
   "status": "partial",
   "theorems": [
    "C57_refuted",
    "C57_buildable_partial",
    "C57_declared_partial"
   ],
   "note": "Refuted: a spectrum without coefficient (truth value of an array), an integer coefficient without spectrum (no _abs_dist attribute), a zero coefficient, and a scatterer without spectrum (KeyError) are allowed by the schema but cannot be used. Proved: exact characterisation of the specifications that give a usable component, for all three kinds. A scaled spectrum is usable exactly if it has two rows or more, increasing wavelengths and no negative value; kinds, yields and emission spectra are those declared."
  },
  {
   "property": "C58",
   "status": "proved",
   "theorems": [
    "C58_valid",
    "C58_names_distinct",
    "C58_faces"
   ],
   "note": ""
  },
  {
   "property": "C59",
   "status": "proved",
   "theorems": [
    "C59_atomic",
    "C59_any_sequence"
   ],
   "note": ""
  },
  {
   "property": "C60",
   "status": "proved",
   "theorems": [
    "C60_unique_name"
   ],
   "note": ""
  },
  {
   "property": "C61",
   "status": "partial",
   "theorems": [
    "C61_delete_component",
    "C61_delete_node_recorders",
    "C61_delete_node_refuted",
    "C61_delete_node_partial"
   ],
   "note": "Refuted for delete-node: children keep naming the deleted node as parent. Proved: delete-component leaves no reference and keeps the others; delete-node removes exactly the recorders of the node; the edited document is accepted iff the node is not world and no remaining node named it as parent, so otherwise the studio refuses the edit."
  },
  {
   "property": "C62",
   "status": "partial",
   "theorems": [
    "C62_same_face_partial",
    "C62_near_and_far_exchanged",
    "C62_same_face_refuted"
   ],
   "note": "Refuted: near and far are exchanged between the solar cell delegate and label_facets, so a photon collected at a near cell is reported as escaped. Proved for left, right, top and bottom away from the edges; the exchange is proved for all points of the other two faces."
  },
  {
   "property": "C63",
   "status": "partial",
   "theorems": [
    "C63_one_entry_each_partial",
    "C63_run_finishes",
    "C63_loss_always_zero",
    "C63_complete_refuted"
   ],
   "note": "Refuted: photons lost without re-emission get no exit entry and the reported loss is always zero. Proved: one entrance entry per photon, and one exit entry exactly for photons that leave the scene or run out of budget."
  },
  {
   "property": "C64",
   "status": "partial",
   "theorems": [
    "C64_air_gap_mirror_refuted",
    "C64_air_gap_mirror_transparent",
    "C64_air_gap_mirror_partial"
   ],
   "note": "Refuted: the specular branch asks for the transmitted direction, so the ray goes straight through the mirror. Proved part: the mirror always decides to reflect, and the lambertian branch returns a unit vector on the expected side."
  },
  {
   "property": "C65",
   "status": "partial",
   "theorems": [
    "C65_bounded_partial",
    "C65_kept_histories_shown",
    "C65_baubles_stay",
    "C65_removed_refuted"
   ],
   "note": "Refuted: baubles are drawn under exit/... but deleted under rays/..., so they stay for ever. Proved: fewer than max_histories histories are kept, only their lines are shown, and all of them are."
  },
  {
   "property": "C66",
   "status": "partial",
   "theorems": [
    "C66_spectrum_partial",
    "C66_volume_spectrum_partial",
    "C66_spectrum_refuted"
   ],
   "note": "Refuted: SELECT DISTINCT throw_id, wavelength lists a ray twice when it crosses twice with different wavelengths. Proved: entries are exactly the matching (ray, wavelength) pairs, at least one per counted ray, exactly one when the matching events of each ray share the wavelength; exactly one for the lost, reacted and killed queries (rays end there)."
  },
  {
   "property": "C67",
   "status": "partial",
   "theorems": [
    "C67_sampling_follows_area_refuted",
    "C67_sampling_follows_area_partial"
   ],
   "note": "The stored CDF ignores the spacing of x: false for non-uniform x (witness), proved at the knots for uniform spacing."
  },
  {
   "property": "C68",
   "status": "proved",
   "theorems": [
    "C68_kernel_coefficient_agrees",
    "C68_kernel_constant_agrees",
    "C68_kernel_emission_agrees"
   ],
   "note": ""
  },
  {
   "property": "C69",
   "status": "proved",
   "theorems": [
    "C69_refraction_reversible"
   ],
   "note": ""
  },
  {
   "property": "C70",
   "status": "proved",
   "theorems": [
    "C70_transmitted_direction_valid"
   ],
   "note": ""
  },
  {
   "property": "C71",
   "status": "partial",
   "theorems": [
    "C71_light_emit_unbounded_refuted",
    "C71_light_emit_partial"
   ],
   "note": "Refuted for num_rays=None: the documented endless stream yields nothing. Proved for every explicit n."
  },
  {
   "property": "C72",
   "status": "partial",
   "theorems": [
    "C72_translate_refuted",
    "C72_translate_partial",
    "C72_float_locations_partial"
   ],
   "note": "Refuted: integer location plus float vector raises (numpy casting error). Proved whenever the location is stored as float or the vector is integral. Hence after any operations if no location was given in integers."
  },
  {
   "property": "C73",
   "status": "proved",
   "theorems": [
    "C73_scene_intersections_complete",
    "C73_hits_on_world_ray"
   ],
   "note": ""
  },
  {
   "property": "C74",
   "status": "partial",
   "theorems": [
    "C74_kernel_box_crossings",
    "C74_kernel_sphere_crossings",
    "C74_kernel_cylinder_crossings_partial",
    "C74_python_sphere_crossings_partial",
    "C74_python_sphere_crossings_refuted",
    "C74_python_cylinder_crossings_refuted",
    "C74_kernel_cylinder_crossings_refuted"
   ],
   "note": "Kernel box and sphere proved in full. Python sphere refuted (tolerance band) and proved outside the band; Python and kernel cylinders refuted for rays meeting a rim and proved for all other rays. Box.intersections is a trimesh call and not modelled."
  },
  {
   "property": "C75",
   "status": "partial",
   "theorems": [
    "C75_cylinder_surface_refuted",
    "C75_cylinder_surface_tolerance_refuted",
    "C75_cylinder_surface_partial"
   ],
   "note": "Refuted for rim points and for points within tolerance outside the +z cap. Proved: every exact wall or cap point is accepted and every accepted point is within tolerance of the surface."
  },
  {
   "property": "C76",
   "status": "partial",
   "theorems": [
    "C76_box_normals_agree",
    "C76_box_normal_outward",
    "C76_sphere_normals_agree",
    "C76_cylinder_normals_agree",
    "C76_cylinder_normal_refuted",
    "C76_cylinder_normal_partial",
    "C76_cylinder_entering_partial",
    "C76_cylinder_entering_refuted"
   ],
   "note": "Engine agreement and outwardness proved for box and sphere. Cylinder refuted: wall points within the isclose band (about 1e-5 of the half length) of a cap get the cap's normal in both engines; proved outside that band. The same holds for the answer of the cylinder's is_entering (refuted in the band, proved outside it and off the rims, where the question is refused)."
  },
  {
   "property": "C77",
   "status": "partial",
   "theorems": [
    "C77_absorbed_in_every_medium_refuted",
    "C77_absorbed_in_every_medium_partial"
   ],
   "note": "Refuted: a ray heading for the world boundary exits without any absorption test, so the world's own medium does not absorb there. Proved for every other interface."
  },
  {
   "property": "C78",
   "status": "partial",
   "theorems": [
    "C78_python_container_frame",
    "C78_kernel_container_frame_partial",
    "C78_kernel_container_frame_refuted"
   ],
   "note": "Holds for the Python tracer. Refuted for the kernel, which uses the drawn direction as a world direction: a node turned by 90 degrees emits its cone along world z. The kernel agrees for nodes without rotation."
  },
  {
   "property": "C79",
   "status": "partial",
   "theorems": [
    "C79_progress_partial",
    "C79_progress_refuted"
   ],
   "note": "Refuted when one process runs two tasks: the per-pid count goes back and the bar stops early. Proved otherwise, at every moment and for every interleaving."
  },
  {
   "property": "C80",
   "status": "partial",
   "theorems": [
    "C80_scaled_peak_partial",
    "C80_scaled_peak_refuted"
   ],
   "note": "Refuted for tables of integers: scaled values are truncated when assigned back to the integer array. Proved for float tables with a positive maximum."
  },
  {
   "property": "C81",
   "status": "proved",
   "theorems": [
    "C81_edits_accepted"
   ],
   "note": ""
  },
  {
   "property": "C82",
   "status": "partial",
   "theorems": [
    "C82_recorders_compiled_partial",
    "C82_recorders_compiled_refuted"
   ],
   "note": "Refuted: a recorder on a light node is accepted and never tallied. Proved for recorders on nodes with a geometry, with the exact conditions for refusal."
  },
  {
   "property": "C83",
   "status": "proved",
   "theorems": [
    "C83_update_recorder"
   ],
   "note": ""
  },
  {
   "property": "C84",
   "status": "proved",
   "theorems": [
    "C84_only_solar_photons_enter"
   ],
   "note": ""
  },
  {
   "property": "C85",
   "status": "proved",
   "theorems": [
    "C85_cells_and_mirror",
    "C85_collected_for_good",
    "C85_cells_added"
   ],
   "note": ""
  },
  {
   "property": "C86",
   "status": "partial",
   "theorems": [
    "C86_append_refuted",
    "C86_append_partial"
   ],
   "note": "Refuted: a second call always raises UnboundLocalError. Proved: it leaves the first results unchanged."
  },
  {
   "property": "C87",
   "status": "partial",
   "theorems": [
    "C87_waveguide_efficiency",
    "C87_optical_efficiency_partial",
    "C87_optical_efficiency_refuted"
   ],
   "note": "Refuted for the optical efficiency with a light inside the plate (the refuting histories are given, in the shape of C01, not computed by the tracer). Proved for the waveguide efficiency and its prediction, and for the optical efficiency when each photon is first seen on a face."
  },
  {
   "property": "C88",
   "status": "proved",
   "theorems": [
    "C88_cylinder_drawn_in_place"
   ],
   "note": ""
  },
  {
   "property": "C89",
   "status": "partial",
   "theorems": [
    "C89_path_without_world",
    "C89_path_with_short_end_partial",
    "C89_escaping_photon_short_partial",
    "C89_path_with_short_end_refuted"
   ],
   "note": "Refuted for 'short': the last two points of an absorbed photon coincide and both segments are drawn with short_length, past the place of absorption. Proved for 'exclude' and for photons that leave the scene, including that the rays of a traced photon that escapes always differ (C89_escaping_photon_short_partial)."
  },
  {
   "property": "C90",
   "status": "proved",
   "theorems": [
    "C90_refused_iff_unsupported",
    "C90_tables_hold_the_scene",
    "C90_same_histories"
   ],
   "note": ""
  },
  {
   "property": "C91",
   "status": "partial",
   "theorems": [
    "C91_rotated_nodes_accepted",
    "C91_frames_compose",
    "C91_accepted_nodes_are_rigid_refuted",
    "C91_distances_kept_partial",
    "C91_scaled_nodes_refused_partial"
   ],
   "note": "Refuted: np.allclose keeps its default relative tolerance 1e-5, so a node enlarged by four parts per million is accepted. Proved: translated and rotated nodes are accepted exactly, frames compose and invert, and accepted nodes keep squared distances to eleven parts per million."
  },
  {
   "property": "C92",
   "status": "proved",
   "theorems": [
    "C92_reports",
    "C92_counts_never_fall",
    "C92_no_scene",
    "C92_runs_end",
    "C92_final_report"
   ],
   "note": "Sums are exact reals; clock times, disconnection and a second websocket are not modelled. The last report equals the single run under the conditions of C15 (bundle size a multiple of record_every, rays already emitted)."
  },
  {
   "property": "C93",
   "status": "partial",
   "theorems": [
    "C93_stop_partial",
    "C93_tasks_end_partial",
    "C93_stop_refuted"
   ],
   "note": "Refuted: the run button sends stop and run; if both are processed while the old run waits for a bundle, the flag is reset before it looks, and its reports are mixed with those of the new run. Proved: without a later run no report follows a stop, and every task ends within three turns."
  },
  {
   "property": "C94",
   "status": "partial",
   "theorems": [
    "C94_one_scene_partial",
    "C94_one_scene_refuted"
   ],
   "note": "Refuted: run() compiles studio.scene, awaits, and then traces whatever studio.scene is by then: counts of the new scene are shown under the names of the old one, or the task dies silently if table sizes differ. Proved: if no document is applied between these two moments the run reports on the scene it announced, whatever is applied later."
  },
  {
   "property": "C95",
   "status": "proved",
   "theorems": [
    "C95_at_most_max_paths",
    "C95_paths_are_histories",
    "C95_rounding"
   ],
   "note": ""
  },
  {
   "property": "C96",
   "status": "partial",
   "theorems": [
    "C96_spectrum_partial",
    "C96_time_partial",
    "C96_time_volume_refuted",
    "C96_json_refuted"
   ],
   "note": "Refuted: time lost, reacted and killed hand a flat tuple to handle_output, so every non-empty result raises IndexError; --output json raises when a ray has two values (index not unique). Proved for spectrum (all queries) and for time reflected, entering and escaping, with csv, plot, and json when each ray has one value."
  },
  {
   "property": "C97",
   "status": "partial",
   "theorems": [
    "C97_absorption_peak_one",
    "C97_emission_usable",
    "C97_emission_peak_partial",
    "C97_emission_peak_refuted",
    "C97_bands",
    "C97_grid_covers_the_range",
    "C97_fluro_emission_peak",
    "C97_fluro_emission_peak_refuted",
    "C97_emission_sampled"
   ],
   "note": "Refuted for the documented 'peak value of 1.0' of the emission spectra: the Lumogen emission has peak 1 exactly when 600 nm is a grid point, and the Fluro Red emission peaks near 602.34 nm with a value above 1.005 (the error function is the integral itself, not a parameter). Proved: absorption peak, position and height of both emission peaks, sampling, grid. Grids in exact arithmetic."
  },
  {
   "property": "C98",
   "status": "proved",
   "theorems": [
    "C98_moved",
    "C98_defined"
   ],
   "note": "For documents as data. That the coordinates written can be read back is C144, which is refuted for single digits below 0.0001."
  },
  {
   "property": "C99",
   "status": "partial",
   "theorems": [
    "C99_location",
    "C99_direction_partial",
    "C99_direction_refuted"
   ],
   "note": "Refuted: look_at treats directions within a loose tolerance of -z as -z, so the direction (5,0,-1) faces straight down. Locations proved; directions proved outside that tolerance and for exactly -z. That the column chosen in look_at is the axis is C157, refuted within about 1.4e-4 of +z."
  },
  {
   "property": "C100",
   "status": "partial",
   "theorems": [
    "C100_nothing_else_written",
    "C100_upload_saved",
    "C100_document_only_saved_partial",
    "C100_document_only_saved_refuted"
   ],
   "note": "Refuted: a document opened under the name of an uploaded file (e.g. scene.txt) is overwritten by the upload. Proved: nothing else is written, uploads are stored; the document changes only by saving unless an upload has its name."
  },
  {
   "property": "C101",
   "status": "partial",
   "theorems": [
    "C101_readout_defined",
    "C101_heatmap_readout_partial",
    "C101_heatmap_readout_refuted",
    "C101_bar_readout_refuted",
    "C101_bar_readout_partial"
   ],
   "note": "Refuted: on the edge between two heatmap rows the readout is the neighbouring row (300 px, 60 rows, pixel 5), and bars have a margin the readout ignores (300 px, 100 bins, pixel 3). Proved: the bin exists; heatmap readout right off the edges; bar readout at most one bin off."
  },
  {
   "property": "C102",
   "status": "partial",
   "theorems": [
    "C102_common_scale",
    "C102_colours_ordered",
    "C102_hit_bins_visible_partial",
    "C102_hit_bins_visible_refuted"
   ],
   "note": "Refuted in one point: counts at or below max/10^decades have the colour of empty bins (1 of 1000 with three decades). The scale, the validity and the order of colours are proved, and visibility above that bound."
  },
  {
   "property": "C103",
   "status": "partial",
   "theorems": [
    "C103_same_colour_partial",
    "C103_same_colour_refuted",
    "C103_always_visible"
   ],
   "note": "Refuted below 440 nm (different slope and no intensity correction) and outside the visible range (Python: black, page: red or violet). Proved: identical bytes at whole wavelengths from 440 to 700 nm; every ray is visible on the page."
  },
  {
   "property": "C104",
   "status": "partial",
   "theorems": [
    "C104_overlay_partial",
    "C104_overlay_refuted",
    "C104_auto_recorders",
    "C104_auto_bins",
    "C104_along_face"
   ],
   "note": "Refuted for heatmaps whose range is not the extent of the face: the overlay is always stretched over the face. Proved for heatmaps that span the face (off row edges), and that those of record: true do so."
  },
  {
   "property": "C105",
   "status": "partial",
   "theorems": [
    "C105_faces_partial",
    "C105_faces_refuted"
   ],
   "note": "Refuted for rotated boxes: facets are compared with world normals, so on a box turned by 90 degrees about y the top face is counted by the east recorder, whose heatmap misses it. Proved for boxes whose node is not rotated in the world (any translation)."
  },
  {
   "property": "C106",
   "status": "partial",
   "theorems": [
    "C106_same_rays_partial",
    "C106_nearly_isotropic_partial",
    "C106_same_rays_refuted"
   ],
   "note": "Refuted: a cone wider than 90 degrees and a Henyey-Greenstein asymmetry of 0 raise in Python but emit in the bundle. Proved for every ray that Scene.emit yields (|g| >= 1e-12), and that below 1e-12 both are isotropic."
  },
  {
   "property": "C107",
   "status": "proved",
   "theorems": [
    "C107_bundle_rays",
    "C107_python_rays"
   ],
   "note": ""
  },
  {
   "property": "C108",
   "status": "partial",
   "theorems": [
    "C108_isotropic_covers_partial",
    "C108_lambertian_covers_partial",
    "C108_cone_covers_partial",
    "C108_circle_covers_partial",
    "C108_wide_cone_refuted",
    "C108_unit_square_refuted"
   ],
   "note": "Refuted: a bundle for a half-angle beyond 90 degrees never emits sideways (and Python refuses it), and the mask documented as a square of one unit spans two. Proved: cones up to 90 degrees, the hemisphere, the sphere and the disc are filled."
  },
  {
   "property": "C109",
   "status": "partial",
   "theorems": [
    "C109_rays_as_written_partial",
    "C109_usable_partial",
    "C109_accepted_lights_refuted"
   ],
   "note": "Refuted: fixed points as masks, a number as wavelength mask and lists of the wrong length pass the schema but do not load; a wavelength of 0 loads but never emits. Proved: rays are as written whenever the light loads (lengths not negative, half-angle up to 180 degrees), and which lights load and emit."
  },
  {
   "property": "C110",
   "status": "partial",
   "theorems": [
    "C110_accesses_inside_partial",
    "C110_accesses_inside_refuted"
   ],
   "note": "Refuted for workers <= 0: trace_bundle allocates one row of tallies but passes num_threads = 0 on to OpenMP, which then chooses the number of threads itself (outside the OpenMP specification; one per core with libgomp). Proved for workers >= 1 and every scene, recorder, ray, thread and outcome of floating-point comparisons and casts. C integers have the widths of C130. Not modelled: that positions, directions and wavelengths have the same number of rows (emit_bundle builds them so)."
  },
  {
   "property": "C111",
   "status": "proved",
   "theorems": [
    "C111_no_data_races"
   ],
   "note": "For workers >= 1. Rays on the same thread run one after the other."
  },
  {
   "property": "C112",
   "status": "partial",
   "theorems": [
    "C112_usable_partial",
    "C112_usable_refuted"
   ],
   "note": "Refuted: an integer coefficient (Absorber(1)) matches no branch, so the component is constructed without _abs_dist and each use raises AttributeError; a negative float is accepted and returned. Proved for all other accepted coefficients."
  },
  {
   "property": "C113",
   "status": "partial",
   "theorems": [
    "C113_functions_summed_partial",
    "C113_documented_lists_refuted",
    "C113_default_emission_partial",
    "C113_emission_tabulated",
    "C113_default_emission_refuted",
    "C113_band_edge"
   ],
   "note": "Refuted for lists of numbers: the docstring's Scatterer(y, x=x) raises TypeError as the numbers are called; and for the default emission without x (ValueError, also when the coefficient is an array with its own wavelengths). Proved for lists of functions, and for the default emission with at least two wavelengths."
  },
  {
   "property": "C114",
   "status": "partial",
   "theorems": [
    "C114_refused_iff_partial",
    "C114_nonfinite_refused_refuted"
   ],
   "note": "Refuted: the test is np.isfinite(y).any(), so one finite element is enough and nan passes. Proved: exactly which arrays are refused."
  },
  {
   "property": "C115",
   "status": "partial",
   "theorems": [
    "C115_conversion",
    "C115_emission_partial",
    "C115_shape",
    "C115_emission_refuted"
   ],
   "note": "Sign refuted: photon energies below mu (beyond about 2480 nm for the default mu = 0.5 eV) give negative emission. The range and the peak are proved when all photons have more energy than mu; the shape and the conversion for all spectra."
  },
  {
   "property": "C116",
   "status": "proved",
   "theorems": [
    "C116_isotropic",
    "C116_henyey_greenstein",
    "C116_cone",
    "C116_lambertian",
    "C116_circle",
    "C116_rectangle"
   ],
   "note": "Stated for draws: the draws that send a direction into a cap and sector form a rectangle whose sides are the integral of the density and the share of the sector. At g = 0 Python raises (C43)."
  },
  {
   "property": "C117",
   "status": "partial",
   "theorems": [
    "C117_inside",
    "C117_touches",
    "C117_isotropic_partial",
    "C117_isotropic_refuted",
    "C117_bars"
   ],
   "note": "C117_isotropic_refuted: with the default angle bins [0, 1.5708, 18] the first bin of an isotropic distribution is drawn inside the arc. C117_isotropic_partial gives the drawn radius of every bin; inside, touches and bars hold for all histograms."
  },
  {
   "property": "C118",
   "status": "proved",
   "theorems": [
    "C118_paths"
   ],
   "note": "JSON and WebSocket transport are not modelled; a path has as many wavelengths as points (server.py 566-573)."
  },
  {
   "property": "C119",
   "status": "partial",
   "theorems": [
    "C119_edit_partial",
    "C119_edit_refuted"
   ],
   "note": "C119_edit_refuted: 1e-7 becomes 0 when another component is edited. Numbers below 1e21 in magnitude (toFixed switches to exponents beyond)."
  },
  {
   "property": "C120",
   "status": "partial",
   "theorems": [
    "C120_selection",
    "C120_kept",
    "C120_background_refuted",
    "C120_background_partial",
    "C120_two_clicks_partial",
    "C120_two_clicks_refuted"
   ],
   "note": "C120_background_refuted and C120_two_clicks_refuted; the _partial theorems say what the clicks do instead and when two clicks work."
  },
  {
   "property": "C121",
   "status": "partial",
   "theorems": [
    "C121_visible",
    "C121_isolation_partial",
    "C121_isolation_refuted"
   ],
   "note": "C121_isolation_refuted: the isolated name survives a scene update that removes the node."
  },
  {
   "property": "C122",
   "status": "proved",
   "theorems": [
    "C122_matrix",
    "C122_multiply",
    "C122_inverse",
    "C122_about_axis"
   ],
   "note": "numpy arrays as exact reals; quaternions with squared length below EPS count as the identity rotation (as in the code)."
  },
  {
   "property": "C123",
   "status": "partial",
   "theorems": [
    "C123_from_matrix_partial",
    "C123_eigenvector_partial",
    "C123_precise_partial",
    "C123_precise_refuted"
   ],
   "note": "C123_precise_refuted: isprecise=True with a trace that is not positive. numpy.linalg.eigh is an oracle specified by eigh_spec (unit eigenvector of the largest eigenvalue), shown to be satisfiable for every rotation."
  },
  {
   "property": "C124",
   "status": "proved",
   "theorems": [
    "C124_euler_matrix",
    "C124_quaternion_from_euler",
    "C124_euler_from_matrix"
   ],
   "note": "All 24 axis sequences. Matrices closer to gimbal lock than EPS but not at it are left out."
  },
  {
   "property": "C125",
   "status": "partial",
   "theorems": [
    "C125_slerp_partial",
    "C125_slerp_refuted",
    "C125_random",
    "C125_angle_between",
    "C125_slerp_defined"
   ],
   "note": "C125_slerp_refuted: spin=1 gives a quaternion of squared length 3. Unit length is proved for even spin; C125_slerp_defined shows that a result exists for every spin."
  },
  {
   "property": "C126",
   "status": "proved",
   "theorems": [
    "C126_reflection",
    "C126_scale",
    "C126_parallel_projection",
    "C126_perspective",
    "C126_clip",
    "C126_shear",
    "C126_cell"
   ],
   "note": "Pointwise on dehomogenized points."
  },
  {
   "property": "C127",
   "status": "partial",
   "theorems": [
    "C127_compose_partial",
    "C127_compose_refuted"
   ],
   "note": "C127_compose_refuted: a perspective row below EPS but not zero is dropped."
  },
  {
   "property": "C128",
   "status": "proved",
   "theorems": [
    "C128_period",
    "C128_equidistributed"
   ],
   "note": ""
  },
  {
   "property": "C129",
   "status": "partial",
   "theorems": [
    "C129_contains",
    "C129_surface_near",
    "C129_surface_complete_partial",
    "C129_surface_complete_refuted",
    "C129_exclusive_refuted",
    "C129_exclusive_partial"
   ],
   "note": "Refuted: rim points are not always found (the cap test is strict), and points in a shell of 1000 ulp below the surface are both contained and on the surface. Proved: contains is exact, is_on_surface is sound within the tolerance, complete on walls and caps, and false elsewhere."
  },
  {
   "property": "C130",
   "status": "partial",
   "theorems": [
    "C130_addresses_partial",
    "C130_indices_partial",
    "C130_addresses_refuted"
   ],
   "note": "Refuted: 'AB.bins + tid * S.total_bins' is an int product before it moves the pointer; 16 workers and a heatmap of 12000 x 12000 bins overflow it. Proved while workers * total_bins < 2^31, tables have fewer than 2^30 entries and maxsteps < 2^31 - 1. Widths as on LP64 (int 32, long 64 bits); the casts of doubles to int are not included (their results may be anything, C110)."
  },
  {
   "property": "C131",
   "status": "partial",
   "theorems": [
    "C131_as_configured",
    "C131_layout",
    "C131_default_light",
    "C131_default_components",
    "C131_no_names_without_scene",
    "C131_scene_built_once",
    "C131_later_additions_refuted",
    "C131_wavelength_range_refuted",
    "C131_scatterer_refuted",
    "C131_failed_run_stays_failed"
   ],
   "note": "Refuted for four cases, proved otherwise. Components and lights added after the first run are listed but not in the scene. A wavelength_range given to the constructor is never stored, so that the default components raise AttributeError. add_scatterer raises NameError because Scatterer is not imported. A run that failed while building a component has emptied the stored dictionaries, so that every later run raises KeyError. Ray tracing itself, renderers and reports of the class are not part of this claim."
  },
  {
   "property": "C132",
   "status": "partial",
   "theorems": [
    "C132_command_line",
    "C132_studio_partial",
    "C132_upload_partial",
    "C132_studio_refuted",
    "C132_table",
    "C132_two_columns_refused",
    "C132_numbered_output",
    "C132_first_row_lost"
   ],
   "note": "Refuted for the studio: it parses a temporary file in the current directory, so that relative names mean files there and not beside the document, where uploads are saved; proved for documents in the current directory, and for the command line in general. Files with two columns are refused (among them the spectra written by the command line) and a file without header loses its first row. Symbolic links, the text of CSV files and Windows paths are not modelled."
  },
  {
   "property": "C133",
   "status": "proved",
   "theorems": [
    "C133_decomposed",
    "C133_solid",
    "C133_rotation",
    "C133_scene",
    "C133_lights"
   ],
   "note": ""
  },
  {
   "property": "C134",
   "status": "partial",
   "theorems": [
    "C134_drop_partial",
    "C134_drop_refuted"
   ],
   "note": "Refuted in real-time mode: a node dragged away and back to within 1e-6 of its start is shown where it was, but the last position posted is one on the way (the drop posts nothing). Partial: a drag that ends further than 1e-6 from its start posts the final position last, and nothing else without real-time mode."
  },
  {
   "property": "C135",
   "status": "partial",
   "theorems": [
    "C135_idle_partial",
    "C135_nothing_lost_partial",
    "C135_comes_to_rest",
    "C135_no_file",
    "C135_typed_text_refuted",
    "C135_replies_refuted",
    "C135_apply_refuted",
    "C135_live_refuted",
    "C135_saved_refuted"
   ],
   "note": "Refuted: an edit within 0.7 s of typing discards the typed text; replies out of order leave the viewport with another scene than the one traced; apply during an edit takes it back in the scene only; real-time drags do not reach the editor; 'saved' can be shown while the editor holds a refused text. Partial: agreement and no loss for every orderly session (in-order handling and replies, reactive typing, waiting for the reply of edits, saves and the first load). Proved for every use: the studio comes to rest (every request is answered), and without a file it never says saved."
  },
  {
   "property": "C136",
   "status": "partial",
   "theorems": [
    "C136_drawn_partial",
    "C136_again_partial",
    "C136_once_partial",
    "C136_same_name_refuted",
    "C136_slash_refuted",
    "C136_double_slash_refuted",
    "C136_unnamed_refuted",
    "C136_root_refuted",
    "C136_left_over_refuted"
   ],
   "note": "Refuted: of siblings with equal names only the last is shown; a name with '/' is shown relative to the node named by its first part, and one with '//' at the address of what follows; an unnamed node (the default) ends the drawing with a TypeError; show_root is ignored; nodes removed from the scene stay on the page when it is drawn again. Partial: for named trees without '|' and '/' in names and with distinct siblings the points seen are exactly the points of the solids below the root, one object each, also over an earlier picture of the same names."
  },
  {
   "property": "C137",
   "status": "partial",
   "theorems": [
    "C137_distinct_names_partial",
    "C137_same_name_refuted"
   ],
   "note": "Refuted: two nodes with the same name share the counts of tally_histories. Partial: with names that tell the nodes of the scene apart the result is that of tallying by node."
  },
  {
   "property": "C138",
   "status": "proved",
   "theorems": [
    "C138_same_history"
   ],
   "note": ""
  },
  {
   "property": "C139",
   "status": "proved",
   "theorems": [
    "C139_centred",
    "C139_wrap_again",
    "C139_file_origin",
    "C139_shape_kept"
   ],
   "note": ""
  },
  {
   "property": "C140",
   "status": "partial",
   "theorems": [
    "C140_assembly_refuted",
    "C140_assembly_partial"
   ],
   "note": "Refuted: each part is moved to its own centre of mass, so two parts of one file end up in the same place. Partial: they keep their places if every node is given the location of its part's centre of mass in the file."
  },
  {
   "property": "C141",
   "status": "proved",
   "theorems": [
    "C141_intersections",
    "C141_normal",
    "C141_hit_normal",
    "C141_entering"
   ],
   "note": ""
  },
  {
   "property": "C142",
   "status": "proved",
   "theorems": [
    "C142_box_stays",
    "C142_surface",
    "C142_crossings",
    "C142_same_history"
   ],
   "note": ""
  },
  {
   "property": "C143",
   "status": "partial",
   "theorems": [
    "C143_drawn_partial",
    "C143_last_ray_refuted",
    "C143_end_rays_refuted",
    "C143_reused_process_refuted"
   ],
   "note": "Refuted in three ways: the last ray of a process is never drawn, with --end-rays the absorptions and inner reflections are missing from the path, and a process that runs two tasks can have rays of both drawn as one path. Partial: when each process runs one task, what is drawn is exactly the messages sent of the first ray of each process and of every n-th ray, if at least two were sent and the process went on to another ray, each once."
  },
  {
   "property": "C144",
   "status": "partial",
   "theorems": [
    "C144_reading",
    "C144_number_arrives_partial",
    "C144_ordinary_numbers_partial",
    "C144_small_number_refuted",
    "C144_refused",
    "C144_moved_partial",
    "C144_moved_refuted",
    "C144_coefficient_refuted",
    "C144_coefficient_partial",
    "C144_characters",
    "C144_plus"
   ],
   "note": "Refuted: a number with one significant digit below 0.0001 (such as 0.00005) is written as 5e-05, which PyYAML reads as a string, so that the edit or the move is refused; and a whole number typed as the coefficient of an absorber arrives as an int, for which the component has no coefficient (C112). Partial: all other numbers below 1e21 arrive unchanged, a coefficient that is not whole or that scales a spectrum is used."
  },
  {
   "property": "C145",
   "status": "partial",
   "theorems": [
    "C145_node_edit_partial",
    "C145_component_edit_partial",
    "C145_shown_partial",
    "C145_wavelength_partial",
    "C145_wavelength_refuted",
    "C145_cone",
    "C145_parent_partial",
    "C145_alias_refuted",
    "C145_parent_refuted",
    "C145_field_refuted",
    "C145_light_checked"
   ],
   "note": "Refuted: with a YAML alias (two nodes sharing one material) an edit of one node changes the other; the wavelength field has no effect when the light has a wavelength mask; the parent field offers the nodes below the edited one, which the parser refuses; a component written with \"builtin\" first has no fields and an empty location shows no inputs. Partial: for documents without aliases every field of a node or component changes exactly the entry it names; values shown are those in use; without a wavelength mask the light emits the wavelength entered; a parent is refused exactly if it is the node or below it."
  },
  {
   "property": "C146",
   "status": "proved",
   "theorems": [
    "C146_recorders_agree"
   ],
   "note": ""
  },
  {
   "property": "C147",
   "status": "partial",
   "theorems": [
    "C147_panel_partial",
    "C147_line_partial",
    "C147_final_partial",
    "C147_line_refuted",
    "C147_scene_refuted",
    "C147_mixed_refuted",
    "C147_selection"
   ],
   "note": "Refuted: during a run the line above the plots keeps the counts of the first report while the plots follow the newest; after an edit without a new run the old figures are shown under the same recorder name of the new scene; after stop and run the report of the old run is drawn over the bins of the new scene, or the handler throws. Partial: during one run the plots are those of the newest report and the line comes from a report of that run; after done, a scene or a selection the line is the newest; the final figures are those of the run (C92)."
  },
  {
   "property": "C148",
   "status": "partial",
   "theorems": [
    "C148_traced_to_an_end_partial",
    "C148_both_engines_end_it_partial",
    "C148_kT_refuted"
   ],
   "note": "Refuted for the default method \"kT\": a photon of 302 nm inside absorption and emission spectra given from 300 to 800 nm is shifted to below 300 nm, outside the table, and the lookup raises after ABSORB (component.py 402-410). Partial: it holds when the emission spectra also cover the shifted wavelengths (for \"redshift\" the range itself, for \"full\" when they emit within it)."
  },
  {
   "property": "C149",
   "status": "partial",
   "theorems": [
    "C149_counts_agree_partial",
    "C149_counts_agree_refuted"
   ],
   "note": "Refuted, like C23 and C25, when one pool process runs two tasks: the rays of the second are taken for those of the first. Proved when no process runs two tasks."
  },
  {
   "property": "C150",
   "status": "partial",
   "theorems": [
    "C150_all_stored_partial",
    "C150_stored_prefix_partial",
    "C150_returns_partial",
    "C150_one_process_partial",
    "C150_ends_partial",
    "C150_hangs_refuted",
    "C150_lost_refuted"
   ],
   "note": "Proved as long as the writing thread raises no exception. Otherwise refuted: if the thread fails at its start (for example a wrong --zmq) the command never ends, and if writing the last event fails the command ends as usual without it."
  },
  {
   "property": "C151",
   "status": "partial",
   "theorems": [
    "C151_recorders_account",
    "C151_engine_accounts_partial",
    "C151_every_photon_partial",
    "C151_every_photon_refuted"
   ],
   "note": "Refuted when a photon is thrown where it meets no geometry (C08): it has no final event and is in no figure. Proved: the figures add up to the number of photons that end; and to the number of photons thrown when every ray reaches a final event, which holds in particular in a spherical world whose spectra cover the photons (C148). For the compiled engine ties and grazing hits are excluded as in C138."
  },
  {
   "property": "C152",
   "status": "proved",
   "theorems": [
    "C152_numbers_used_once",
    "C152_every_choice_possible",
    "C152_seeded_ray"
   ],
   "note": ""
  },
  {
   "property": "C153",
   "status": "partial",
   "theorems": [
    "C153_spectrum_by_name",
    "C153_single_name",
    "C153_table_available",
    "C153_table_partial",
    "C153_same_name_refuted",
    "C153_all_refuted"
   ],
   "note": "False when a light and a component have the same name (C153_same_name_refuted): a photon straight from the light is counted as luminescence too; and the string \"all\" never means a component of that name (C153_all_refuted). Proved: what a spectrum by names contains and when it is refused, that the table can always be made, and the columns when the names differ."
  },
  {
   "property": "C154",
   "status": "partial",
   "theorems": [
    "C154_rays_partial",
    "C154_rays_refuted",
    "C154_bar_partial",
    "C154_never_back_partial",
    "C154_button",
    "C154_engine_counts",
    "C154_stopped_refuted",
    "C154_status_refuted",
    "C154_rounded_refuted"
   ],
   "note": "Refuted: parseInt ignores what follows the first digits ('1e6' and '1,000,000' start a run of one ray) and 0 becomes the default; a stopped run shows a full bar and 'done'; when the next run starts the status still says 'done'; by rounding the bar is full from 99.95 % on. Partial: whole numbers above zero are taken as entered; in the first run of a page without a stop the bar is within 0.05 % of the share reported and 'done' means that all rays were traced; the bar of a single run never goes back, stopped or not."
  },
  {
   "property": "C155",
   "status": "proved",
   "theorems": [
    "C155_ray",
    "C155_pass",
    "C155_intersect"
   ],
   "note": ""
  },
  {
   "property": "C156",
   "status": "proved",
   "theorems": [
    "C156_apart",
    "C156_others_do_not_matter",
    "C156_connects_again",
    "C156_closed",
    "C156_last_run"
   ],
   "note": ""
  },
  {
   "property": "C157",
   "status": "partial",
   "theorems": [
    "C157_rotation_partial",
    "C157_look_column_partial",
    "C157_look_at_partial",
    "C157_look_down_partial",
    "C157_look_at_refuted",
    "C157_rotation_refuted"
   ],
   "note": "C157_look_at_refuted, C157_rotation_refuted: a turn by 1e-4 with a list of eigenvalues whose last column is complex (numpy documents no order; nothing is said about the order LAPACK actually produces). numpy.linalg.eig is an oracle specified by eig3_spec and eig4_spec; [anchored] assumes the column chosen for the point has a fourth coordinate other than 0. Almost straight down no eigenvector is needed (C157_look_down_partial: the node then looks straight down)."
  },
  {
   "property": "C158",
   "status": "partial",
   "theorems": [
    "C158_mirror",
    "C158_scale_direction_partial",
    "C158_scale_uniform_partial",
    "C158_scale_refuted",
    "C158_shear_partial",
    "C158_shear_refuted"
   ],
   "note": "C158_scale_refuted (factor 1 + 1e-9), C158_shear_refuted (angle 0). Scaling along a direction by a factor within 1e-8 of 1 is left open; shears need exactly orthogonal direction and normal. Mirrors are proved in full."
  },
  {
   "property": "C159",
   "status": "partial",
   "theorems": [
    "C159_parallel",
    "C159_perspective_partial",
    "C159_pseudo_partial",
    "C159_distance_one_refuted",
    "C159_origin_refuted",
    "C159_pseudo_refuted"
   ],
   "note": "C159_distance_one_refuted, C159_origin_refuted (both for every result of eig), C159_pseudo_refuted (for one order of the eigenvalues). Parallel and orthogonal projections are proved in full. Perspective points within 1e-8 of the plane, or at a distance within 1e-8 of 1, are left out."
  },
  {
   "property": "C160",
   "status": "partial",
   "theorems": [
    "C160_edges",
    "C160_histogram_partial",
    "C160_heatmap_partial",
    "C160_first_bin_refuted",
    "C160_readout_partial",
    "C160_percentages",
    "C160_offset"
   ],
   "note": "Refuted for the first bin: a position of -0.5 is counted between 0 and 1 (C160_first_bin_refuted; the cause is C19). Partial: all other bins, and the first bin if no recorded value is below start. C160_edges and C160_percentages hold without exception for start < stop and at least one bin. The formatting with toFixed is not modelled."
  }
 ]
}