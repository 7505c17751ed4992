{
 "claims": [
  {
   "property": "C01",
   "status": "proved",
   "theorems": [
    "C01_box_round_trip",
    "C01_box_constructible_iff"
   ],
   "note": ""
  },
  {
   "property": "C02",
   "status": "proved",
   "theorems": [
    "C02_correction",
    "C02_correction_unique"
   ],
   "note": ""
  },
  {
   "property": "C03",
   "status": "proved",
   "theorems": [
    "C03_translation"
   ],
   "note": ""
  },
  {
   "property": "C04",
   "status": "proved",
   "theorems": [
    "C04_distance",
    "C04_same_signs",
    "C04_perpendicular",
    "C04_distance_refuted"
   ],
   "note": "True for boxes with perpendicular sides and for points ordered alike along all axes; for all boxes the returned value is characterised exactly; refuted for triclinic boxes (finding: getDistance2 drops the signs of relative coordinates)."
  },
  {
   "property": "C05",
   "status": "proved",
   "theorems": [
    "C05_volume",
    "C05_heights",
    "C05_scale_sides",
    "C05_scale"
   ],
   "note": ""
  },
  {
   "property": "C06",
   "status": "proved",
   "theorems": [
    "C06_contents",
    "C06_positions"
   ],
   "note": ""
  },
  {
   "property": "C07",
   "status": "proved",
   "theorems": [
    "C07_complete"
   ],
   "note": ""
  },
  {
   "property": "C08",
   "status": "proved",
   "theorems": [
    "C08_views",
    "C08_half"
   ],
   "note": ""
  },
  {
   "property": "C09",
   "status": "proved",
   "theorems": [
    "C09_resize_as_fresh",
    "C09_resize_result"
   ],
   "note": ""
  },
  {
   "property": "C10",
   "status": "proved",
   "theorems": [
    "C10_count",
    "C10_energy",
    "C10_grid_or_not",
    "C10_narrow_refuted"
   ],
   "note": "The unrestricted statement is refuted for narrow boxes (finding)."
  },
  {
   "property": "C11",
   "status": "proved",
   "theorems": [
    "C11_early_exit",
    "C11_schedules",
    "C11_no_endless_run"
   ],
   "note": ""
  },
  {
   "property": "C12",
   "status": "proved",
   "theorems": [
    "C12_cached",
    "C12_histories_run"
   ],
   "note": ""
  },
  {
   "property": "C13",
   "status": "proved",
   "theorems": [
    "C13_try",
    "C13_revert"
   ],
   "note": ""
  },
  {
   "property": "C14",
   "status": "proved",
   "theorems": [
    "C14_move",
    "C14_scaling",
    "C14_upscaling_refuted"
   ],
   "note": "The shortcut taken by scaling is refuted in skew boxes (finding)."
  },
  {
   "property": "C15",
   "status": "proved",
   "theorems": [
    "C15_in_box",
    "C15_translate_in_box"
   ],
   "note": ""
  },
  {
   "property": "C16",
   "status": "proved",
   "theorems": [
    "C16_schedules",
    "C16_cells"
   ],
   "note": ""
  },
  {
   "property": "C17",
   "status": "proved",
   "theorems": [
    "C17_decomposition",
    "C17_separated",
    "C17_nonempty",
    "C17_legal"
   ],
   "note": ""
  },
  {
   "property": "C18",
   "status": "proved",
   "theorems": [
    "C18_listed",
    "C18_one_domain"
   ],
   "note": ""
  },
  {
   "property": "C19",
   "status": "proved",
   "theorems": [
    "C19_retry",
    "C19_no_grid_refuted"
   ],
   "note": "Without a neighbour grid dividing into domains is undefined behaviour (finding, refuted)."
  },
  {
   "property": "C20",
   "status": "proved",
   "theorems": [
    "C20_rule",
    "C20_extremes",
    "C20_zero_refuted",
    "C20_cycle",
    "C20_run",
    "C20_no_overlaps",
    "C20_relaxed"
   ],
   "note": "C20_zero_refuted records a finding: for u = 0 overlapping moves are accepted."
  },
  {
   "property": "C21",
   "status": "proved",
   "theorems": [
    "C21_counters",
    "C21_requested",
    "C21_selection"
   ],
   "note": ""
  },
  {
   "property": "C22",
   "status": "proved",
   "theorems": [
    "C22_tuning",
    "C22_limits",
    "C22_maximum_refuted",
    "C22_displacement",
    "C22_displacement_step",
    "C22_translation",
    "C22_rotation",
    "C22_constructed"
   ],
   "note": "C22_maximum_refuted records a finding: the step may exceed its maximum by one increase; displacements do not."
  },
  {
   "property": "C23",
   "status": "proved",
   "theorems": [
    "C23_schedule",
    "C23_snapshots",
    "C23_total"
   ],
   "note": ""
  },
  {
   "property": "C24",
   "status": "proved",
   "theorems": [
    "C24_inherited",
    "C24_found",
    "C24_stays_disabled",
    "C24_complete_refuted"
   ],
   "note": "C24_complete_refuted records a finding: environments of later runs are not checked."
  },
  {
   "property": "C25",
   "status": "proved",
   "theorems": [
    "C25_renormalize",
    "C25_allowed_refuted",
    "C25_orthogonal",
    "C25_drift"
   ],
   "note": "C25_allowed_refuted records a finding: with allowed overlaps the fix is discarded."
  },
  {
   "property": "C26",
   "status": "proved",
   "theorems": [
    "C26_axis_angle",
    "C26_normalized",
    "C26_flip",
    "C26_involution",
    "C26_setup"
   ],
   "note": ""
  },
  {
   "property": "C27",
   "status": "proved",
   "theorems": [
    "C27_written",
    "C27_read_back",
    "C27_accepted"
   ],
   "note": ""
  },
  {
   "property": "C28",
   "status": "proved",
   "theorems": [
    "C28_append",
    "C28_continues",
    "C28_refused"
   ],
   "note": ""
  },
  {
   "property": "C29",
   "status": "proved",
   "theorems": [
    "C29_crash",
    "C29_size",
    "C29_report_refuted"
   ],
   "note": "C29_report_refuted records a finding: headerSnapshots of the auto-fix report is not set."
  },
  {
   "property": "C30",
   "status": "proved",
   "theorems": [
    "C30_player",
    "C30_belongs",
    "C30_defined",
    "C30_reset_refuted",
    "C30_wrong_size"
   ],
   "note": "C30_reset_refuted records a finding: reset of a closed player is undefined."
  },
  {
   "property": "C31",
   "status": "proved",
   "theorems": [
    "C31_truncated"
   ],
   "note": ""
  },
  {
   "property": "C32",
   "status": "proved",
   "theorems": [
    "C32_read_back",
    "C32_key_refused",
    "C32_old_box",
    "C32_flat_refused",
    "C32_empty_refuted",
    "C32_values_refuted"
   ],
   "note": "C32_empty_refuted and C32_values_refuted record findings: files without metadata cannot be read; empty, multi-line and space-led values do not survive."
  },
  {
   "property": "C33",
   "status": "proved",
   "theorems": [
    "C33_continues",
    "C33_runs",
    "C33_accepted",
    "C33_other_header",
    "C33_cut"
   ],
   "note": ""
  },
  {
   "property": "C34",
   "status": "proved",
   "theorems": [
    "C34_backwards",
    "C34_pieces",
    "C34_first_refuted"
   ],
   "note": "C34_first_refuted records a finding: an empty first line is never returned."
  },
  {
   "property": "C35",
   "status": "proved",
   "theorems": [
    "C35_canonical",
    "C35_layout",
    "C35_numbers_refuted"
   ],
   "note": "C35_canonical covers printed values of any depth; C35_layout any layout with white space and comments; the quirks of numbers are C35_numbers_refuted."
  },
  {
   "property": "C36",
   "status": "proved",
   "theorems": [
    "C36_total",
    "C36_sound",
    "C36_duplicate_key",
    "C36_duplicate_keyword",
    "C36_positional_after_keyword"
   ],
   "note": ""
  },
  {
   "property": "C37",
   "status": "proved",
   "theorems": [
    "C37_bound",
    "C37_class",
    "C37_errors",
    "C37_quiet",
    "C37_declared",
    "C37_repeated_names_refuted"
   ],
   "note": "Full. Declarations with repeated names: refuted, see C37_repeated_names_refuted."
  },
  {
   "property": "C38",
   "status": "proved",
   "theorems": [
    "C38_alternative",
    "C38_together",
    "C38_typed",
    "C38_nested_refuted",
    "C38_array",
    "C38_dictionary",
    "C38_dictionary_node",
    "C38_scalars"
   ],
   "note": "Full for variants which match only the types they declare (all matchers of single types do). Nested variants: refuted, see C38_nested_refuted."
  },
  {
   "property": "C39",
   "status": "proved",
   "theorems": [
    "C39_segment",
    "C39_unique",
    "C39_outside",
    "C39_refused",
    "C39_shifted",
    "C39_values",
    "C39_long_refuted"
   ],
   "note": "Full, for starts below 2^63; larger starts: refuted, see C39_long_refuted."
  },
  {
   "property": "C40",
   "status": "proved",
   "theorems": [
    "C40_parts",
    "C40_refused",
    "C40_shapes",
    "C40_sites",
    "C40_total_range",
    "C40_lawful",
    "C40_reach"
   ],
   "note": ""
  },
  {
   "property": "C41",
   "status": "proved",
   "theorems": [
    "C41_repulsive",
    "C41_core",
    "C41_lawful",
    "C41_built",
    "C41_lennard_jones",
    "C41_truncation_refuted"
   ],
   "note": "Full for the repulsive potentials (real arithmetic; at distance 0 the C++ value is infinite or NaN). Truncation of Lennard-Jones: refuted, see C41_truncation_refuted."
  },
  {
   "property": "C42",
   "status": "proved",
   "theorems": [
    "C42_parse",
    "C42_dangling",
    "C42_delimiter",
    "C42_fields",
    "C42_once",
    "C42_section",
    "C42_section_missing",
    "C42_root_refuted"
   ],
   "note": "C42_root_refuted records a finding: a root section without fields of its own cannot be fetched."
  },
  {
   "property": "C43",
   "status": "proved",
   "theorems": [
    "C43_back",
    "C43_missing",
    "C43_refused",
    "C43_order",
    "C43_negative_refuted"
   ],
   "note": "C43_negative_refuted records a finding: a negative component is accepted modulo 2^64."
  },
  {
   "property": "C44",
   "status": "proved",
   "theorems": [
    "C44_explode_implode",
    "C44_implode_explode",
    "C44_explode",
    "C44_implode",
    "C44_replace",
    "C44_empty_refuted",
    "C44_trim",
    "C44_ends"
   ],
   "note": "C44_empty_refuted records a finding: replaceAll never ends for the empty search string."
  },
  {
   "property": "C45",
   "status": "proved",
   "theorems": [
    "C45_created",
    "C45_bin",
    "C45_out_of_range",
    "C45_flat",
    "C45_index",
    "C45_middles",
    "C45_dividers",
    "C45_sums",
    "C45_counted",
    "C45_threads",
    "C45_number_of_threads",
    "C45_initial_value_refuted",
    "C45_dumped",
    "C45_cleared"
   ],
   "note": "Values are real numbers. With an initial value different from zero the result depends on the number of threads (C45_initial_value_refuted); in the program it is always zero."
  },
  {
   "property": "C46",
   "status": "proved",
   "theorems": [
    "C46_nearest",
    "C46_enough",
    "C46_order",
    "C46_range",
    "C46_perfect",
    "C46_isolated_refuted",
    "C46_plane",
    "C46_no_plane_refuted",
    "C46_wave_vector"
   ],
   "note": "Two findings: particles with too few neighbours are not skipped (C46_isolated_refuted) and the plane is not a number for Miller indices opposite to an axis (C46_no_plane_refuted). The angle of the layering phase is a parameter."
  },
  {
   "property": "C47",
   "status": "proved",
   "theorems": [
    "C47_one_of_two",
    "C47_once",
    "C47_greatest",
    "C47_opposite",
    "C47_images",
    "C47_wave_vector",
    "C47_bound",
    "C47_density",
    "C47_normalisation_refuted",
    "C47_refused"
   ],
   "note": "Finding: the sum is divided by the volume, not by the number of particles as documented (C47_density, C47_normalisation_refuted); the wave vector keeps its previous value when all parameters are zero."
  },
  {
   "property": "C48",
   "status": "proved",
   "theorems": [
    "C48_eigenvalues",
    "C48_tensor",
    "C48_P2",
    "C48_perfect",
    "C48_isotropic_refuted"
   ],
   "note": "Finding: the assertion p > 0 fails for an isotropic sample (C48_isotropic_refuted). Real arithmetic, so the branch for |ratio| slightly above 1 is never taken."
  },
  {
   "property": "C49",
   "status": "proved",
   "theorems": [
    "C49_corrupted",
    "C49_all_finished",
    "C49_later_performed",
    "C49_scratch",
    "C49_previous",
    "C49_continue",
    "C49_never_refused",
    "C49_completes",
    "C49_by_name",
    "C49_unknown_name",
    "C49_continue_name",
    "C49_averaging_refuted",
    "C49_stuck_refuted",
    "C49_relaxation_refuted",
    "C49_no_output_refuted"
   ],
   "note": "Findings: a run interrupted twice during averaging counts as finished (C49_averaging_refuted); with fewer cycles left than between snapshots the run can never be continued (C49_stuck_refuted); an interrupted overlap relaxation counts as finished (C49_relaxation_refuted); starting by name after a run without RAMSNAP output is undefined behaviour (C49_no_output_refuted)."
  },
  {
   "property": "C50",
   "status": "proved",
   "theorems": [
    "C50_accepted",
    "C50_configured",
    "C50_nothing_scaled_refuted"
   ],
   "note": "C50_nothing_scaled_refuted is the defect described at the end of the statement."
  },
  {
   "property": "C51",
   "status": "proved",
   "theorems": [
    "C51_log",
    "C51_linear",
    "C51_linear_too_far",
    "C51_delta_v",
    "C51_delta_v_triclinic_refuted",
    "C51_delta_v_reflected_refuted",
    "C51_delta_triclinic",
    "C51_delta_triclinic_refused"
   ],
   "note": "C51_delta_v_triclinic_refuted and C51_delta_v_reflected_refuted are the defects described at the end of the statement."
  },
  {
   "property": "C52",
   "status": "proved",
   "theorems": [
    "C52_cells",
    "C52_box",
    "C52_generated",
    "C52_size",
    "C52_serial",
    "C52_axis_order",
    "C52_random",
    "C52_is_normalized",
    "C52_normalized",
    "C52_untouched"
   ],
   "note": ""
  },
  {
   "property": "C53",
   "status": "proved",
   "theorems": [
    "C53_enough",
    "C53_result",
    "C53_terminates",
    "C53_never_ends",
    "C53_every_box_refuted"
   ],
   "note": "The part about every box is false: C53_every_box_refuted. C53_terminates and C53_never_ends say exactly for which boxes the loop ends; C53_enough and C53_result describe the returned dimensions."
  },
  {
   "property": "C54",
   "status": "proved",
   "theorems": [
    "C54_attained",
    "C54_close",
    "C54_minimum_refuted",
    "C54_point_refuted"
   ],
   "note": "value always attained; excess over the true distance bounded; exact minimality refuted by nearly parallel crossing segments and by degenerate second segments"
  },
  {
   "property": "C55",
   "status": "proved",
   "theorems": [
    "C55_shortcuts",
    "C55_sound",
    "C55_complete",
    "C55_exact_refuted",
    "C55_poly_sound",
    "C55_poly_complete"
   ],
   "note": "shortcuts never change the answer, overlap reported only for segments closer than the diameter, and always when they are closer by the error of the segment distance; exactness refuted by crossing spherocylinders"
  },
  {
   "property": "C56",
   "status": "proved",
   "theorems": [
    "C56_distance",
    "C56_monotone",
    "C56_axes",
    "C56_sphere"
   ],
   "note": ""
  },
  {
   "property": "C57",
   "status": "proved",
   "theorems": [
    "C57_quaternion",
    "C57_euler",
    "C57_gimbal_refuted"
   ],
   "note": "Both triples of Euler angles and the quaternion proved for all rotation matrices; C57_gimbal_refuted records that the gimbal lock branch is unreachable (finding)."
  },
  {
   "property": "C58",
   "status": "proved",
   "theorems": [
    "C58_count",
    "C58_early_exit",
    "C58_sphere",
    "C58_polysphere",
    "C58_spherocylinder",
    "C58_polyspherocylinder",
    "C58_narrow_refuted",
    "C58_left_handed_refuted"
   ],
   "note": "count proved for all histories when walls are not closer than the total range and the box is right-handed; both conditions shown necessary"
  },
  {
   "property": "C59",
   "status": "proved",
   "theorems": [
    "C59_statistics",
    "C59_few",
    "C59_order",
    "C59_units",
    "C59_error",
    "C59_samples"
   ],
   "note": ""
  },
  {
   "property": "C60",
   "status": "proved",
   "theorems": [
    "C60_table",
    "C60_aligned",
    "C60_inline",
    "C60_late",
    "C60_late_refuted"
   ],
   "note": "C60_late_refuted records a finding: an observable can be added after snapshots without columns, and then the table cannot be printed."
  },
  {
   "property": "C61",
   "status": "proved",
   "theorems": [
    "C61_polysphere",
    "C61_named_points",
    "C61_has_named_point",
    "C61_rigid",
    "C61_mass_centre",
    "C61_flip_axis",
    "C61_polyspherocylinder",
    "C61_wide_refuted",
    "C61_thin_refuted",
    "C61_secondary_axis_refuted",
    "C61_origin_name_refuted"
   ],
   "note": "The true part is proved in full; the three defects of the source are proved as refutations."
  },
  {
   "property": "C62",
   "status": "proved",
   "theorems": [
    "C62_sphere",
    "C62_beads",
    "C62_polyspheres",
    "C62_sphere_lawful",
    "C62_polysphere_lawful"
   ],
   "note": ""
  },
  {
   "property": "C63",
   "status": "proved",
   "theorems": [
    "C63_builder_accepts",
    "C63_builder_bodies",
    "C63_outer_ball_refuted",
    "C63_inner_ball_wrap_refuted",
    "C63_inner_ball_sum_refuted",
    "C63_short_direction_refuted",
    "C63_round_football_refuted"
   ],
   "note": "Full for scripts without the defects named in the statement, which are proved by the refuted theorems."
  },
  {
   "property": "C64",
   "status": "proved",
   "theorems": [
    "C64_answer_definite",
    "C64_no_missed_overlap",
    "C64_no_false_overlap",
    "C64_no_false_overlap_refuted",
    "C64_range_radius",
    "C64_wall"
   ],
   "note": "The claim about reported overlaps is proved for configurations without ties, and refuted with a tie (C64_no_false_overlap_refuted). Termination of the loops is not claimed."
  },
  {
   "property": "C65",
   "status": "proved",
   "theorems": [
    "C65_cap",
    "C65_intersection",
    "C65_intersection_refuted",
    "C65_kmer",
    "C65_wedge",
    "C65_lollipop",
    "C65_lollipop_refuted"
   ],
   "note": "Volumes are integrals of cross-section areas (Coquelicot's is_RInt). Two defects are proved as _refuted theorems: the volume of nested balls and of lollipops with a deep tip."
  },
  {
   "property": "C66",
   "status": "proved",
   "theorems": [
    "C66_smooth",
    "C66_polyhedral",
    "C66_polyhedral_refuted"
   ],
   "note": "The exact condition of acceptance is part of the theorems; the accepted negative sides are C66_polyhedral_refuted and the refused tie is shown in an Example."
  },
  {
   "property": "C67",
   "status": "proved",
   "theorems": [
    "C67_enumerated",
    "C67_linear_distance",
    "C67_expected",
    "C67_density",
    "C67_averaged",
    "C67_evolution",
    "C67_normalized",
    "C67_functions",
    "C67_linear_refuted",
    "C67_first_bin",
    "C67_self_refuted",
    "C67_s221_refuted",
    "C67_single_layer_refuted"
   ],
   "note": "All claims are proved of the model as amended; C67_linear_refuted, C67_self_refuted, C67_s221_refuted and C67_single_layer_refuted show where the source departs from its documentation."
  },
  {
   "property": "C68",
   "status": "proved",
   "theorems": [
    "C68_created",
    "C68_density",
    "C68_density_total",
    "C68_place",
    "C68_values",
    "C68_average",
    "C68_one_thread",
    "C68_parallel_counts",
    "C68_average_threads_refuted"
   ],
   "note": "Averages are proved for schedules in which iterations exclude each other (always so with one thread) and refuted for two threads by C68_average_threads_refuted; numbers of particles are proved for every schedule."
  },
  {
   "property": "C69",
   "status": "proved",
   "theorems": [
    "C69_create",
    "C69_waves",
    "C69_three_waves",
    "C69_three_waves_refuted"
   ],
   "note": "Three waves are proved for solvable equations; C69_three_waves_refuted shows that one particle, for which the equation degenerates to 0 = 0, is not handled by the source."
  },
  {
   "property": "C70",
   "status": "proved",
   "theorems": [
    "C70_layers",
    "C70_layerwise",
    "C70_layers_refused",
    "C70_columns",
    "C70_columns_refused",
    "C70_flips",
    "C70_flips_refused",
    "C70_rotations",
    "C70_rotations_refused"
   ],
   "note": ""
  },
  {
   "property": "C71",
   "status": "proved",
   "theorems": [
    "C71_neighbours",
    "C71_hcp_layers",
    "C71_hexagonal_layers",
    "C71_molecules",
    "C71_centred",
    "C71_box",
    "C71_balls"
   ],
   "note": ""
  },
  {
   "property": "C72",
   "status": "proved",
   "theorems": [
    "C72_input",
    "C72_cells",
    "C72_box",
    "C72_shapes",
    "C72_shapes_terminates",
    "C72_number_of_shapes_refuted",
    "C72_number_of_shapes",
    "C72_packing",
    "C72_full",
    "C72_serial",
    "C72_serial_auto",
    "C72_random"
   ],
   "note": "the exact number of shapes for a given n_shapes is refuted; all other claims are proved"
  },
  {
   "property": "C73",
   "status": "proved",
   "theorems": [
    "C73_shrink_packing",
    "C73_optimize_cell"
   ],
   "note": ""
  },
  {
   "property": "C74",
   "status": "proved",
   "theorems": [
    "C74_optimize_layers",
    "C74_layers_tangent_refuted"
   ],
   "note": "Layers are proved to be tangent to the former position of the previous layer; that they are tangent to each other is refuted for three layers of hard spheres."
  },
  {
   "property": "C75",
   "status": "proved",
   "theorems": [
    "C75_spheres",
    "C75_rods",
    "C75_origin_outside",
    "C75_open",
    "C75_checks_refused",
    "C75_legacy",
    "C75_mass_centre_refuted",
    "C75_no_mass_centre_refuted",
    "C75_volume_refuted",
    "C75_legacy_symmetry_refuted"
   ],
   "note": "Parenthesised defects are the four refuted theorems. That the volume of the banana of spherocylinders is that of the union is not claimed: the theorem gives the parts it is made of."
  },
  {
   "property": "C76",
   "status": "proved",
   "theorems": [
    "C76_replay",
    "C76_interrupted",
    "C76_refused",
    "C76_bulk_name",
    "C76_input_spared",
    "C76_overwritten_refuted",
    "C76_same_parameters",
    "C76_unfinished_refuted",
    "C76_checked",
    "C76_last_cycle_refuted",
    "C76_nothing_refuted",
    "C76_fix_size_refuted"
   ],
   "note": "Outputs are what is given to recorders, collectors and writers; their texts are not modelled here, apart from RAMTRJ. Five defects are proved as refuted theorems."
  },
  {
   "property": "C77",
   "status": "proved",
   "theorems": [
    "C77_read",
    "C77_started",
    "C77_pieces",
    "C77_later_run_refuted",
    "C77_averaging_every_refuted",
    "C77_array_version_refuted",
    "C77_single_piece_refuted"
   ],
   "note": "exact acceptance and meaning of input files; the findings on later runs, negative averaging periods, array versions and single pieces are proved as refutations"
  },
  {
   "property": "C78",
   "status": "proved",
   "theorems": [
    "C78_snapshot",
    "C78_recorded",
    "C78_appended",
    "C78_continued",
    "C78_continued_refuted",
    "C78_reopened",
    "C78_refused",
    "C78_misused",
    "C78_interrupted",
    "C78_interrupted_refuted",
    "C78_quotes_refuted"
   ],
   "note": "continued recordings in files, interrupted snapshots and quotation marks in values are refuted separately"
  },
  {
   "property": "C79",
   "status": "proved",
   "theorems": [
    "C79_directions",
    "C79_refined",
    "C79_mesh",
    "C79_triangles",
    "C79_refused",
    "C79_moved",
    "C79_moved_volume",
    "C79_moved_volume_refuted"
   ],
   "note": "The volume of a rotated mesh is refuted (the centre is not rotated), and proved when the rotation fixes the centre. QuickHull is a parameter."
  },
  {
   "property": "C80",
   "status": "proved",
   "theorems": [
    "C80_standard",
    "C80_affine",
    "C80_exponent_refuted",
    "C80_obj"
   ],
   "note": "Spheres with coordinates printed with an exponent are refuted. Printing of numbers is a parameter."
  },
  {
   "property": "C81",
   "status": "proved",
   "theorems": [
    "C81_geometry_accepted",
    "C81_geometry_bodies",
    "C81_shape_accepted",
    "C81_shape",
    "C81_axes_unit",
    "C81_axes_refuted",
    "C81_position_refuted"
   ],
   "note": "Refuted parts: C81_axes_refuted (opposite axes accepted) and C81_position_refuted (position and rotation of an outermost primitive ignored)."
  },
  {
   "property": "C82",
   "status": "proved",
   "theorems": [
    "C82_words",
    "C82_layout",
    "C82_fields",
    "C82_command",
    "C82_processed",
    "C82_command_words",
    "C82_command_missing",
    "C82_superfluous_refuted",
    "C82_negative_refuted",
    "C82_convex",
    "C82_polysphere",
    "C82_polyspherocylinder",
    "C82_numbers",
    "C82_dropped_refuted"
   ],
   "note": "Refuted parts: superfluous arguments, negative counts and things which are not numbers are accepted (C82_superfluous_refuted, C82_negative_refuted, C82_dropped_refuted). Reading of doubles is a parameter."
  },
  {
   "property": "C83",
   "status": "proved",
   "theorems": [
    "C83_arranged",
    "C83_accepted",
    "C83_inside",
    "C83_apart",
    "C83_mirrored",
    "C83_default",
    "C83_default_accepted",
    "C83_default_refuted",
    "C83_alternate_refuted"
   ],
   "note": "the default lattice of an odd size with opposite polarisation, and an odd number of layers of opposite clinicity: refuted"
  },
  {
   "property": "C84",
   "status": "proved",
   "theorems": [
    "C84_move",
    "C84_parameter",
    "C84_nested",
    "C84_scaler",
    "C84_direction",
    "C84_ignored_refuted",
    "C84_negative_refuted"
   ],
   "note": "superfluous words and negative numbers of flips are accepted (C84_ignored_refuted, C84_negative_refuted); inner piecewise parameters have one piece (C84_nested). Reading of doubles is a parameter; numbers out of range are not modelled."
  },
  {
   "property": "C85",
   "status": "proved",
   "theorems": [
    "C85_box",
    "C85_written",
    "C85_order_refuted",
    "C85_spaces_refuted",
    "C85_clinicity_refuted"
   ],
   "note": "keywords are looked for anywhere in the text (C85_order_refuted, C85_spaces_refuted, C85_clinicity_refuted). Reading of doubles and find_minimal_distances are parameters; other arrangement types (lattices, presimulated) are not modelled here."
  }
 ]
}