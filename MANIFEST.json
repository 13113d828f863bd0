{
 "claims": [
  {
   "property": "C01",
   "status": "proved",
   "theorems": [
    "C01_union_least_upper_bound"
   ],
   "note": ""
  },
  {
   "property": "C02",
   "status": "proved",
   "theorems": [
    "C02_inside_exact",
    "C02_overlaps_exact",
    "C02_expand_covers",
    "C02_measures_monotone",
    "C02_maximum_extent_maximal"
   ],
   "note": ""
  },
  {
   "property": "C03",
   "status": "partial",
   "theorems": [
    "C03_copy_faithful_partial",
    "C03_copy_empty_refuted",
    "C03_ne_self_refuted",
    "C203_eq_correct"
   ],
   "note": "Faithful for every box with ordered corners. Missing (false of the code): the copy of the empty box is all of space; b != b is True unless b is one point. The true clauses are also stated on their own as C203."
  },
  {
   "property": "C04",
   "status": "partial",
   "theorems": [
    "C04_slab_test_exact_partial",
    "C04_slab_interval_exact_partial",
    "C04_negative_zero_refuted"
   ],
   "note": "Exact, with the exact interval, for all boxes and rays except that a zero direction component must not be IEEE -0.0 while the origin lies on a face plane of that axis; with -0.0 there the test misses (proved)."
  },
  {
   "property": "C05",
   "status": "proved",
   "theorems": [
    "C05_lerp_offset_inverse",
    "C05_offset_lerp_inverse",
    "C05_lerp_in_box",
    "C05_bounding_sphere_contains",
    "C05_bounding_sphere_least",
    "C05_bounding_sphere_inverted"
   ],
   "note": ""
  },
  {
   "property": "C06",
   "status": "proved",
   "theorems": [
    "C06_normalize",
    "C06_coordinate_system_orthonormal",
    "C06_face_forward",
    "C06_spherical_round_trip",
    "C06_frames"
   ],
   "note": ""
  },
  {
   "property": "C07",
   "status": "partial",
   "theorems": [
    "C07_sah_total_partial",
    "C07_middle_refuted",
    "C07_large_leaf_refuted",
    "C07_equal_refuted",
    "C07_method_names",
    "C195_no_primitive_lost"
   ],
   "note": "Total for the default method with max_prim <= 4. Missing (false of the code): 'middle' raises AssertionError, max_prim >= 5 raises TypeError, 'equal' raises AttributeError. The true clauses are also stated on their own as C195."
  },
  {
   "property": "C08",
   "status": "proved",
   "theorems": [
    "C08_bounds_enclose",
    "C08_world_bound"
   ],
   "note": ""
  },
  {
   "property": "C09",
   "status": "proved",
   "theorems": [
    "C09_layout",
    "C09_indices_in_range"
   ],
   "note": ""
  },
  {
   "property": "C10",
   "status": "partial",
   "theorems": [
    "C10_nearest_partial",
    "C10_nearest_height_partial",
    "C10_any_partial",
    "C10_empty",
    "C10_stack_overflow_refuted"
   ],
   "note": "Proved for all primitive sets whose tree height fits the 64-entry stack (in particular up to 65 primitives) and rays without negative-zero components that do not lie on an x face plane. Missing (false of the code): deeper trees overflow the stack."
  },
  {
   "property": "C11",
   "status": "partial",
   "theorems": [
    "C11_box_test_conservative_partial",
    "C11_on_face_refuted",
    "C11_negative_zero_refuted"
   ],
   "note": "Proved except for rays parallel to the x slabs starting on an x face, and negative-zero components; both exceptions are real misses (proved)."
  },
  {
   "property": "C12",
   "status": "proved",
   "theorems": [
    "C12_round_trip",
    "C12_matrix",
    "C12_inverse_involution"
   ],
   "note": ""
  },
  {
   "property": "C13",
   "status": "proved",
   "theorems": [
    "C13_composition",
    "C13_ray_moves_with_transform",
    "C13_translate"
   ],
   "note": ""
  },
  {
   "property": "C14",
   "status": "proved",
   "theorems": [
    "C14_normals_stay_perpendicular"
   ],
   "note": ""
  },
  {
   "property": "C15",
   "status": "partial",
   "theorems": [
    "C15_bbox_image_partial",
    "C15_bbox_image_refuted"
   ],
   "note": "Holds exactly for transforms whose linear part has no negative entry (that condition is shown necessary); false for e.g. rotations."
  },
  {
   "property": "C16",
   "status": "partial",
   "theorems": [
    "C16_look_at_position_partial",
    "C16_look_at_direction_refuted"
   ],
   "note": "Position proved. Missing (false of the code): it is the inverse transform that carries +z to the viewing direction."
  },
  {
   "property": "C17",
   "status": "partial",
   "theorems": [
    "C17_motion_bounds_translation_partial",
    "C17_motion_bounds_static_refuted",
    "C196_clamped_before",
    "C196_clamped_after",
    "C196_static_is_constant"
   ],
   "note": "Motion bounds proved for pure translations; false for a non-animated transform. The true clauses are also stated on their own as C196."
  },
  {
   "property": "C18",
   "status": "partial",
   "theorems": [
    "C18_half_turns_partial",
    "C18_x_half_turn_refuted",
    "C18_slerp_partial",
    "C18_from_matrix_refuted",
    "C197_unit_quaternion_is_rotation"
   ],
   "note": "slerp proved; conversion from a rotation matrix is wrong (proved). The true clauses are also stated on their own as C197."
  },
  {
   "property": "C19",
   "status": "partial",
   "theorems": [
    "C19_domains_partial",
    "C19_cone_without_frame_refuted",
    "C206_rejection"
   ],
   "note": "All samplers but the frameless cone, which raises for every input. The true clauses are also stated on their own as C206."
  },
  {
   "property": "C20",
   "status": "partial",
   "theorems": [
    "C20_upper_hemisphere_partial",
    "C20_cosine_law_refuted"
   ],
   "note": "Unit vectors of the upper hemisphere. Missing (false of the code): the cosine is uniform instead of having density 2z."
  },
  {
   "property": "C21",
   "status": "proved",
   "theorems": [
    "C21_heuristics"
   ],
   "note": ""
  },
  {
   "property": "C22",
   "status": "partial",
   "theorems": [
    "C22_sample_cont_partial",
    "C22_sample_cont_zero_partial",
    "C22_sample_cont_zero_refuted",
    "C198_cdf_table",
    "C198_pdf_integrates",
    "C198_sample_dis"
   ],
   "note": "Continuous sampling proved for variates in (0,1], and for 0 if the first entry is positive; variate 0 with a leading zero entry gives NaN (proved). The true clauses are also stated on their own as C198."
  },
  {
   "property": "C23",
   "status": "partial",
   "theorems": [
    "C23_sample_partial",
    "C23_second_coordinate_refuted",
    "C23_density_refuted",
    "C199_pdf"
   ],
   "note": "Row index and density right away from the cumulative entries. Missing (false of the code): the second coordinate is the row index, and the density at a cumulative entry is another row's. The true clauses are also stated on their own as C199."
  },
  {
   "property": "C24",
   "status": "proved",
   "theorems": [
    "C24_raster_order_once"
   ],
   "note": ""
  },
  {
   "property": "C25",
   "status": "proved",
   "theorems": [
    "C25_strata"
   ],
   "note": ""
  },
  {
   "property": "C26",
   "status": "partial",
   "theorems": [
    "C26_partition_partial",
    "C26_tile_is_window_partial",
    "C26_crop_window_lost_refuted",
    "C26_fractional_tile_refuted"
   ],
   "note": "Windows containing pixel (0,0), tiles that divide the window. Missing (false of the code): crop windows starting later are dropped; a tile of fractional width runs past its window."
  },
  {
   "property": "C27",
   "status": "proved",
   "theorems": [
    "C27_footprint",
    "C27_table_index"
   ],
   "note": ""
  },
  {
   "property": "C28",
   "status": "proved",
   "theorems": [
    "C28_order"
   ],
   "note": ""
  },
  {
   "property": "C29",
   "status": "partial",
   "theorems": [
    "C29_narrow_partial",
    "C29_border_refuted",
    "C200_locked"
   ],
   "note": "Narrow filters: safe when each pixel's samples belong to one thread and no sample lies on a pixel border; a border sample of the half-pixel box filter can lose another thread's update (proved). Wide filters: see C200. The true clauses are also stated on their own as C200."
  },
  {
   "property": "C30",
   "status": "proved",
   "theorems": [
    "C30_average",
    "C30_any_filter"
   ],
   "note": ""
  },
  {
   "property": "C31",
   "status": "partial",
   "theorems": [
    "C31_crop_partial",
    "C31_vertical_crop_refuted",
    "C201_nonempty",
    "C201_sample_extent"
   ],
   "note": "Square images or crops that start at the top. Missing (false of the code): other vertical crops use the horizontal resolution. The true clauses are also stated on their own as C201."
  },
  {
   "property": "C32",
   "status": "proved",
   "theorems": [
    "C32_filters",
    "C32_mitchell_unity",
    "C32_mitchell_tiling",
    "C32_lanczos_zeros",
    "C32_lanczos_lobe"
   ],
   "note": ""
  },
  {
   "property": "C33",
   "status": "partial",
   "theorems": [
    "C33_hit_and_range_partial",
    "C33_any_hit_partial",
    "C33_record_refuted"
   ],
   "note": "The flag and ray.maxt are right; the record is that of the first primitive met, which need not be the nearest (proved)."
  },
  {
   "property": "C34",
   "status": "proved",
   "theorems": [
    "C34_full_refine"
   ],
   "note": ""
  },
  {
   "property": "C35",
   "status": "proved",
   "theorems": [
    "C35_construction",
    "C35_registration",
    "C35_positions"
   ],
   "note": ""
  },
  {
   "property": "C36",
   "status": "proved",
   "theorems": [
    "C36_triangle_sound",
    "C36_triangle_complete",
    "C36_shadow_agrees",
    "C36_triangle_bound",
    "C36_object_bound"
   ],
   "note": ""
  },
  {
   "property": "C37",
   "status": "partial",
   "theorems": [
    "C37_sample_partial",
    "C37_sample_refuted",
    "C37_sample_crash_refuted",
    "C202_area"
   ],
   "note": "Holds for faces whose second vertex index is the first plus one (the sampler reads vertex i+1, not the face's second vertex); otherwise it can sample another triangle or raise (proved). The true clauses are also stated on their own as C202."
  },
  {
   "property": "C38",
   "status": "proved",
   "theorems": [
    "C38_sphere",
    "C38_shadow_agrees",
    "C38_small_spheres_invisible",
    "C38_parameters"
   ],
   "note": ""
  },
  {
   "property": "C39",
   "status": "proved",
   "theorems": [
    "C39_disk",
    "C39_cylinder",
    "C39_angle_range"
   ],
   "note": ""
  },
  {
   "property": "C40",
   "status": "proved",
   "theorems": [
    "C40_every_level_is_a_surface",
    "C40_one_level_splits_every_triangle",
    "C40_edges_exist"
   ],
   "note": ""
  },
  {
   "property": "C41",
   "status": "proved",
   "theorems": [
    "C41_frame"
   ],
   "note": ""
  },
  {
   "property": "C42",
   "status": "proved",
   "theorems": [
    "C42_matching",
    "C42_selection",
    "C42_evaluation",
    "C42_density"
   ],
   "note": ""
  },
  {
   "property": "C43",
   "status": "proved",
   "theorems": [
    "C43_lobes",
    "C43_bsdf"
   ],
   "note": ""
  },
  {
   "property": "C44",
   "status": "proved",
   "theorems": [
    "C44_fraction"
   ],
   "note": ""
  },
  {
   "property": "C45",
   "status": "proved",
   "theorems": [
    "C45_mirror",
    "C45_transmission"
   ],
   "note": ""
  },
  {
   "property": "C46",
   "status": "proved",
   "theorems": [
    "C46_sampling",
    "C46_lambertian_estimate"
   ],
   "note": ""
  },
  {
   "property": "C47",
   "status": "proved",
   "theorems": [
    "C47_round_trip",
    "C47_linear",
    "C47_luminance",
    "C47_coefficientwise"
   ],
   "note": ""
  },
  {
   "property": "C48",
   "status": "proved",
   "theorems": [
    "C48_mean",
    "C48_area_is_an_integral"
   ],
   "note": ""
  },
  {
   "property": "C49",
   "status": "partial",
   "theorems": [
    "C49_blocks_partial",
    "C49_contents_refuted"
   ],
   "note": "Stacks, current set and graphics state restored; the transforms' contents are not (proved: begin/end have no effect on them)."
  },
  {
   "property": "C50",
   "status": "proved",
   "theorems": [
    "C50_session",
    "C50_setters",
    "C50_values",
    "C50_defaults",
    "C50_history",
    "C50_fresh_state",
    "C50_lower"
   ],
   "note": ""
  },
  {
   "property": "C51",
   "status": "proved",
   "theorems": [
    "C51_fifo",
    "C51_unknown_type"
   ],
   "note": ""
  },
  {
   "property": "C52",
   "status": "proved",
   "theorems": [
    "C52_path_terminates",
    "C52_recursion_terminates",
    "C52_world_terminates"
   ],
   "note": ""
  },
  {
   "property": "C53",
   "status": "partial",
   "theorems": [
    "C53_sane_partial",
    "C53_infinite_refuted"
   ],
   "note": "Proved unless the radiance has components of both infinite signs; such a value reaches the film (proved)."
  },
  {
   "property": "C54",
   "status": "proved",
   "theorems": [
    "C54_shadow_segment"
   ],
   "note": ""
  },
  {
   "property": "C55",
   "status": "proved",
   "theorems": [
    "C55_inverse_square"
   ],
   "note": ""
  },
  {
   "property": "C56",
   "status": "proved",
   "theorems": [
    "C56_repeat",
    "C56_repeat_periodic",
    "C56_clamp",
    "C56_black"
   ],
   "note": ""
  },
  {
   "property": "C57",
   "status": "proved",
   "theorems": [
    "C57_lookup_in_range",
    "C57_constant",
    "C57_footprint"
   ],
   "note": ""
  },
  {
   "property": "C58",
   "status": "proved",
   "theorems": [
    "C58_constant_scale",
    "C58_mix",
    "C58_bilerp",
    "C58_uv"
   ],
   "note": ""
  },
  {
   "property": "C59",
   "status": "proved",
   "theorems": [
    "C59_phase_positive",
    "C59_phase_symmetric",
    "C59_phase_normalised",
    "C59_hg_forward"
   ],
   "note": ""
  },
  {
   "property": "C60",
   "status": "proved",
   "theorems": [
    "C60_homogeneous_tau",
    "C60_tau_additive",
    "C60_tau_nonneg"
   ],
   "note": ""
  },
  {
   "property": "C61",
   "status": "proved",
   "theorems": [
    "C61_powers",
    "C61_rounding",
    "C61_tolerances",
    "C61_lerp"
   ],
   "note": ""
  },
  {
   "property": "C62",
   "status": "partial",
   "theorems": [
    "C62_raydiff_main_ray_partial",
    "C62_raydiff_offsets_refuted"
   ],
   "note": "Main ray only; the offset rays stay in the old space."
  },
  {
   "property": "C63",
   "status": "proved",
   "theorems": [
    "C63_sampling_laws",
    "C63_hg_density",
    "C63_cone_density",
    "C63_cosine_density",
    "C63_hemisphere_density",
    "C63_sphere_density",
    "C63_azimuth"
   ],
   "note": ""
  },
  {
   "property": "C64",
   "status": "proved",
   "theorems": [
    "C64_requests"
   ],
   "note": ""
  },
  {
   "property": "C65",
   "status": "partial",
   "theorems": [
    "C65_hue_refuted",
    "C65_crop_refuted",
    "C204_bytes",
    "C204_positions"
   ],
   "note": "Hue and crop parts are false: channels are scaled separately, and a cropped render is never written (bytes and order: C204). The true clauses are also stated on their own as C204."
  },
  {
   "property": "C66",
   "status": "partial",
   "theorems": [
    "C66_walk_sound_partial",
    "C66_any_sound_partial",
    "C66_missed_hit_refuted",
    "C66_starts_in_box_partial",
    "C66_unit_steps_partial",
    "C66_unit_steps_any_partial"
   ],
   "note": "Terminates, in range, reports only real hits; misses hits because the step formula is misparenthesised (proved). It finds the nearest hit for rays starting in the box of a primitive they hit and for rays whose direction components are 1, or 0 with a negative coordinate, the only ones for which the formula is right."
  },
  {
   "property": "C67",
   "status": "proved",
   "theorems": [
    "C67_lazy_refinement_safe",
    "C67_no_deadlock"
   ],
   "note": ""
  },
  {
   "property": "C68",
   "status": "partial",
   "theorems": [
    "C68_disk_full_partial",
    "C68_disk_full_refuted",
    "C68_cylinder_full_refuted"
   ],
   "note": "Disks: the full and the shadow test agree, and the hit is right, except that a hit within the hole-centre region (squared radius at most the inner radius, e.g. the centre) raises; every cylinder hit raises (proved)."
  },
  {
   "property": "C69",
   "status": "partial",
   "theorems": [
    "C69_attributes_partial",
    "C69_shared_vertices_refuted",
    "C69_wrong_values_refuted",
    "C69_shading_ignored_refuted"
   ],
   "note": "Holds for faces listing vertices 3f, 3f+1, 3f+2; otherwise the (u,v) of other vertices are used (proved); normals without tangents have no effect (proved)."
  },
  {
   "property": "C70",
   "status": "partial",
   "theorems": [
    "C70_full_disk_sample_partial",
    "C70_partial_disk_sample_refuted",
    "C70_disk_normal_refuted",
    "C70_sphere_sample_refuted",
    "C70_reversed_partial",
    "C205_uniform",
    "C205_onto",
    "C205_cylinder_sample"
   ],
   "note": "Full disks: point. Missing (false of the code): partial disks, disk normals, spheres. The true clauses are also stated on their own as C205."
  },
  {
   "property": "C71",
   "status": "proved",
   "theorems": [
    "C71_sphere_normal",
    "C71_triangle_normal",
    "C71_triangle_tangents",
    "C71_shading_frame",
    "C71_differentials",
    "C71_no_differentials",
    "C71_shading_weights",
    "C71_shading_derivatives"
   ],
   "note": ""
  },
  {
   "property": "C72",
   "status": "proved",
   "theorems": [
    "C72_construction",
    "C72_faces",
    "C72_bound",
    "C72_flat_points",
    "C72_object_bound"
   ],
   "note": ""
  },
  {
   "property": "C73",
   "status": "partial",
   "theorems": [
    "C73_u_range_partial",
    "C73_v_range_refuted"
   ],
   "note": "u proved; v leaves [0,1] for some spheres (proved)."
  },
  {
   "property": "C74",
   "status": "partial",
   "theorems": [
    "C74_large_index_rejected_partial",
    "C74_negative_index_refuted"
   ],
   "note": "Too large indices rejected; negative indices are accepted and wrap around (proved)."
  },
  {
   "property": "C75",
   "status": "proved",
   "theorems": [
    "C75_object_bounds",
    "C75_distinct_ids",
    "C75_primitive_ids"
   ],
   "note": ""
  },
  {
   "property": "C76",
   "status": "partial",
   "theorems": [
    "C76_round_trip_partial",
    "C76_round_trip_refuted"
   ],
   "note": "Identity exactly when the frame consists of world axes; false otherwise (l2w multiplies by the wrong matrix)."
  },
  {
   "property": "C77",
   "status": "partial",
   "theorems": [
    "C77_single_lobe_partial",
    "C77_two_lobes_refuted"
   ],
   "note": "Holds when exactly one lobe matches (and the frame is the world's); false with two lobes."
  },
  {
   "property": "C78",
   "status": "partial",
   "theorems": [
    "C78_moderate_indices_partial",
    "C78_high_index_refuted",
    "C78_fresnel_formula_refuted"
   ],
   "note": "Fraction up to index ratio 3; fails at 10, and the normal-incidence value is not Fresnel's."
  },
  {
   "property": "C79",
   "status": "partial",
   "theorems": [
    "C79_snell_refuted",
    "C79_spurious_total_reflection_refuted",
    "C79_normal_incidence_partial"
   ],
   "note": "Holds at normal incidence only; otherwise the ratio is inverted (proved for all other pairs)."
  },
  {
   "property": "C80",
   "status": "partial",
   "theorems": [
    "C80_btdf_adapter_partial",
    "C80_btdf_density_refuted",
    "C80_scaled_refuted"
   ],
   "note": "Value and sampling of the transmission adapter; its density and the scaling adapter are wrong (proved)."
  },
  {
   "property": "C81",
   "status": "proved",
   "theorems": [
    "C81_non_negative",
    "C81_density_non_negative",
    "C81_shadowing",
    "C81_smooth_oren_nayar"
   ],
   "note": ""
  },
  {
   "property": "C82",
   "status": "proved",
   "theorems": [
    "C82_measured_tables",
    "C82_measured_samples",
    "C82_remap_range"
   ],
   "note": ""
  },
  {
   "property": "C83",
   "status": "partial",
   "theorems": [
    "C83_table_coverage_refuted"
   ],
   "note": "False of the code: one cell only is ever read."
  },
  {
   "property": "C84",
   "status": "partial",
   "theorems": [
    "C84_microfacet_other_side_refuted",
    "C81_non_negative",
    "C81_density_non_negative",
    "C81_shadowing",
    "C81_smooth_oren_nayar"
   ],
   "note": "False of the code: a negative value on the other side (non-negativity on its own side: C81). The true clauses are also stated on their own as C81."
  },
  {
   "property": "C85",
   "status": "partial",
   "theorems": [
    "C85_every_interval_partial",
    "C85_constant_refuted"
   ],
   "note": "Holds unless the interval ends on a sample wavelength; then the average is over a longer interval (a constant 1 averages to 3)."
  },
  {
   "property": "C86",
   "status": "partial",
   "theorems": [
    "C86_bins_partial",
    "C86_bins_refuted",
    "C86_init_refuted"
   ],
   "note": "Proved: bin i averages [400+10i, 410+300i] when that end is not a sample wavelength. Missing (false of the code): the right end should be 410+10i; the built-in tables integrate to the end of the table."
  },
  {
   "property": "C87",
   "status": "partial",
   "theorems": [
    "C87_from_rgb_partial",
    "C87_from_rgb_refuted",
    "C87_grey_partial",
    "C87_green_smallest_refuted",
    "C87_blue_smallest_refuted"
   ],
   "note": "Right when red is smallest or for grey; wrong curves otherwise (proved)."
  },
  {
   "property": "C88",
   "status": "partial",
   "theorems": [
    "C88_round_pow_2_partial",
    "C88_nearest_refuted"
   ],
   "note": "Within a factor sqrt 2; not always the nearest power (proved)."
  },
  {
   "property": "C89",
   "status": "partial",
   "theorems": [
    "C89_unmatched_partial",
    "C89_unmatched_refuted"
   ],
   "note": "An end with both stacks of its kind empty changes nothing (it only reports). Missing (false of the code): a pair of mismatched ends raises IndexError or leaves a transform on its stack."
  },
  {
   "property": "C90",
   "status": "partial",
   "theorems": [
    "C90_named_partial",
    "C90_copy_refuted"
   ],
   "note": "A name gives back the same object; it is not a copy, so later changes show through (proved)."
  },
  {
   "property": "C91",
   "status": "proved",
   "theorems": [
    "C91_accumulates"
   ],
   "note": ""
  },
  {
   "property": "C92",
   "status": "proved",
   "theorems": [
    "C92_camera"
   ],
   "note": ""
  },
  {
   "property": "C93",
   "status": "partial",
   "theorems": [
    "C93_before_init_refuted",
    "C50_session",
    "C50_setters",
    "C50_values",
    "C50_defaults",
    "C50_history",
    "C50_fresh_state",
    "C50_lower"
   ],
   "note": "False of the code: calls before initialisation are accepted. The true clauses are also stated on their own as C50."
  },
  {
   "property": "C94",
   "status": "partial",
   "theorems": [
    "C94_clean_refuted",
    "C50_session",
    "C50_setters",
    "C50_values",
    "C50_defaults",
    "C50_history",
    "C50_fresh_state",
    "C50_lower"
   ],
   "note": "False of the code: transforms, names and stacks survive system_clean. The true clauses are also stated on their own as C50."
  },
  {
   "property": "C95",
   "status": "partial",
   "theorems": [
    "C95_import_refuted"
   ],
   "note": "False of the code: importing raises NameError."
  },
  {
   "property": "C96",
   "status": "proved",
   "theorems": [
    "C96_spot_falloff"
   ],
   "note": ""
  },
  {
   "property": "C97",
   "status": "partial",
   "theorems": [
    "C97_spot_partial",
    "C97_attenuation_refuted",
    "C97_gonio_refuted",
    "C97_gonio_partial"
   ],
   "note": "Full statement false of the code: refuted: profile divides, distance is ignored. Refuted by C97_attenuation_refuted, C97_gonio_refuted. What holds: C97_spot_partial, C97_gonio_partial."
  },
  {
   "property": "C98",
   "status": "proved",
   "theorems": [
    "C98_flattening",
    "C98_area_weighted",
    "C98_density"
   ],
   "note": ""
  },
  {
   "property": "C99",
   "status": "proved",
   "theorems": [
    "C99_one_sided",
    "C99_sample"
   ],
   "note": ""
  },
  {
   "property": "C100",
   "status": "partial",
   "theorems": [
    "C100_emission_refuted"
   ],
   "note": "Full statement false of the code: refuted: every one raises. Refuted by C100_emission_refuted. "
  },
  {
   "property": "C101",
   "status": "partial",
   "theorems": [
    "C101_read_image_partial",
    "C101_read_image_refuted"
   ],
   "note": "Full statement false of the code: refuted: other sizes are returned unchanged, grey images raise. Refuted by C101_read_image_refuted. What holds: C101_read_image_partial."
  },
  {
   "property": "C102",
   "status": "partial",
   "theorems": [
    "C102_distant_refuted",
    "C102_projection_refuted",
    "C102_counts_partial"
   ],
   "note": "Full statement false of the code: refuted. Refuted by C102_distant_refuted, C102_projection_refuted. What holds: C102_counts_partial."
  },
  {
   "property": "C103",
   "status": "proved",
   "theorems": [
    "C103_each_sample_once"
   ],
   "note": ""
  },
  {
   "property": "C104",
   "status": "proved",
   "theorems": [
    "C104_path_nonneg"
   ],
   "note": ""
  },
  {
   "property": "C105",
   "status": "proved",
   "theorems": [
    "C105_superposition"
   ],
   "note": ""
  },
  {
   "property": "C106",
   "status": "proved",
   "theorems": [
    "C106_delta_light",
    "C106_uniform_choice",
    "C106_averaging"
   ],
   "note": ""
  },
  {
   "property": "C107",
   "status": "partial",
   "theorems": [
    "C107_mis_refuted"
   ],
   "note": "Full statement false of the code: refuted: the BSDF half never contributes, so the estimate is too small by its weight. Refuted by C107_mis_refuted. "
  },
  {
   "property": "C108",
   "status": "proved",
   "theorems": [
    "C108_path_requests",
    "C108_direct_requests"
   ],
   "note": ""
  },
  {
   "property": "C109",
   "status": "partial",
   "theorems": [
    "C109_one_light_refuted"
   ],
   "note": "Full statement false of the code: refuted: it raises on every sample. Refuted by C109_one_light_refuted. "
  },
  {
   "property": "C110",
   "status": "partial",
   "theorems": [
    "C110_transmission_refuted",
    "C110_reflection_partial"
   ],
   "note": "Full statement false of the code: holds for reflection; refuted for transmission, whose contribution is always black. Refuted by C110_transmission_refuted. What holds: C110_reflection_partial."
  },
  {
   "property": "C111",
   "status": "partial",
   "theorems": [
    "C111_double_count_refuted"
   ],
   "note": "Full statement false of the code: refuted. Refuted by C111_double_count_refuted. "
  },
  {
   "property": "C112",
   "status": "proved",
   "theorems": [
    "C112_reflection_differential"
   ],
   "note": ""
  },
  {
   "property": "C113",
   "status": "partial",
   "theorems": [
    "C113_transmission_refuted",
    "C113_transmission_curved_refuted",
    "C113_ratio_partial"
   ],
   "note": "Full statement false of the code: refuted: for flat surfaces the code uses exactly the negative. Refuted by C113_transmission_refuted, C113_transmission_curved_refuted. What holds: C113_ratio_partial."
  },
  {
   "property": "C114",
   "status": "proved",
   "theorems": [
    "C114_constructor_builds_adjacency",
    "C114_adjacency_at_every_level",
    "C114_unused_vertices_are_refused"
   ],
   "note": ""
  },
  {
   "property": "C115",
   "status": "proved",
   "theorems": [
    "C115_positions_follow_Loops_rules",
    "C115_limit_step_rule"
   ],
   "note": ""
  },
  {
   "property": "C116",
   "status": "proved",
   "theorems": [
    "C116_valences"
   ],
   "note": ""
  },
  {
   "property": "C117",
   "status": "proved",
   "theorems": [
    "C117_hull",
    "C117_object_bound"
   ],
   "note": ""
  },
  {
   "property": "C118",
   "status": "proved",
   "theorems": [
    "C118_affine_invariance"
   ],
   "note": ""
  },
  {
   "property": "C119",
   "status": "partial",
   "theorems": [
    "C119_limit_position_depends_on_levels_refuted"
   ],
   "note": "Full statement false of the code: refuted at every vertex of every surface: gamma uses 8+beta for 8*beta, the border mask 1/5 for 1/6. Refuted by C119_limit_position_depends_on_levels_refuted. "
  },
  {
   "property": "C120",
   "status": "partial",
   "theorems": [
    "C120_no_closed_mesh_is_refined_refuted",
    "C120_open_mesh_is_refined_partial"
   ],
   "note": "Full statement false of the code: holds if vertex 0 lies on a border; refuted otherwise: every closed mesh raises. Refuted by C120_no_closed_mesh_is_refined_refuted. What holds: C120_open_mesh_is_refined_partial."
  },
  {
   "property": "C121",
   "status": "partial",
   "theorems": [
    "C121_schlick_refuted",
    "C121_schlick_partial"
   ],
   "note": "Full statement false of the code: refuted: a missing parenthesis cancels the angle, the integral is 1-k^2 and g=0.97 gives negative values. Refuted by C121_schlick_refuted. What holds: C121_schlick_partial."
  },
  {
   "property": "C122",
   "status": "partial",
   "theorems": [
    "C122_transform_ignored_refuted"
   ],
   "note": "Full statement false of the code: refuted: the transformed ray is computed and not used. Refuted by C122_transform_ignored_refuted. "
  },
  {
   "property": "C123",
   "status": "proved",
   "theorems": [
    "C123_coefficients",
    "C123_density_coefficients"
   ],
   "note": ""
  },
  {
   "property": "C124",
   "status": "partial",
   "theorems": [
    "C124_world_bound_partial",
    "C124_world_bound_refuted"
   ],
   "note": "Full statement false of the code: true for non-negative linear parts, refuted otherwise. Refuted by C124_world_bound_refuted. What holds: C124_world_bound_partial."
  },
  {
   "property": "C125",
   "status": "proved",
   "theorems": [
    "C125_marching",
    "C125_miss",
    "C125_constant",
    "C125_convergence",
    "C125_diverges"
   ],
   "note": ""
  },
  {
   "property": "C126",
   "status": "proved",
   "theorems": [
    "C126_density",
    "C126_convergence"
   ],
   "note": ""
  },
  {
   "property": "C127",
   "status": "partial",
   "theorems": [
    "C127_medium_phase_refuted",
    "C127_medium_phase_partial"
   ],
   "note": "Full statement false of the code: refuted: the time is passed as g; times above 1 give negative values. Refuted by C127_medium_phase_refuted. What holds: C127_medium_phase_partial."
  },
  {
   "property": "C128",
   "status": "proved",
   "theorems": [
    "C128_encloses",
    "C128_coefficients",
    "C128_tau",
    "C128_bound",
    "C128_interval",
    "C128_members"
   ],
   "note": ""
  },
  {
   "property": "C129",
   "status": "partial",
   "theorems": [
    "C129_aggregate_refuted",
    "C129_aggregate_empty_partial"
   ],
   "note": "Full statement false of the code: refuted: TypeError for every non-empty aggregate; phases are summed unweighted. Refuted by C129_aggregate_refuted. What holds: C129_aggregate_empty_partial."
  },
  {
   "property": "C130",
   "status": "partial",
   "theorems": [
    "C130_grid_refuted"
   ],
   "note": "Full statement false of the code: refuted: always TypeError. Refuted by C130_grid_refuted. "
  },
  {
   "property": "C131",
   "status": "proved",
   "theorems": [
    "C131_whitted_sum",
    "C131_whitted_nonneg"
   ],
   "note": ""
  },
  {
   "property": "C132",
   "status": "proved",
   "theorems": [
    "C132_direct_all",
    "C132_delta_estimate"
   ],
   "note": ""
  },
  {
   "property": "C133",
   "status": "proved",
   "theorems": [
    "C133_one_light",
    "C133_no_light",
    "C133_unbiased_choice"
   ],
   "note": ""
  },
  {
   "property": "C134",
   "status": "proved",
   "theorems": [
    "C134_path_sum",
    "C134_stored_numbers"
   ],
   "note": ""
  },
  {
   "property": "C135",
   "status": "proved",
   "theorems": [
    "C135_roulette_unbiased",
    "C135_at_most_half"
   ],
   "note": ""
  },
  {
   "property": "C136",
   "status": "proved",
   "theorems": [
    "C136_time",
    "C136_background",
    "C136_depth_limit",
    "C136_recursion",
    "C136_child_ray"
   ],
   "note": ""
  },
  {
   "property": "C137",
   "status": "proved",
   "theorems": [
    "C137_point_sampled",
    "C137_inside_cell",
    "C137_solid"
   ],
   "note": ""
  },
  {
   "property": "C138",
   "status": "partial",
   "theorems": [
    "C138_equal_textures_refuted",
    "C138_thin_footprint_refuted",
    "C138_odd_fraction_partial"
   ],
   "note": "Full statement false of the code: The code does not: two equal textures give 1, a thin footprint gives NaN. The per-axis odd fraction it computes is right.. Refuted by C138_equal_textures_refuted, C138_thin_footprint_refuted. What holds: C138_odd_fraction_partial."
  },
  {
   "property": "C139",
   "status": "partial",
   "theorems": [
    "C139_even_levels_partial",
    "C139_odd_levels_transposed_refuted"
   ],
   "note": "Full statement false of the code: Holds for even i; odd levels are transposed.. Refuted by C139_odd_levels_transposed_refuted. What holds: C139_even_levels_partial."
  },
  {
   "property": "C140",
   "status": "proved",
   "theorems": [
    "C140_texel_centres",
    "C140_tiling",
    "C140_mean"
   ],
   "note": ""
  },
  {
   "property": "C141",
   "status": "partial",
   "theorems": [
    "C141_black_quarter_refuted"
   ],
   "note": "Full statement false of the code: The code returns a quarter of it.. Refuted by C141_black_quarter_refuted. "
  },
  {
   "property": "C142",
   "status": "partial",
   "theorems": [
    "C142_elliptical_refuted",
    "C142_point_footprint_partial",
    "C142_all_footprints_partial"
   ],
   "note": "Full statement false of the code: Violated: whenever the shorter axis, or the longer one divided by the largest allowed eccentricity if that is more, lies strictly between 0 and 2, the lookup raises AttributeError. A footprint with an axis of zero length is interpolated on the finest level, exact at texel centres, and one of 2 or more returns the mean of a square image.. Refuted by C142_elliptical_refuted. What holds: C142_point_footprint_partial, C142_all_footprints_partial."
  },
  {
   "property": "C143",
   "status": "partial",
   "theorems": [
    "C143_evaluation_refuted",
    "C143_unreadable_refuted",
    "C143_nonsquare_refuted",
    "C143_cache_type_refuted",
    "C143_cached_partial",
    "C143_keys_partial"
   ],
   "note": "Full statement false of the code: Evaluation always raises; unreadable files and non-square images raise; the cache ignores the storage type. Square RGB images load with the parameters asked for, stay cached, and are not confused with maps cached for other files or parameters.. Refuted by C143_evaluation_refuted, C143_unreadable_refuted, C143_nonsquare_refuted, C143_cache_type_refuted. What holds: C143_cached_partial, C143_keys_partial."
  },
  {
   "property": "C144",
   "status": "proved",
   "theorems": [
    "C144_weights",
    "C144_square"
   ],
   "note": ""
  },
  {
   "property": "C145",
   "status": "partial",
   "theorems": [
    "C145_nonsquare_refuted"
   ],
   "note": "Full statement false of the code: The code raises IndexError for non-square images unless both sides are powers of two.. Refuted by C145_nonsquare_refuted. "
  },
  {
   "property": "C146",
   "status": "proved",
   "theorems": [
    "C146_total_bounded",
    "C146_period"
   ],
   "note": ""
  },
  {
   "property": "C147",
   "status": "partial",
   "theorems": [
    "C147_lattice_refuted",
    "C147_lattice_partial",
    "C147_discontinuous_refuted"
   ],
   "note": "Full statement false of the code: The code: it is 0 or -1 there, and jumps.. Refuted by C147_lattice_refuted, C147_discontinuous_refuted. What holds: C147_lattice_partial."
  },
  {
   "property": "C148",
   "status": "proved",
   "theorems": [
    "C148_turbulence",
    "C148_wrinkled",
    "C148_smooth_step"
   ],
   "note": ""
  },
  {
   "property": "C149",
   "status": "partial",
   "theorems": [
    "C149_octave_refuted",
    "C149_no_differentials_refuted",
    "C149_marble_refuted",
    "C149_large_footprint_partial",
    "C149_windy_partial"
   ],
   "note": "Full statement false of the code: Violated: FBm raises whenever at least one octave is requested and neither footprint vector is longer than a noise cell, so always without differentials; windy textures raise unless a footprint vector is longer than ten noise cells, and marble textures raise in every case. Over a longer footprint FBm is the noise at the point faded by a weight between 0 and 1, and a windy texture is the absolute faded noise at a tenth of the point times the faded noise at the point.. Refuted by C149_octave_refuted, C149_no_differentials_refuted, C149_marble_refuted. What holds: C149_large_footprint_partial, C149_windy_partial."
  },
  {
   "property": "C150",
   "status": "proved",
   "theorems": [
    "C150_uv",
    "C150_planar",
    "C150_solid",
    "C150_uv_values",
    "C150_planar_values"
   ],
   "note": ""
  },
  {
   "property": "C151",
   "status": "proved",
   "theorems": [
    "C151_values",
    "C151_poles",
    "C151_spherical_range"
   ],
   "note": ""
  },
  {
   "property": "C152",
   "status": "partial",
   "theorems": [
    "C152_y_difference_partial",
    "C152_x_seam_partial",
    "C152_spherical_refuted",
    "C152_cylindrical_refuted",
    "C152_x_differences_partial"
   ],
   "note": "Full statement false of the code: The y differential of t is wrong; cylindrical mapping always raises; x differentials are the forward differences.. Refuted by C152_spherical_refuted, C152_cylindrical_refuted. What holds: C152_y_difference_partial, C152_x_seam_partial, C152_x_differences_partial."
  },
  {
   "property": "C153",
   "status": "partial",
   "theorems": [
    "C153_dots_refuted"
   ],
   "note": "Full statement false of the code: The code always raises TypeError.. Refuted by C153_dots_refuted. "
  },
  {
   "property": "C154",
   "status": "proved",
   "theorems": [
    "C154_half_fan",
    "C154_corner"
   ],
   "note": ""
  },
  {
   "property": "C155",
   "status": "partial",
   "theorems": [
    "C155_interior_refuted"
   ],
   "note": "Full statement false of the code: The code adds the tangents of the vertex treated before.. Refuted by C155_interior_refuted. "
  },
  {
   "property": "C156",
   "status": "proved",
   "theorems": [
    "C156_sample_radiance"
   ],
   "note": ""
  },
  {
   "property": "C157",
   "status": "proved",
   "theorems": [
    "C157_has_nans"
   ],
   "note": ""
  },
  {
   "property": "C158",
   "status": "proved",
   "theorems": [
    "C158_perspective_pixel",
    "C158_static",
    "C158_injective"
   ],
   "note": ""
  },
  {
   "property": "C159",
   "status": "proved",
   "theorems": [
    "C159_perspective_focus",
    "C159_ortho_focus"
   ],
   "note": ""
  },
  {
   "property": "C160",
   "status": "proved",
   "theorems": [
    "C160_ortho_pixel"
   ],
   "note": ""
  },
  {
   "property": "C161",
   "status": "partial",
   "theorems": [
    "C161_ortho_lens_origin_refuted"
   ],
   "note": "Full statement false of the code: Violated: the origin is the lens sample alone.. Refuted by C161_ortho_lens_origin_refuted. "
  },
  {
   "property": "C162",
   "status": "partial",
   "theorems": [
    "C162_perspective_differential_partial",
    "C162_offsets_in_camera_space_refuted"
   ],
   "note": "Full statement false of the code: Violated for placed cameras: the offset rays stay in camera space.. Refuted by C162_offsets_in_camera_space_refuted. What holds: C162_perspective_differential_partial."
  },
  {
   "property": "C163",
   "status": "partial",
   "theorems": [
    "C163_differential_time_refuted"
   ],
   "note": "Full statement false of the code: Violated: the sample's raw time.. Refuted by C163_differential_time_refuted. "
  },
  {
   "property": "C164",
   "status": "partial",
   "theorems": [
    "C164_identity_partial",
    "C164_placed_twice_refuted"
   ],
   "note": "Full statement false of the code: Violated for placed cameras: the placement is applied twice.. Refuted by C164_placed_twice_refuted. What holds: C164_identity_partial."
  },
  {
   "property": "C165",
   "status": "proved",
   "theorems": [
    "C165_unit",
    "C165_covers_sphere",
    "C165_injective"
   ],
   "note": ""
  },
  {
   "property": "C166",
   "status": "partial",
   "theorems": [
    "C166_environment_time_refuted",
    "C166_motion_refuted"
   ],
   "note": "Full statement false of the code: Violated: the time is passed as the recursion depth.. Refuted by C166_environment_time_refuted, C166_motion_refuted. "
  },
  {
   "property": "C167",
   "status": "partial",
   "theorems": [
    "C167_offsets_ignore_sample_refuted",
    "C167_main_ray_partial",
    "C167_offset_positions_partial"
   ],
   "note": "Full statement false of the code: Violated: they are those of positions (1,0) and (0,1) for every sample.. Refuted by C167_offsets_ignore_sample_refuted. What holds: C167_main_ray_partial, C167_offset_positions_partial."
  },
  {
   "property": "C168",
   "status": "proved",
   "theorems": [
    "C168_pinhole",
    "C168_range"
   ],
   "note": ""
  },
  {
   "property": "C169",
   "status": "partial",
   "theorems": [
    "C169_pinhole_unnormalised_refuted",
    "C169_placed_unit_partial"
   ],
   "note": "Full statement false of the code: Violated by the pinhole camera.. Refuted by C169_pinhole_unnormalised_refuted. What holds: C169_placed_unit_partial."
  },
  {
   "property": "C170",
   "status": "partial",
   "theorems": [
    "C170_all_but_one_partial",
    "C170_small_partial",
    "C170_stray_refuted"
   ],
   "note": "Full statement false of the code: Violated by at most one primitive per node: the last one is never compared with the split position.. Refuted by C170_stray_refuted. What holds: C170_all_but_one_partial, C170_small_partial."
  },
  {
   "property": "C171",
   "status": "proved",
   "theorems": [
    "C171_clip",
    "C171_black"
   ],
   "note": ""
  },
  {
   "property": "C172",
   "status": "proved",
   "theorems": [
    "C172_smooth",
    "C172_rough"
   ],
   "note": ""
  },
  {
   "property": "C173",
   "status": "partial",
   "theorems": [
    "C173_lookup_partial",
    "C173_footprint_refuted"
   ],
   "note": "Full statement false of the code: Violated for the footprint: copying the differential geometry drops it, so every texture sees a zero footprint.. Refuted by C173_footprint_refuted. What holds: C173_lookup_partial."
  },
  {
   "property": "C174",
   "status": "proved",
   "theorems": [
    "C174_mirror"
   ],
   "note": ""
  },
  {
   "property": "C175",
   "status": "partial",
   "theorems": [
    "C175_split_partial",
    "C175_light_lost_refuted"
   ],
   "note": "Full statement false of the code: Violated: the transmitted part uses a Fresnel term that does not complement the reflected one.. Refuted by C175_light_lost_refuted. What holds: C175_split_partial."
  },
  {
   "property": "C176",
   "status": "partial",
   "theorems": [
    "C176_coating_refuted"
   ],
   "note": "Full statement false of the code: Violated: the indices are passed the other way round.. Refuted by C176_coating_refuted. "
  },
  {
   "property": "C177",
   "status": "proved",
   "theorems": [
    "C177_translucent",
    "C177_clear",
    "C177_opaque",
    "C177_scaled",
    "C177_diffuse"
   ],
   "note": ""
  },
  {
   "property": "C178",
   "status": "proved",
   "theorems": [
    "C178_usable"
   ],
   "note": ""
  },
  {
   "property": "C179",
   "status": "proved",
   "theorems": [
    "C179_non_negative"
   ],
   "note": ""
  },
  {
   "property": "C180",
   "status": "partial",
   "theorems": [
    "C180_mix_refuted"
   ],
   "note": "Full statement false of the code: Violated: get_bsdf always raises TypeError.. Refuted by C180_mix_refuted. "
  },
  {
   "property": "C181",
   "status": "proved",
   "theorems": [
    "C181_coefficients"
   ],
   "note": ""
  },
  {
   "property": "C182",
   "status": "partial",
   "theorems": [
    "C182_surface_refuted",
    "C182_diffuse_refuted",
    "C182_kd_surface_partial"
   ],
   "note": "Full statement false of the code: Violated: one of the two calls raises TypeError in each class.. Refuted by C182_surface_refuted, C182_diffuse_refuted. What holds: C182_kd_surface_partial."
  },
  {
   "property": "C183",
   "status": "partial",
   "theorems": [
    "C183_bump_refuted"
   ],
   "note": "Full statement false of the code: Violated: every such hit raises AttributeError.. Refuted by C183_bump_refuted. "
  },
  {
   "property": "C184",
   "status": "proved",
   "theorems": [
    "C184_file",
    "C184_malformed"
   ],
   "note": ""
  },
  {
   "property": "C185",
   "status": "partial",
   "theorems": [
    "C185_first_partial",
    "C185_again_refuted"
   ],
   "note": "Full statement false of the code: Violated: the cache is keyed by the base name and its use raises.. Refuted by C185_again_refuted. What holds: C185_first_partial."
  },
  {
   "property": "C186",
   "status": "partial",
   "theorems": [
    "C186_mirror_partial",
    "C186_clear_partial",
    "C186_direction_refuted"
   ],
   "note": "Full statement false of the code: Violated for surfaces not aligned with the world axes: l2w uses one local coordinate per row.. Refuted by C186_direction_refuted. What holds: C186_mirror_partial, C186_clear_partial."
  },
  {
   "property": "C187",
   "status": "proved",
   "theorems": [
    "C187_triangle",
    "C187_triangle_miss",
    "C187_any_shape"
   ],
   "note": ""
  },
  {
   "property": "C188",
   "status": "partial",
   "theorems": [
    "C188_sphere_partial",
    "C188_reversed_refuted",
    "C188_weingarten"
   ],
   "note": "Full statement false of the code: Violated for reversed orientation: the normal is flipped, its derivatives are not.. Refuted by C188_reversed_refuted. What holds: C188_sphere_partial."
  },
  {
   "property": "C189",
   "status": "proved",
   "theorems": [
    "C189_sphere",
    "C189_disk"
   ],
   "note": ""
  },
  {
   "property": "C190",
   "status": "partial",
   "theorems": [
    "C190_picture_ignored_refuted",
    "C190_plain_colour_partial"
   ],
   "note": "Full statement false of the code: Violated: the picture is never used; the light always has its plain colour.. Refuted by C190_picture_ignored_refuted. What holds: C190_plain_colour_partial."
  },
  {
   "property": "C191",
   "status": "partial",
   "theorems": [
    "C191_escaping_ray_refuted"
   ],
   "note": "Full statement false of the code: Violated: it always raises TypeError.. Refuted by C191_escaping_ray_refuted. "
  },
  {
   "property": "C192",
   "status": "partial",
   "theorems": [
    "C192_one_direction_refuted",
    "C192_colour_partial"
   ],
   "note": "Full statement false of the code: Violated: every draw gives the same direction with density NaN; colour and shadow ray are right.. Refuted by C192_one_direction_refuted. What holds: C192_colour_partial."
  },
  {
   "property": "C193",
   "status": "partial",
   "theorems": [
    "C193_density_refuted",
    "C193_poles_partial"
   ],
   "note": "Full statement false of the code: Violated: it is 1 for every direction but the poles.. Refuted by C193_density_refuted. What holds: C193_poles_partial."
  },
  {
   "property": "C194",
   "status": "partial",
   "theorems": [
    "C194_emission_refuted"
   ],
   "note": "Full statement false of the code: Violated: both raise.. Refuted by C194_emission_refuted. "
  },
  {
   "property": "C195",
   "status": "proved",
   "theorems": [
    "C195_no_primitive_lost"
   ],
   "note": ""
  },
  {
   "property": "C196",
   "status": "proved",
   "theorems": [
    "C196_clamped_before",
    "C196_clamped_after",
    "C196_static_is_constant"
   ],
   "note": ""
  },
  {
   "property": "C197",
   "status": "proved",
   "theorems": [
    "C197_unit_quaternion_is_rotation"
   ],
   "note": ""
  },
  {
   "property": "C198",
   "status": "proved",
   "theorems": [
    "C198_cdf_table",
    "C198_pdf_integrates",
    "C198_sample_dis"
   ],
   "note": ""
  },
  {
   "property": "C199",
   "status": "proved",
   "theorems": [
    "C199_pdf"
   ],
   "note": ""
  },
  {
   "property": "C200",
   "status": "proved",
   "theorems": [
    "C200_locked"
   ],
   "note": ""
  },
  {
   "property": "C201",
   "status": "proved",
   "theorems": [
    "C201_nonempty",
    "C201_sample_extent"
   ],
   "note": ""
  },
  {
   "property": "C202",
   "status": "proved",
   "theorems": [
    "C202_area"
   ],
   "note": ""
  },
  {
   "property": "C203",
   "status": "proved",
   "theorems": [
    "C203_eq_correct"
   ],
   "note": ""
  },
  {
   "property": "C204",
   "status": "proved",
   "theorems": [
    "C204_bytes",
    "C204_positions"
   ],
   "note": ""
  },
  {
   "property": "C205",
   "status": "proved",
   "theorems": [
    "C205_uniform",
    "C205_onto",
    "C205_cylinder_sample"
   ],
   "note": ""
  },
  {
   "property": "C206",
   "status": "proved",
   "theorems": [
    "C206_rejection"
   ],
   "note": ""
  },
  {
   "property": "C207",
   "status": "partial",
   "theorems": [
    "C207_nearest_partial",
    "C207_any_partial",
    "C207_mirrored_refuted"
   ],
   "note": "Full statement false of the code: Violated: a sphere or disk placed by a mirroring or rotating transform can be missed.. Refuted by C207_mirrored_refuted. What holds: C207_nearest_partial, C207_any_partial."
  },
  {
   "property": "C208",
   "status": "proved",
   "theorems": [
    "C208_shadow_consistent"
   ],
   "note": ""
  },
  {
   "property": "C209",
   "status": "proved",
   "theorems": [
    "C209_record"
   ],
   "note": ""
  },
  {
   "property": "C210",
   "status": "partial",
   "theorems": [
    "C210_geometric_partial",
    "C210_instance_refuted"
   ],
   "note": "Full statement false of the code: Violated: TransformedPrimitive can never be instantiated, as it leaves abstract methods undefined.. Refuted by C210_instance_refuted. What holds: C210_geometric_partial."
  },
  {
   "property": "C211",
   "status": "proved",
   "theorems": [
    "C211_normalised",
    "C211_exponents"
   ],
   "note": ""
  },
  {
   "property": "C212",
   "status": "proved",
   "theorems": [
    "C212_blinn",
    "C212_aniso"
   ],
   "note": ""
  },
  {
   "property": "C213",
   "status": "proved",
   "theorems": [
    "C213_schlick",
    "C213_reflectance",
    "C213_mixture"
   ],
   "note": ""
  },
  {
   "property": "C214",
   "status": "proved",
   "theorems": [
    "C214_lambertian",
    "C214_estimate",
    "C214_mirror",
    "C214_surface"
   ],
   "note": ""
  },
  {
   "property": "C215",
   "status": "partial",
   "theorems": [
    "C215_scaled_refuted"
   ],
   "note": "Full statement false of the code: Violated: they always raise AttributeError.. Refuted by C215_scaled_refuted. "
  },
  {
   "property": "C216",
   "status": "partial",
   "theorems": [
    "C216_blinn_partial",
    "C216_aniso_refuted"
   ],
   "note": "Full statement false of the code: Violated: the anisotropic one is zero there and positive everywhere else off the horizon.. Refuted by C216_aniso_refuted. What holds: C216_blinn_partial."
  },
  {
   "property": "C217",
   "status": "partial",
   "theorems": [
    "C217_division_partial",
    "C217_near_one_refuted"
   ],
   "note": "Full statement false of the code: Violated: the division is skipped if w differs from 1 by up to 1e-5.. Refuted by C217_near_one_refuted. What holds: C217_division_partial."
  },
  {
   "property": "C218",
   "status": "proved",
   "theorems": [
    "C218_bound_least",
    "C218_bound_contains"
   ],
   "note": ""
  },
  {
   "property": "C219",
   "status": "partial",
   "theorems": [
    "C219_nearest_partial",
    "C219_any_partial",
    "C219_medium_changes_hits_refuted"
   ],
   "note": "Full statement false of the code: Violated: where a primitive's own bound is wrong, as for a sphere mirrored in x, the object is missed without a medium and found with one; proved under the conditions of C207, with no condition on the medium's box.. Refuted by C219_medium_changes_hits_refuted. What holds: C219_nearest_partial, C219_any_partial."
  },
  {
   "property": "C220",
   "status": "partial",
   "theorems": [
    "C220_no_volume_partial",
    "C220_shared_aggregate_refuted"
   ],
   "note": "Full statement false of the code: Violated: with a medium the constructor unions the medium's bound into the box object owned by the tree's root, so a second scene over the same aggregate without a medium reports a bound that contains the first scene's medium.. Refuted by C220_shared_aggregate_refuted. What holds: C220_no_volume_partial."
  },
  {
   "property": "C221",
   "status": "proved",
   "theorems": [
    "C221_pixels_between",
    "C221_uniform"
   ],
   "note": ""
  },
  {
   "property": "C222",
   "status": "proved",
   "theorems": [
    "C222_sphere",
    "C222_cylinder",
    "C222_disk",
    "C222_triangle"
   ],
   "note": ""
  },
  {
   "property": "C223",
   "status": "partial",
   "theorems": [
    "C223_sphere_partial",
    "C223_sphere_v_refuted",
    "C223_disk_partial",
    "C223_disk_hole_refuted"
   ],
   "note": "Full statement false of the code: Violated: the v of a sphere hit is multiplied by the polar range instead of divided by it, so it exceeds 1; a disk with a hole reports negative v at its rim.. Refuted by C223_sphere_v_refuted, C223_disk_hole_refuted. What holds: C223_sphere_partial, C223_disk_partial."
  },
  {
   "property": "C224",
   "status": "proved",
   "theorems": [
    "C224_interpolation",
    "C224_default_uv"
   ],
   "note": ""
  },
  {
   "property": "C225",
   "status": "proved",
   "theorems": [
    "C225_cone_exact",
    "C225_sample",
    "C225_density",
    "C225_inside"
   ],
   "note": ""
  },
  {
   "property": "C226",
   "status": "proved",
   "theorems": [
    "C226_sphere",
    "C226_cylinder"
   ],
   "note": ""
  },
  {
   "property": "C227",
   "status": "proved",
   "theorems": [
    "C227_offsets"
   ],
   "note": ""
  },
  {
   "property": "C228",
   "status": "partial",
   "theorems": [
    "C228_miss_refuted",
    "C228_inside_partial"
   ],
   "note": "Full statement false of the code: Violated for points outside: the cone density is returned for every direction.. Refuted by C228_miss_refuted. What holds: C228_inside_partial."
  },
  {
   "property": "C229",
   "status": "partial",
   "theorems": [
    "C229_no_medium_partial",
    "C229_darker_partial",
    "C229_repeat_refuted",
    "C229_fog_refuted"
   ],
   "note": "Full statement false of the code: Violated in a medium: the estimate multiplies the light's own radiance array by the transmittance in place, so every visible request darkens the light for all later ones.. Refuted by C229_repeat_refuted, C229_fog_refuted. What holds: C229_no_medium_partial, C229_darker_partial."
  },
  {
   "property": "C230",
   "status": "partial",
   "theorems": [
    "C230_delta_partial",
    "C230_area_refuted",
    "C230_environment_refuted"
   ],
   "note": "Full statement false of the code: Violated: every area light adds its emission to every escaping ray, and an environment light makes the query raise.. Refuted by C230_area_refuted, C230_environment_refuted. What holds: C230_delta_partial."
  },
  {
   "property": "C231",
   "status": "proved",
   "theorems": [
    "C231_difference",
    "C231_round_trip",
    "C231_refused",
    "C231_face_forward"
   ],
   "note": ""
  },
  {
   "property": "C232",
   "status": "partial",
   "theorems": [
    "C232_sums_partial",
    "C232_sums_refuted"
   ],
   "note": "Full statement false of the code: Violated: a vector plus a point is a vector, two points or a point and a number can be added.. Refuted by C232_sums_refuted. What holds: C232_sums_partial."
  },
  {
   "property": "C233",
   "status": "partial",
   "theorems": [
    "C233_constructor",
    "C233_from_arr",
    "C233_point_difference",
    "C233_finite_partial",
    "C233_infinite_refuted"
   ],
   "note": "Full statement false of the code: Violated: inherited arithmetic on infinite components creates NaN objects without raising.. Refuted by C233_infinite_refuted. What holds: C233_finite_partial."
  },
  {
   "property": "C234",
   "status": "proved",
   "theorems": [
    "C234_meaning",
    "C234_equivalence",
    "C234_class_ignored"
   ],
   "note": ""
  },
  {
   "property": "C235",
   "status": "proved",
   "theorems": [
    "C235_create",
    "C235_default"
   ],
   "note": ""
  },
  {
   "property": "C236",
   "status": "partial",
   "theorems": [
    "C236_copy_partial",
    "C236_sequence_refuted"
   ],
   "note": "Full statement false of the code: Violated: three floats raise TypeError, and three integers are taken for the shape of an uninitialised array.. Refuted by C236_sequence_refuted. What holds: C236_copy_partial."
  },
  {
   "property": "C237",
   "status": "proved",
   "theorems": [
    "C237_values",
    "C237_refused",
    "C237_linear",
    "C237_constant",
    "C237_nonneg",
    "C237_rgb"
   ],
   "note": ""
  },
  {
   "property": "C238",
   "status": "proved",
   "theorems": [
    "C238_sqrt",
    "C238_pow"
   ],
   "note": ""
  },
  {
   "property": "C239",
   "status": "proved",
   "theorems": [
    "C239_refused",
    "C239_created"
   ],
   "note": ""
  },
  {
   "property": "C240",
   "status": "proved",
   "theorems": [
    "C240_tight",
    "C240_refined"
   ],
   "note": ""
  },
  {
   "property": "C241",
   "status": "partial",
   "theorems": [
    "C241_levels_partial",
    "C241_zero_refuted"
   ],
   "note": "Full statement false of the code: Violated: with zero levels refining overwrites the surface's own vertices by their limit positions, so that a second refinement gives other positions.. Refuted by C241_zero_refuted. What holds: C241_levels_partial."
  },
  {
   "property": "C242",
   "status": "proved",
   "theorems": [
    "C242_open",
    "C242_scene"
   ],
   "note": ""
  },
  {
   "property": "C243",
   "status": "proved",
   "theorems": [
    "C243_copies",
    "C243_children",
    "C243_generations",
    "C243_scale"
   ],
   "note": ""
  },
  {
   "property": "C244",
   "status": "proved",
   "theorems": [
    "C244_bar",
    "C244_progress",
    "C244_completion"
   ],
   "note": ""
  },
  {
   "property": "C245",
   "status": "proved",
   "theorems": [
    "C245_getitem"
   ],
   "note": ""
  },
  {
   "property": "C246",
   "status": "partial",
   "theorems": [
    "C246_strata_partial",
    "C246_below_one_refuted"
   ],
   "note": "Full statement false of the code: Violated: for every number of strata from two on, the largest draw makes the last sample exactly 1.. Refuted by C246_below_one_refuted. What holds: C246_strata_partial."
  },
  {
   "property": "C247",
   "status": "partial",
   "theorems": [
    "C247_pixel_partial",
    "C247_next_pixel_refuted"
   ],
   "note": "Full statement false of the code: Violated: in every column but the first the largest draw gives the coordinate of the next pixel.. Refuted by C247_next_pixel_refuted. What holds: C247_pixel_partial."
  },
  {
   "property": "C248",
   "status": "proved",
   "theorems": [
    "C248_reached",
    "C248_in_bounds",
    "C248_own_pixel"
   ],
   "note": ""
  },
  {
   "property": "C249",
   "status": "partial",
   "theorems": [
    "C249_ends_partial",
    "C249_zero_partial",
    "C249_times_partial",
    "C249_error_partial",
    "C249_range_refuted"
   ],
   "note": "Full statement false of the code: Violated: interpolating between 3 and 3 at one fifth gives more than 3; it does stay in range when the end points are not of the same sign, as for a shutter that opens at time 0.. Refuted by C249_range_refuted. What holds: C249_ends_partial, C249_zero_partial, C249_times_partial, C249_error_partial."
  },
  {
   "property": "C250",
   "status": "partial",
   "theorems": [
    "C250_bytes_partial",
    "C250_brightest_refuted"
   ],
   "note": "Full statement false of the code: Violated: it can become 254.. Refuted by C250_brightest_refuted. What holds: C250_bytes_partial."
  },
  {
   "property": "C251",
   "status": "proved",
   "theorems": [
    "C251_buckets"
   ],
   "note": ""
  },
  {
   "property": "C252",
   "status": "proved",
   "theorems": [
    "C252_balance"
   ],
   "note": ""
  },
  {
   "property": "C253",
   "status": "partial",
   "theorems": [
    "C253_power_partial",
    "C253_denominator_partial",
    "C253_vanishing_refuted"
   ],
   "note": "Full statement false of the code: Violated: the squares of two tiny densities both vanish and the code divides zero by zero; it cannot happen from 2^-500 on.. Refuted by C253_vanishing_refuted. What holds: C253_power_partial, C253_denominator_partial."
  },
  {
   "property": "C254",
   "status": "partial",
   "theorems": [
    "C254_table_partial",
    "C254_sample_partial",
    "C254_below_one_refuted"
   ],
   "note": "Full statement false of the code: Violated: for the table 1, 3 a draw below 1 gives the point 1.. Refuted by C254_below_one_refuted. What holds: C254_table_partial, C254_sample_partial."
  },
  {
   "property": "C255",
   "status": "partial",
   "theorems": [
    "C255_inside_partial",
    "C255_origin_partial",
    "C255_missed_refuted"
   ],
   "note": "Full statement false of the code: Violated: a ray that meets a box exactly at parameter 255 is reported to miss it; rays starting in the box, and rays from the coordinate origin that meet it at a float64 parameter, are never missed.. Refuted by C255_missed_refuted. What holds: C255_inside_partial, C255_origin_partial."
  },
  {
   "property": "C256",
   "status": "partial",
   "theorems": [
    "C256_inside_partial",
    "C256_missed_refuted"
   ],
   "note": "Full statement false of the code: Violated: the ray from the origin along (1, 49, 1) meets the box from (1, 0, 0) to (2, 49, 2) and is rejected; unit rays starting strictly inside a box are always accepted.. Refuted by C256_missed_refuted. What holds: C256_inside_partial."
  },
  {
   "property": "C257",
   "status": "proved",
   "theorems": [
    "C257_crop"
   ],
   "note": ""
  },
  {
   "property": "C258",
   "status": "proved",
   "theorems": [
    "C258_voxels"
   ],
   "note": ""
  },
  {
   "property": "C259",
   "status": "proved",
   "theorems": [
    "C259_identifiers"
   ],
   "note": ""
  },
  {
   "property": "C260",
   "status": "proved",
   "theorems": [
    "C260_plastic",
    "C260_metal",
    "C260_uber"
   ],
   "note": ""
  },
  {
   "property": "C261",
   "status": "proved",
   "theorems": [
    "C261_identity",
    "C261_translate",
    "C261_scale",
    "C261_whole"
   ],
   "note": ""
  },
  {
   "property": "C262",
   "status": "proved",
   "theorems": [
    "C262_unit",
    "C262_zero"
   ],
   "note": ""
  },
  {
   "property": "C263",
   "status": "proved",
   "theorems": [
    "C263_symmetries"
   ],
   "note": ""
  },
  {
   "property": "C264",
   "status": "proved",
   "theorems": [
    "C264_error",
    "C264_at_least",
    "C264_counts"
   ],
   "note": ""
  },
  {
   "property": "C265",
   "status": "partial",
   "theorems": [
    "C265_weights_partial",
    "C265_outside_refuted"
   ],
   "note": "Full statement false of the code: Violated: the third weight can be negative, by at most 2^-51, and the sum is within 2^-51 of 1.. Refuted by C265_outside_refuted. What holds: C265_weights_partial."
  },
  {
   "property": "C266",
   "status": "proved",
   "theorems": [
    "C266_cone"
   ],
   "note": ""
  },
  {
   "property": "C267",
   "status": "partial",
   "theorems": [
    "C267_whole_partial",
    "C267_round_trip_refuted"
   ],
   "note": "Full statement false of the code: Violated: after a translation by 2^52 the coordinate 1/4 comes back as 0; with whole-number coordinates up to 2^53 it is exact.. Refuted by C267_round_trip_refuted. What holds: C267_whole_partial."
  },
  {
   "property": "C268",
   "status": "partial",
   "theorems": [
    "C268_short_partial",
    "C268_short_refuted"
   ],
   "note": "Full statement false of the code: Violated: if no component exceeds 2^-538 the vector is returned unchanged, because its squared length rounds to 0.. Refuted by C268_short_refuted. What holds: C268_short_partial."
  },
  {
   "property": "C269",
   "status": "partial",
   "theorems": [
    "C269_order_partial",
    "C269_order_refuted"
   ],
   "note": "Full statement false of the code: Violated: 2^52, 3/8, 3/8 sums to 2^52 but 3/8, 3/8, 2^52 to 2^52 + 1; the difference is at most twice the bound of C264.. Refuted by C269_order_refuted. What holds: C269_order_partial."
  },
  {
   "property": "C270",
   "status": "proved",
   "theorems": [
    "C270_lit",
    "C270_bounded"
   ],
   "note": ""
  },
  {
   "property": "C271",
   "status": "proved",
   "theorems": [
    "C271_dark_whitted",
    "C271_dark_direct",
    "C271_dark_path",
    "C271_world"
   ],
   "note": ""
  },
  {
   "property": "C272",
   "status": "partial",
   "theorems": [
    "C272_stronger_partial",
    "C272_limit_refuted"
   ],
   "note": "Full statement false of the code: Violated: light below 10^-5 counts as black; a triangle lit so dimly is black but not black with the lamp four times as strong. It holds whenever no light's radiance crosses that limit at a point of a surface which some ray meets.. Refuted by C272_limit_refuted. What holds: C272_stronger_partial."
  },
  {
   "property": "C273",
   "status": "proved",
   "theorems": [
    "C273_direct_is_whitted"
   ],
   "note": ""
  },
  {
   "property": "C274",
   "status": "proved",
   "theorems": [
    "C274_picture"
   ],
   "note": ""
  },
  {
   "property": "C275",
   "status": "proved",
   "theorems": [
    "C275_scene_picture"
   ],
   "note": ""
  },
  {
   "property": "C276",
   "status": "partial",
   "theorems": [
    "C276_simple_partial",
    "C276_simple_any_partial",
    "C276_grid_sound_partial",
    "C276_grid_refuted"
   ],
   "note": "Full statement false of the code: Violated: in a grid the enlarged box shifts the voxels rays are looked up in, so a ray that starts in an object's box and hits it is reported to miss once a medium far away is added. Over the exhaustive aggregate every query gives the same flag, range and record; over the grid queries stay safe and report only real hits.. Refuted by C276_grid_refuted. What holds: C276_simple_partial, C276_simple_any_partial, C276_grid_sound_partial."
  },
  {
   "property": "C277",
   "status": "proved",
   "theorems": [
    "C277_equality",
    "C277_same",
    "C277_identity",
    "C277_inverse"
   ],
   "note": ""
  },
  {
   "property": "C278",
   "status": "partial",
   "theorems": [
    "C278_lookup_partial",
    "C278_order_refuted"
   ],
   "note": "Full statement false of the code: Violated: the table, taken from pbrt, lists the reduced scattering coefficient first, so the two are returned in the wrong order, e.g. for Marble. Every known name gives two non-negative spectra, those of its row; every other name gives None twice.. Refuted by C278_order_refuted. What holds: C278_lookup_partial."
  },
  {
   "property": "C279",
   "status": "proved",
   "theorems": [
    "C279_superposition",
    "C279_order",
    "C279_materials",
    "C279_world"
   ],
   "note": ""
  },
  {
   "property": "C280",
   "status": "proved",
   "theorems": [
    "C280_sphere",
    "C280_disk",
    "C280_triangle"
   ],
   "note": ""
  },
  {
   "property": "C281",
   "status": "proved",
   "theorems": [
    "C281_rigid",
    "C281_rendered"
   ],
   "note": ""
  },
  {
   "property": "C282",
   "status": "partial",
   "theorems": [
    "C282_step_refuted",
    "C282_jump_refuted",
    "C282_step_partial",
    "C282_fade_partial"
   ],
   "note": "Full statement false of the code: Violated: smooth_step clips to the bounds without rescaling, so for 0 < lo < hi < 1 it never reaches 0 or 1; turbulence therefore drops by at least 0.216 times the absolute noise where the footprint passes one noise cell, at every point where the noise is not 0. What holds: with the bounds 0 and 1 the step is the usual cubic; between one and two noise cells FBm and turbulence are the noise, resp. its absolute value, times a weight that depends on the logarithm of the footprint only: 0.216 up to 0.3 octaves, 0.784 from 0.7 octaves, the cubic in between.. Refuted by C282_step_refuted, C282_jump_refuted. What holds: C282_step_partial, C282_fade_partial."
  },
  {
   "property": "C283",
   "status": "proved",
   "theorems": [
    "C283_bounded"
   ],
   "note": ""
  },
  {
   "property": "C284",
   "status": "proved",
   "theorems": [
    "C284_choice",
    "C284_one",
    "C284_density_entry"
   ],
   "note": ""
  },
  {
   "property": "C285",
   "status": "partial",
   "theorems": [
    "C285_weight_partial",
    "C285_value_partial",
    "C285_centre_partial",
    "C285_constant_refuted"
   ],
   "note": "Full statement false of the code: Violated: the last clause; a constant 1 + 3*2^-52 comes out as 1 + 2*2^-52 at (3/8, 5/8) of a 2x2 level.. Refuted by C285_constant_refuted. What holds: C285_weight_partial, C285_value_partial, C285_centre_partial."
  },
  {
   "property": "C286",
   "status": "proved",
   "theorems": [
    "C286_brighter",
    "C286_materials",
    "C286_world"
   ],
   "note": ""
  },
  {
   "property": "C287",
   "status": "partial",
   "theorems": [
    "C287_mirror_partial",
    "C287_glass_partial",
    "C287_amplified_refuted"
   ],
   "note": "Full statement false of the code: Violated: for surfaces not aligned with the world axes the direction that l2w returns is not the one the weight was computed for; a perfect mirror tilted by the angle of sine 3/5 multiplies light by more than any given factor for some viewing directions.. Refuted by C287_amplified_refuted. What holds: C287_mirror_partial, C287_glass_partial."
  },
  {
   "property": "C288",
   "status": "proved",
   "theorems": [
    "C288_agree",
    "C288_world",
    "C288_diffuse"
   ],
   "note": ""
  },
  {
   "property": "C289",
   "status": "proved",
   "theorems": [
    "C289_path",
    "C289_whitted",
    "C289_world"
   ],
   "note": ""
  },
  {
   "property": "C290",
   "status": "proved",
   "theorems": [
    "C290_mean",
    "C290_diffuse"
   ],
   "note": ""
  },
  {
   "property": "C291",
   "status": "proved",
   "theorems": [
    "C291_what_is_met",
    "C291_any_order"
   ],
   "note": ""
  },
  {
   "property": "C292",
   "status": "proved",
   "theorems": [
    "C292_direct_picture"
   ],
   "note": ""
  },
  {
   "property": "C293",
   "status": "partial",
   "theorems": [
    "C293_error",
    "C293_sphere_partial",
    "C293_cylinder_partial",
    "C293_far_refuted",
    "C293_cylinder_refuted"
   ],
   "note": "Full statement false of the code: Violated: from 2^27 units away a ray through the very centre of a sphere of radius 1/2 computes a discriminant of 0 and misses; a line passing beside a thin cylinder computes a positive one and goes on.. Refuted by C293_far_refuted, C293_cylinder_refuted. What holds: C293_sphere_partial, C293_cylinder_partial."
  },
  {
   "property": "C294",
   "status": "partial",
   "theorems": [
    "C294_whole_partial",
    "C294_range",
    "C294_crack_refuted"
   ],
   "note": "Full statement false of the code: Violated: for the two halves of a parallelogram with small whole-number corners there is a ray through their common edge which both reject, since b1 + b2 rounds to 1 + 2^-52.. Refuted by C294_crack_refuted. What holds: C294_whole_partial."
  },
  {
   "property": "C295",
   "status": "partial",
   "theorems": [
    "C295_mirror_partial",
    "C295_limit",
    "C295_world_partial",
    "C295_direction_refuted"
   ],
   "note": "Full statement false of the code: Violated: an upright mirror, whose frame is not aligned, returns black although the ray thrown back returns white.. Refuted by C295_direction_refuted. What holds: C295_mirror_partial, C295_world_partial."
  },
  {
   "property": "C296",
   "status": "partial",
   "theorems": [
    "C296_glass_partial",
    "C296_behind_refuted"
   ],
   "note": "Full statement false of the code: Violated: the transmitted part is missing: a pane of clear glass in front of a white direction straight behind it looks black.. Refuted by C296_behind_refuted. What holds: C296_glass_partial."
  },
  {
   "property": "C297",
   "status": "proved",
   "theorems": [
    "C297_point",
    "C297_vector",
    "C297_normal",
    "C297_product",
    "C297_round_trip"
   ],
   "note": ""
  },
  {
   "property": "C298",
   "status": "proved",
   "theorems": [
    "C298_point",
    "C298_transformed",
    "C298_world"
   ],
   "note": ""
  },
  {
   "property": "C299",
   "status": "proved",
   "theorems": [
    "C299_same_reports",
    "C299_same_picture"
   ],
   "note": ""
  },
  {
   "property": "C300",
   "status": "partial",
   "theorems": [
    "C300_mirror_partial",
    "C300_glass_partial",
    "C300_direction_refuted"
   ],
   "note": "Full statement false of the code: Violated: in general: an upright mirror with normal +x shows another direction than the mirrored one, so that the mirror looks black where the ray thrown back sees white.. Refuted by C300_direction_refuted. What holds: C300_mirror_partial, C300_glass_partial."
  },
  {
   "property": "C301",
   "status": "proved",
   "theorems": [
    "C301_same_samples",
    "C301_same_picture",
    "C301_cameras"
   ],
   "note": ""
  },
  {
   "property": "C302",
   "status": "proved",
   "theorems": [
    "C302_sum",
    "C302_world"
   ],
   "note": ""
  },
  {
   "property": "C303",
   "status": "partial",
   "theorems": [
    "C303_scaled",
    "C303_world_partial"
   ],
   "note": "What holds: C303_world_partial."
  },
  {
   "property": "C304",
   "status": "proved",
   "theorems": [
    "C304_more",
    "C304_world"
   ],
   "note": ""
  },
  {
   "property": "C305",
   "status": "proved",
   "theorems": [
    "C305_world"
   ],
   "note": ""
  },
  {
   "property": "C306",
   "status": "proved",
   "theorems": [
    "C306_range",
    "C306_dark",
    "C306_lit"
   ],
   "note": ""
  },
  {
   "property": "C307",
   "status": "proved",
   "theorems": [
    "C307_dark_direct",
    "C307_dark_path"
   ],
   "note": ""
  }
 ]
}