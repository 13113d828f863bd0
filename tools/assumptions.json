{
"C01_union_least_upper_bound": [
"ClassicalDedekindReals.sig_forall_dec",
"FunctionalExtensionality.functional_extensionality_dep"
],
"C02_expand_covers": [
"ClassicalDedekindReals.sig_forall_dec",
"FunctionalExtensionality.functional_extensionality_dep"
],
"C02_inside_exact": [
"ClassicalDedekindReals.sig_forall_dec",
"FunctionalExtensionality.functional_extensionality_dep"
],
"C02_maximum_extent_maximal": [
"ClassicalDedekindReals.sig_forall_dec",
"FunctionalExtensionality.functional_extensionality_dep"
],
"C02_measures_monotone": [
"ClassicalDedekindReals.sig_forall_dec",
"FunctionalExtensionality.functional_extensionality_dep"
],
"C02_overlaps_exact": [
"ClassicalDedekindReals.sig_forall_dec",
"FunctionalExtensionality.functional_extensionality_dep"
],
"C03_copy_empty_refuted": [
"ClassicalDedekindReals.sig_forall_dec",
"FunctionalExtensionality.functional_extensionality_dep"
],
"C03_copy_faithful_partial": [
"ClassicalDedekindReals.sig_forall_dec",
"FunctionalExtensionality.functional_extensionality_dep"
],
"C03_ne_self_refuted": [
"ClassicalDedekindReals.sig_forall_dec",
"FunctionalExtensionality.functional_extensionality_dep"
],
"C04_negative_zero_refuted": [
"ClassicalDedekindReals.sig_forall_dec",
"FunctionalExtensionality.functional_extensionality_dep"
],
"C04_slab_interval_exact_partial": [
"ClassicalDedekindReals.sig_forall_dec",
"FunctionalExtensionality.functional_extensionality_dep"
],
"C04_slab_test_exact_partial": [
"ClassicalDedekindReals.sig_forall_dec",
"FunctionalExtensionality.functional_extensionality_dep"
],
"C05_bounding_sphere_contains": [
"ClassicalDedekindReals.sig_forall_dec",
"ClassicalDedekindReals.sig_not_dec",
"FunctionalExtensionality.functional_extensionality_dep"
],
"C05_bounding_sphere_inverted": [
"ClassicalDedekindReals.sig_forall_dec",
"ClassicalDedekindReals.sig_not_dec",
"FunctionalExtensionality.functional_extensionality_dep"
],
"C05_bounding_sphere_least": [
"ClassicalDedekindReals.sig_forall_dec",
"ClassicalDedekindReals.sig_not_dec",
"FunctionalExtensionality.functional_extensionality_dep"
],
"C05_lerp_in_box": [
"ClassicalDedekindReals.sig_forall_dec",
"FunctionalExtensionality.functional_extensionality_dep"
],
"C05_lerp_offset_inverse": [
"ClassicalDedekindReals.sig_forall_dec",
"FunctionalExtensionality.functional_extensionality_dep"
],
"C05_offset_lerp_inverse": [
"ClassicalDedekindReals.sig_forall_dec",
"FunctionalExtensionality.functional_extensionality_dep"
],
"C06_coordinate_system_orthonormal": [
"ClassicalDedekindReals.sig_forall_dec",
"ClassicalDedekindReals.sig_not_dec",
"FunctionalExtensionality.functional_extensionality_dep"
],
"C06_face_forward": [
"ClassicalDedekindReals.sig_forall_dec",
"FunctionalExtensionality.functional_extensionality_dep"
],
"C06_frames": [
"ClassicalDedekindReals.sig_forall_dec",
"ClassicalDedekindReals.sig_not_dec",
"FunctionalExtensionality.functional_extensionality_dep"
],
"C06_normalize": [
"ClassicalDedekindReals.sig_forall_dec",
"ClassicalDedekindReals.sig_not_dec",
"FunctionalExtensionality.functional_extensionality_dep"
],
"C06_spherical_round_trip": [
"ClassicalDedekindReals.sig_forall_dec",
"ClassicalDedekindReals.sig_not_dec",
"Classical_Prop.classic",
"FunctionalExtensionality.functional_extensionality_dep"
],
"C07_equal_refuted": [],
"C07_large_leaf_refuted": [
"ClassicalDedekindReals.sig_forall_dec",
"FunctionalExtensionality.functional_extensionality_dep"
],
"C07_method_names": [],
"C07_middle_refuted": [
"ClassicalDedekindReals.sig_forall_dec",
"FunctionalExtensionality.functional_extensionality_dep"
],
"C07_sah_total_partial": [
"ClassicalDedekindReals.sig_forall_dec",
"FunctionalExtensionality.functional_extensionality_dep"
],
"C08_bounds_enclose": [
"ClassicalDedekindReals.sig_forall_dec",
"FunctionalExtensionality.functional_extensionality_dep"
],
"C08_world_bound": [
"ClassicalDedekindReals.sig_forall_dec",
"FunctionalExtensionality.functional_extensionality_dep"
],
"C09_indices_in_range": [
"ClassicalDedekindReals.sig_forall_dec",
"FunctionalExtensionality.functional_extensionality_dep"
],
"C09_layout": [
"ClassicalDedekindReals.sig_forall_dec",
"FunctionalExtensionality.functional_extensionality_dep"
],
"C100_emission_refuted": [
"ClassicalDedekindReals.sig_forall_dec"
],
"C101_read_image_partial": [],
"C101_read_image_refuted": [],
"C102_counts_partial": [],
"C102_distant_refuted": [],
"C102_projection_refuted": [
"ClassicalDedekindReals.sig_forall_dec",
"FunctionalExtensionality.functional_extensionality_dep"
],
"C103_each_sample_once": [
"ClassicalDedekindReals.sig_forall_dec",
"ClassicalDedekindReals.sig_not_dec",
"FunctionalExtensionality.functional_extensionality_dep"
],
"C104_path_nonneg": [
"ClassicalDedekindReals.sig_forall_dec",
"ClassicalDedekindReals.sig_not_dec",
"Classical_Prop.classic",
"FunctionalExtensionality.functional_extensionality_dep"
],
"C105_superposition": [
"ClassicalDedekindReals.sig_forall_dec",
"ClassicalDedekindReals.sig_not_dec",
"Classical_Prop.classic",
"FunctionalExtensionality.functional_extensionality_dep"
],
"C106_averaging": [
"ClassicalDedekindReals.sig_forall_dec",
"ClassicalDedekindReals.sig_not_dec",
"Classical_Prop.classic",
"FunctionalExtensionality.functional_extensionality_dep"
],
"C106_delta_light": [
"ClassicalDedekindReals.sig_forall_dec",
"ClassicalDedekindReals.sig_not_dec",
"Classical_Prop.classic",
"FunctionalExtensionality.functional_extensionality_dep"
],
"C106_uniform_choice": [
"ClassicalDedekindReals.sig_forall_dec",
"FunctionalExtensionality.functional_extensionality_dep"
],
"C107_mis_refuted": [
"ClassicalDedekindReals.sig_forall_dec",
"ClassicalDedekindReals.sig_not_dec",
"Classical_Prop.classic",
"FunctionalExtensionality.functional_extensionality_dep"
],
"C108_direct_requests": [],
"C108_path_requests": [],
"C109_one_light_refuted": [],
"C10_any_partial": [
"ClassicalDedekindReals.sig_forall_dec",
"FunctionalExtensionality.functional_extensionality_dep"
],
"C10_empty": [
"ClassicalDedekindReals.sig_forall_dec",
"FunctionalExtensionality.functional_extensionality_dep"
],
"C10_nearest_height_partial": [
"ClassicalDedekindReals.sig_forall_dec",
"FunctionalExtensionality.functional_extensionality_dep"
],
"C10_nearest_partial": [
"ClassicalDedekindReals.sig_forall_dec",
"FunctionalExtensionality.functional_extensionality_dep"
],
"C10_stack_overflow_refuted": [
"ClassicalDedekindReals.sig_forall_dec",
"FunctionalExtensionality.functional_extensionality_dep"
],
"C110_reflection_partial": [
"ClassicalDedekindReals.sig_forall_dec",
"ClassicalDedekindReals.sig_not_dec",
"Classical_Prop.classic",
"FunctionalExtensionality.functional_extensionality_dep"
],
"C110_transmission_refuted": [
"ClassicalDedekindReals.sig_forall_dec",
"ClassicalDedekindReals.sig_not_dec",
"Classical_Prop.classic",
"FunctionalExtensionality.functional_extensionality_dep"
],
"C111_double_count_refuted": [
"ClassicalDedekindReals.sig_forall_dec",
"ClassicalDedekindReals.sig_not_dec",
"Classical_Prop.classic",
"FunctionalExtensionality.functional_extensionality_dep"
],
"C112_reflection_differential": [
"ClassicalDedekindReals.sig_forall_dec",
"FunctionalExtensionality.functional_extensionality_dep"
],
"C113_ratio_partial": [
"ClassicalDedekindReals.sig_forall_dec",
"FunctionalExtensionality.functional_extensionality_dep"
],
"C113_transmission_curved_refuted": [
"ClassicalDedekindReals.sig_forall_dec",
"ClassicalDedekindReals.sig_not_dec",
"Classical_Prop.classic",
"FunctionalExtensionality.functional_extensionality_dep"
],
"C113_transmission_refuted": [
"ClassicalDedekindReals.sig_forall_dec",
"ClassicalDedekindReals.sig_not_dec",
"FunctionalExtensionality.functional_extensionality_dep"
],
"C114_adjacency_at_every_level": [
"ClassicalDedekindReals.sig_forall_dec",
"FunctionalExtensionality.functional_extensionality_dep"
],
"C114_constructor_builds_adjacency": [
"ClassicalDedekindReals.sig_forall_dec"
],
"C114_unused_vertices_are_refused": [
"ClassicalDedekindReals.sig_forall_dec"
],
"C115_limit_step_rule": [
"ClassicalDedekindReals.sig_forall_dec",
"FunctionalExtensionality.functional_extensionality_dep"
],
"C115_positions_follow_Loops_rules": [
"ClassicalDedekindReals.sig_forall_dec",
"FunctionalExtensionality.functional_extensionality_dep"
],
"C116_valences": [
"ClassicalDedekindReals.sig_forall_dec",
"FunctionalExtensionality.functional_extensionality_dep"
],
"C117_hull": [
"ClassicalDedekindReals.sig_forall_dec",
"FunctionalExtensionality.functional_extensionality_dep"
],
"C117_object_bound": [
"ClassicalDedekindReals.sig_forall_dec",
"FunctionalExtensionality.functional_extensionality_dep"
],
"C118_affine_invariance": [
"ClassicalDedekindReals.sig_forall_dec",
"FunctionalExtensionality.functional_extensionality_dep"
],
"C119_limit_position_depends_on_levels_refuted": [
"ClassicalDedekindReals.sig_forall_dec",
"FunctionalExtensionality.functional_extensionality_dep"
],
"C11_box_test_conservative_partial": [
"ClassicalDedekindReals.sig_forall_dec",
"FunctionalExtensionality.functional_extensionality_dep"
],
"C11_negative_zero_refuted": [
"ClassicalDedekindReals.sig_forall_dec",
"FunctionalExtensionality.functional_extensionality_dep"
],
"C11_on_face_refuted": [
"ClassicalDedekindReals.sig_forall_dec",
"FunctionalExtensionality.functional_extensionality_dep"
],
"C120_no_closed_mesh_is_refined_refuted": [
"ClassicalDedekindReals.sig_forall_dec",
"ClassicalDedekindReals.sig_not_dec",
"FunctionalExtensionality.functional_extensionality_dep"
],
"C120_open_mesh_is_refined_partial": [
"ClassicalDedekindReals.sig_forall_dec",
"ClassicalDedekindReals.sig_not_dec",
"FunctionalExtensionality.functional_extensionality_dep"
],
"C121_schlick_partial": [
"ClassicalDedekindReals.sig_forall_dec",
"ClassicalDedekindReals.sig_not_dec",
"Classical_Prop.classic",
"FunctionalExtensionality.functional_extensionality_dep"
],
"C121_schlick_refuted": [
"ClassicalDedekindReals.sig_forall_dec",
"ClassicalDedekindReals.sig_not_dec",
"Classical_Prop.classic",
"FunctionalExtensionality.functional_extensionality_dep"
],
"C122_transform_ignored_refuted": [
"ClassicalDedekindReals.sig_forall_dec",
"ClassicalDedekindReals.sig_not_dec",
"Classical_Prop.classic",
"FunctionalExtensionality.functional_extensionality_dep"
],
"C123_coefficients": [
"ClassicalDedekindReals.sig_forall_dec",
"ClassicalDedekindReals.sig_not_dec",
"FunctionalExtensionality.functional_extensionality_dep"
],
"C123_density_coefficients": [
"ClassicalDedekindReals.sig_forall_dec",
"FunctionalExtensionality.functional_extensionality_dep"
],
"C124_world_bound_partial": [
"ClassicalDedekindReals.sig_forall_dec",
"ClassicalDedekindReals.sig_not_dec",
"FunctionalExtensionality.functional_extensionality_dep"
],
"C124_world_bound_refuted": [
"ClassicalDedekindReals.sig_forall_dec",
"ClassicalDedekindReals.sig_not_dec",
"FunctionalExtensionality.functional_extensionality_dep"
],
"C125_constant": [
"ClassicalDedekindReals.sig_forall_dec",
"ClassicalDedekindReals.sig_not_dec",
"FunctionalExtensionality.functional_extensionality_dep"
],
"C125_convergence": [
"ClassicalDedekindReals.sig_forall_dec",
"ClassicalDedekindReals.sig_not_dec",
"FunctionalExtensionality.functional_extensionality_dep"
],
"C125_diverges": [
"ClassicalDedekindReals.sig_forall_dec",
"ClassicalDedekindReals.sig_not_dec",
"FunctionalExtensionality.functional_extensionality_dep"
],
"C125_marching": [
"ClassicalDedekindReals.sig_forall_dec",
"ClassicalDedekindReals.sig_not_dec",
"FunctionalExtensionality.functional_extensionality_dep"
],
"C125_miss": [
"ClassicalDedekindReals.sig_forall_dec",
"ClassicalDedekindReals.sig_not_dec",
"FunctionalExtensionality.functional_extensionality_dep"
],
"C126_convergence": [
"ClassicalDedekindReals.sig_forall_dec",
"ClassicalDedekindReals.sig_not_dec",
"Classical_Prop.classic",
"FunctionalExtensionality.functional_extensionality_dep"
],
"C126_density": [
"ClassicalDedekindReals.sig_forall_dec",
"ClassicalDedekindReals.sig_not_dec",
"FunctionalExtensionality.functional_extensionality_dep"
],
"C127_medium_phase_partial": [
"ClassicalDedekindReals.sig_forall_dec",
"ClassicalDedekindReals.sig_not_dec",
"Classical_Prop.classic",
"FunctionalExtensionality.functional_extensionality_dep"
],
"C127_medium_phase_refuted": [
"ClassicalDedekindReals.sig_forall_dec",
"ClassicalDedekindReals.sig_not_dec",
"Classical_Prop.classic",
"FunctionalExtensionality.functional_extensionality_dep"
],
"C128_bound": [
"ClassicalDedekindReals.sig_forall_dec",
"FunctionalExtensionality.functional_extensionality_dep"
],
"C128_coefficients": [
"ClassicalDedekindReals.sig_forall_dec",
"FunctionalExtensionality.functional_extensionality_dep"
],
"C128_encloses": [
"ClassicalDedekindReals.sig_forall_dec",
"ClassicalDedekindReals.sig_not_dec",
"Classical_Prop.classic",
"FunctionalExtensionality.functional_extensionality_dep"
],
"C128_interval": [
"ClassicalDedekindReals.sig_forall_dec",
"FunctionalExtensionality.functional_extensionality_dep"
],
"C128_members": [
"ClassicalDedekindReals.sig_forall_dec",
"ClassicalDedekindReals.sig_not_dec",
"Classical_Prop.classic",
"FunctionalExtensionality.functional_extensionality_dep"
],
"C128_tau": [
"ClassicalDedekindReals.sig_forall_dec",
"FunctionalExtensionality.functional_extensionality_dep"
],
"C129_aggregate_empty_partial": [
"ClassicalDedekindReals.sig_forall_dec"
],
"C129_aggregate_refuted": [
"ClassicalDedekindReals.sig_forall_dec",
"ClassicalDedekindReals.sig_not_dec",
"Classical_Prop.classic",
"FunctionalExtensionality.functional_extensionality_dep"
],
"C12_inverse_involution": [],
"C12_matrix": [
"ClassicalDedekindReals.sig_forall_dec",
"FunctionalExtensionality.functional_extensionality_dep"
],
"C12_round_trip": [
"ClassicalDedekindReals.sig_forall_dec",
"ClassicalDedekindReals.sig_not_dec",
"FunctionalExtensionality.functional_extensionality_dep"
],
"C130_grid_refuted": [],
"C131_whitted_nonneg": [
"ClassicalDedekindReals.sig_forall_dec",
"ClassicalDedekindReals.sig_not_dec",
"Classical_Prop.classic",
"FunctionalExtensionality.functional_extensionality_dep"
],
"C131_whitted_sum": [
"ClassicalDedekindReals.sig_forall_dec",
"ClassicalDedekindReals.sig_not_dec",
"Classical_Prop.classic",
"FunctionalExtensionality.functional_extensionality_dep"
],
"C132_delta_estimate": [
"ClassicalDedekindReals.sig_forall_dec",
"ClassicalDedekindReals.sig_not_dec",
"Classical_Prop.classic",
"FunctionalExtensionality.functional_extensionality_dep"
],
"C132_direct_all": [
"ClassicalDedekindReals.sig_forall_dec",
"ClassicalDedekindReals.sig_not_dec",
"Classical_Prop.classic",
"FunctionalExtensionality.functional_extensionality_dep"
],
"C133_no_light": [
"ClassicalDedekindReals.sig_forall_dec",
"ClassicalDedekindReals.sig_not_dec",
"Classical_Prop.classic",
"FunctionalExtensionality.functional_extensionality_dep"
],
"C133_one_light": [
"ClassicalDedekindReals.sig_forall_dec",
"ClassicalDedekindReals.sig_not_dec",
"Classical_Prop.classic",
"FunctionalExtensionality.functional_extensionality_dep"
],
"C133_unbiased_choice": [
"ClassicalDedekindReals.sig_forall_dec",
"FunctionalExtensionality.functional_extensionality_dep"
],
"C134_path_sum": [
"ClassicalDedekindReals.sig_forall_dec",
"ClassicalDedekindReals.sig_not_dec",
"Classical_Prop.classic",
"FunctionalExtensionality.functional_extensionality_dep"
],
"C134_stored_numbers": [],
"C135_at_most_half": [
"ClassicalDedekindReals.sig_forall_dec",
"FunctionalExtensionality.functional_extensionality_dep"
],
"C135_roulette_unbiased": [
"ClassicalDedekindReals.sig_forall_dec",
"FunctionalExtensionality.functional_extensionality_dep"
],
"C136_background": [
"ClassicalDedekindReals.sig_forall_dec",
"ClassicalDedekindReals.sig_not_dec",
"Classical_Prop.classic",
"FunctionalExtensionality.functional_extensionality_dep"
],
"C136_child_ray": [
"ClassicalDedekindReals.sig_forall_dec"
],
"C136_depth_limit": [
"ClassicalDedekindReals.sig_forall_dec",
"ClassicalDedekindReals.sig_not_dec",
"Classical_Prop.classic",
"FunctionalExtensionality.functional_extensionality_dep"
],
"C136_recursion": [
"ClassicalDedekindReals.sig_forall_dec",
"ClassicalDedekindReals.sig_not_dec",
"Classical_Prop.classic",
"FunctionalExtensionality.functional_extensionality_dep"
],
"C136_time": [
"ClassicalDedekindReals.sig_forall_dec",
"ClassicalDedekindReals.sig_not_dec",
"Classical_Prop.classic",
"FunctionalExtensionality.functional_extensionality_dep"
],
"C137_inside_cell": [
"ClassicalDedekindReals.sig_forall_dec",
"FunctionalExtensionality.functional_extensionality_dep"
],
"C137_point_sampled": [
"ClassicalDedekindReals.sig_forall_dec",
"FunctionalExtensionality.functional_extensionality_dep"
],
"C137_solid": [
"ClassicalDedekindReals.sig_forall_dec",
"FunctionalExtensionality.functional_extensionality_dep"
],
"C138_equal_textures_refuted": [
"ClassicalDedekindReals.sig_forall_dec",
"FunctionalExtensionality.functional_extensionality_dep"
],
"C138_odd_fraction_partial": [
"ClassicalDedekindReals.sig_forall_dec",
"FunctionalExtensionality.functional_extensionality_dep"
],
"C138_thin_footprint_refuted": [
"ClassicalDedekindReals.sig_forall_dec",
"FunctionalExtensionality.functional_extensionality_dep"
],
"C139_even_levels_partial": [
"ClassicalDedekindReals.sig_forall_dec",
"ClassicalDedekindReals.sig_not_dec",
"Classical_Prop.classic",
"FunctionalExtensionality.functional_extensionality_dep"
],
"C139_odd_levels_transposed_refuted": [
"ClassicalDedekindReals.sig_forall_dec",
"ClassicalDedekindReals.sig_not_dec",
"Classical_Prop.classic",
"FunctionalExtensionality.functional_extensionality_dep"
],
"C13_composition": [
"ClassicalDedekindReals.sig_forall_dec",
"ClassicalDedekindReals.sig_not_dec",
"FunctionalExtensionality.functional_extensionality_dep"
],
"C13_ray_moves_with_transform": [
"ClassicalDedekindReals.sig_forall_dec",
"ClassicalDedekindReals.sig_not_dec",
"FunctionalExtensionality.functional_extensionality_dep"
],
"C13_translate": [
"ClassicalDedekindReals.sig_forall_dec",
"FunctionalExtensionality.functional_extensionality_dep"
],
"C140_mean": [
"ClassicalDedekindReals.sig_forall_dec",
"ClassicalDedekindReals.sig_not_dec",
"Classical_Prop.classic",
"FunctionalExtensionality.functional_extensionality_dep"
],
"C140_texel_centres": [
"ClassicalDedekindReals.sig_forall_dec",
"ClassicalDedekindReals.sig_not_dec",
"Classical_Prop.classic",
"FunctionalExtensionality.functional_extensionality_dep"
],
"C140_tiling": [
"ClassicalDedekindReals.sig_forall_dec",
"ClassicalDedekindReals.sig_not_dec",
"Classical_Prop.classic",
"FunctionalExtensionality.functional_extensionality_dep"
],
"C141_black_quarter_refuted": [
"ClassicalDedekindReals.sig_forall_dec",
"ClassicalDedekindReals.sig_not_dec",
"Classical_Prop.classic",
"FunctionalExtensionality.functional_extensionality_dep"
],
"C142_all_footprints_partial": [
"ClassicalDedekindReals.sig_forall_dec",
"ClassicalDedekindReals.sig_not_dec",
"Classical_Prop.classic",
"FunctionalExtensionality.functional_extensionality_dep"
],
"C142_elliptical_refuted": [
"ClassicalDedekindReals.sig_forall_dec",
"ClassicalDedekindReals.sig_not_dec",
"Classical_Prop.classic",
"FunctionalExtensionality.functional_extensionality_dep"
],
"C142_point_footprint_partial": [
"ClassicalDedekindReals.sig_forall_dec",
"ClassicalDedekindReals.sig_not_dec",
"Classical_Prop.classic",
"FunctionalExtensionality.functional_extensionality_dep"
],
"C143_cache_type_refuted": [
"ClassicalDedekindReals.sig_forall_dec",
"ClassicalDedekindReals.sig_not_dec",
"Classical_Prop.classic",
"FunctionalExtensionality.functional_extensionality_dep"
],
"C143_cached_partial": [
"ClassicalDedekindReals.sig_forall_dec",
"ClassicalDedekindReals.sig_not_dec",
"Classical_Prop.classic",
"FunctionalExtensionality.functional_extensionality_dep"
],
"C143_evaluation_refuted": [
"ClassicalDedekindReals.sig_forall_dec",
"ClassicalDedekindReals.sig_not_dec",
"Classical_Prop.classic",
"FunctionalExtensionality.functional_extensionality_dep"
],
"C143_keys_partial": [
"ClassicalDedekindReals.sig_forall_dec",
"ClassicalDedekindReals.sig_not_dec",
"Classical_Prop.classic",
"FunctionalExtensionality.functional_extensionality_dep"
],
"C143_nonsquare_refuted": [
"ClassicalDedekindReals.sig_forall_dec",
"ClassicalDedekindReals.sig_not_dec",
"Classical_Prop.classic",
"FunctionalExtensionality.functional_extensionality_dep"
],
"C143_unreadable_refuted": [],
"C144_square": [
"ClassicalDedekindReals.sig_forall_dec",
"ClassicalDedekindReals.sig_not_dec",
"Classical_Prop.classic",
"FunctionalExtensionality.functional_extensionality_dep"
],
"C144_weights": [
"ClassicalDedekindReals.sig_forall_dec",
"ClassicalDedekindReals.sig_not_dec",
"Classical_Prop.classic",
"FunctionalExtensionality.functional_extensionality_dep"
],
"C145_nonsquare_refuted": [
"ClassicalDedekindReals.sig_forall_dec",
"ClassicalDedekindReals.sig_not_dec",
"Classical_Prop.classic",
"FunctionalExtensionality.functional_extensionality_dep"
],
"C146_period": [
"ClassicalDedekindReals.sig_forall_dec",
"FunctionalExtensionality.functional_extensionality_dep"
],
"C146_total_bounded": [
"ClassicalDedekindReals.sig_forall_dec",
"FunctionalExtensionality.functional_extensionality_dep"
],
"C147_discontinuous_refuted": [
"ClassicalDedekindReals.sig_forall_dec",
"FunctionalExtensionality.functional_extensionality_dep"
],
"C147_lattice_partial": [
"ClassicalDedekindReals.sig_forall_dec",
"FunctionalExtensionality.functional_extensionality_dep"
],
"C147_lattice_refuted": [
"ClassicalDedekindReals.sig_forall_dec",
"FunctionalExtensionality.functional_extensionality_dep"
],
"C148_smooth_step": [
"ClassicalDedekindReals.sig_forall_dec",
"FunctionalExtensionality.functional_extensionality_dep"
],
"C148_turbulence": [
"ClassicalDedekindReals.sig_forall_dec",
"ClassicalDedekindReals.sig_not_dec",
"Classical_Prop.classic",
"FunctionalExtensionality.functional_extensionality_dep"
],
"C148_wrinkled": [
"ClassicalDedekindReals.sig_forall_dec",
"ClassicalDedekindReals.sig_not_dec",
"Classical_Prop.classic",
"FunctionalExtensionality.functional_extensionality_dep"
],
"C149_large_footprint_partial": [
"ClassicalDedekindReals.sig_forall_dec",
"ClassicalDedekindReals.sig_not_dec",
"Classical_Prop.classic",
"FunctionalExtensionality.functional_extensionality_dep"
],
"C149_marble_refuted": [
"ClassicalDedekindReals.sig_forall_dec",
"ClassicalDedekindReals.sig_not_dec",
"Classical_Prop.classic",
"FunctionalExtensionality.functional_extensionality_dep"
],
"C149_no_differentials_refuted": [
"ClassicalDedekindReals.sig_forall_dec",
"ClassicalDedekindReals.sig_not_dec",
"Classical_Prop.classic",
"FunctionalExtensionality.functional_extensionality_dep"
],
"C149_octave_refuted": [
"ClassicalDedekindReals.sig_forall_dec",
"ClassicalDedekindReals.sig_not_dec",
"Classical_Prop.classic",
"FunctionalExtensionality.functional_extensionality_dep"
],
"C149_windy_partial": [
"ClassicalDedekindReals.sig_forall_dec",
"ClassicalDedekindReals.sig_not_dec",
"Classical_Prop.classic",
"FunctionalExtensionality.functional_extensionality_dep"
],
"C14_normals_stay_perpendicular": [
"ClassicalDedekindReals.sig_forall_dec",
"ClassicalDedekindReals.sig_not_dec",
"FunctionalExtensionality.functional_extensionality_dep"
],
"C150_planar": [
"ClassicalDedekindReals.sig_forall_dec",
"FunctionalExtensionality.functional_extensionality_dep"
],
"C150_planar_values": [
"ClassicalDedekindReals.sig_forall_dec",
"FunctionalExtensionality.functional_extensionality_dep"
],
"C150_solid": [
"ClassicalDedekindReals.sig_forall_dec",
"FunctionalExtensionality.functional_extensionality_dep"
],
"C150_uv": [
"ClassicalDedekindReals.sig_forall_dec",
"FunctionalExtensionality.functional_extensionality_dep"
],
"C150_uv_values": [
"ClassicalDedekindReals.sig_forall_dec"
],
"C151_poles": [
"ClassicalDedekindReals.sig_forall_dec",
"ClassicalDedekindReals.sig_not_dec",
"Classical_Prop.classic",
"FunctionalExtensionality.functional_extensionality_dep"
],
"C151_spherical_range": [
"ClassicalDedekindReals.sig_forall_dec",
"ClassicalDedekindReals.sig_not_dec",
"Classical_Prop.classic",
"FunctionalExtensionality.functional_extensionality_dep"
],
"C151_values": [
"ClassicalDedekindReals.sig_forall_dec",
"ClassicalDedekindReals.sig_not_dec",
"Classical_Prop.classic",
"FunctionalExtensionality.functional_extensionality_dep"
],
"C152_cylindrical_refuted": [],
"C152_spherical_refuted": [
"ClassicalDedekindReals.sig_forall_dec",
"ClassicalDedekindReals.sig_not_dec",
"Classical_Prop.classic",
"FunctionalExtensionality.functional_extensionality_dep"
],
"C152_x_differences_partial": [
"ClassicalDedekindReals.sig_forall_dec",
"ClassicalDedekindReals.sig_not_dec",
"Classical_Prop.classic",
"FunctionalExtensionality.functional_extensionality_dep"
],
"C152_x_seam_partial": [
"ClassicalDedekindReals.sig_forall_dec",
"ClassicalDedekindReals.sig_not_dec",
"Classical_Prop.classic",
"FunctionalExtensionality.functional_extensionality_dep"
],
"C152_y_difference_partial": [
"ClassicalDedekindReals.sig_forall_dec",
"ClassicalDedekindReals.sig_not_dec",
"Classical_Prop.classic",
"FunctionalExtensionality.functional_extensionality_dep"
],
"C153_dots_refuted": [],
"C154_corner": [
"ClassicalDedekindReals.sig_forall_dec",
"ClassicalDedekindReals.sig_not_dec",
"FunctionalExtensionality.functional_extensionality_dep"
],
"C154_half_fan": [
"ClassicalDedekindReals.sig_forall_dec",
"ClassicalDedekindReals.sig_not_dec",
"FunctionalExtensionality.functional_extensionality_dep"
],
"C155_interior_refuted": [
"ClassicalDedekindReals.sig_forall_dec",
"ClassicalDedekindReals.sig_not_dec",
"FunctionalExtensionality.functional_extensionality_dep"
],
"C156_sample_radiance": [
"ClassicalDedekindReals.sig_forall_dec",
"ClassicalDedekindReals.sig_not_dec",
"FunctionalExtensionality.functional_extensionality_dep"
],
"C157_has_nans": [],
"C158_injective": [
"ClassicalDedekindReals.sig_forall_dec",
"ClassicalDedekindReals.sig_not_dec",
"Classical_Prop.classic",
"FunctionalExtensionality.functional_extensionality_dep"
],
"C158_perspective_pixel": [
"ClassicalDedekindReals.sig_forall_dec",
"ClassicalDedekindReals.sig_not_dec",
"Classical_Prop.classic",
"FunctionalExtensionality.functional_extensionality_dep"
],
"C158_static": [
"ClassicalDedekindReals.sig_forall_dec",
"ClassicalDedekindReals.sig_not_dec",
"Classical_Prop.classic",
"FunctionalExtensionality.functional_extensionality_dep"
],
"C159_ortho_focus": [
"ClassicalDedekindReals.sig_forall_dec",
"ClassicalDedekindReals.sig_not_dec",
"Classical_Prop.classic",
"FunctionalExtensionality.functional_extensionality_dep"
],
"C159_perspective_focus": [
"ClassicalDedekindReals.sig_forall_dec",
"ClassicalDedekindReals.sig_not_dec",
"Classical_Prop.classic",
"FunctionalExtensionality.functional_extensionality_dep"
],
"C15_bbox_image_partial": [
"ClassicalDedekindReals.sig_forall_dec",
"ClassicalDedekindReals.sig_not_dec",
"FunctionalExtensionality.functional_extensionality_dep"
],
"C15_bbox_image_refuted": [
"ClassicalDedekindReals.sig_forall_dec",
"ClassicalDedekindReals.sig_not_dec",
"FunctionalExtensionality.functional_extensionality_dep"
],
"C160_ortho_pixel": [
"ClassicalDedekindReals.sig_forall_dec",
"ClassicalDedekindReals.sig_not_dec",
"Classical_Prop.classic",
"FunctionalExtensionality.functional_extensionality_dep"
],
"C161_ortho_lens_origin_refuted": [
"ClassicalDedekindReals.sig_forall_dec",
"ClassicalDedekindReals.sig_not_dec",
"Classical_Prop.classic",
"FunctionalExtensionality.functional_extensionality_dep"
],
"C162_offsets_in_camera_space_refuted": [
"ClassicalDedekindReals.sig_forall_dec",
"ClassicalDedekindReals.sig_not_dec",
"Classical_Prop.classic",
"FunctionalExtensionality.functional_extensionality_dep"
],
"C162_perspective_differential_partial": [
"ClassicalDedekindReals.sig_forall_dec",
"ClassicalDedekindReals.sig_not_dec",
"Classical_Prop.classic",
"FunctionalExtensionality.functional_extensionality_dep"
],
"C163_differential_time_refuted": [
"ClassicalDedekindReals.sig_forall_dec",
"ClassicalDedekindReals.sig_not_dec",
"Classical_Prop.classic",
"FunctionalExtensionality.functional_extensionality_dep"
],
"C164_identity_partial": [
"ClassicalDedekindReals.sig_forall_dec",
"ClassicalDedekindReals.sig_not_dec",
"Classical_Prop.classic",
"FunctionalExtensionality.functional_extensionality_dep"
],
"C164_placed_twice_refuted": [
"ClassicalDedekindReals.sig_forall_dec",
"ClassicalDedekindReals.sig_not_dec",
"Classical_Prop.classic",
"FunctionalExtensionality.functional_extensionality_dep"
],
"C165_covers_sphere": [
"ClassicalDedekindReals.sig_forall_dec",
"ClassicalDedekindReals.sig_not_dec",
"Classical_Prop.classic",
"FunctionalExtensionality.functional_extensionality_dep"
],
"C165_injective": [
"ClassicalDedekindReals.sig_forall_dec",
"ClassicalDedekindReals.sig_not_dec",
"Classical_Prop.classic",
"FunctionalExtensionality.functional_extensionality_dep"
],
"C165_unit": [
"ClassicalDedekindReals.sig_forall_dec",
"ClassicalDedekindReals.sig_not_dec",
"FunctionalExtensionality.functional_extensionality_dep"
],
"C166_environment_time_refuted": [
"ClassicalDedekindReals.sig_forall_dec",
"ClassicalDedekindReals.sig_not_dec",
"Classical_Prop.classic",
"FunctionalExtensionality.functional_extensionality_dep"
],
"C166_motion_refuted": [
"ClassicalDedekindReals.sig_forall_dec",
"ClassicalDedekindReals.sig_not_dec",
"Classical_Prop.classic",
"FunctionalExtensionality.functional_extensionality_dep"
],
"C167_main_ray_partial": [
"ClassicalDedekindReals.sig_forall_dec",
"FunctionalExtensionality.functional_extensionality_dep"
],
"C167_offset_positions_partial": [
"ClassicalDedekindReals.sig_forall_dec",
"FunctionalExtensionality.functional_extensionality_dep"
],
"C167_offsets_ignore_sample_refuted": [
"ClassicalDedekindReals.sig_forall_dec",
"FunctionalExtensionality.functional_extensionality_dep"
],
"C168_pinhole": [
"ClassicalDedekindReals.sig_forall_dec",
"FunctionalExtensionality.functional_extensionality_dep"
],
"C168_range": [
"ClassicalDedekindReals.sig_forall_dec",
"FunctionalExtensionality.functional_extensionality_dep"
],
"C169_pinhole_unnormalised_refuted": [
"ClassicalDedekindReals.sig_forall_dec",
"FunctionalExtensionality.functional_extensionality_dep"
],
"C169_placed_unit_partial": [
"ClassicalDedekindReals.sig_forall_dec",
"ClassicalDedekindReals.sig_not_dec",
"Classical_Prop.classic",
"FunctionalExtensionality.functional_extensionality_dep"
],
"C16_look_at_direction_refuted": [
"ClassicalDedekindReals.sig_forall_dec",
"ClassicalDedekindReals.sig_not_dec",
"FunctionalExtensionality.functional_extensionality_dep"
],
"C16_look_at_position_partial": [
"ClassicalDedekindReals.sig_forall_dec",
"ClassicalDedekindReals.sig_not_dec",
"FunctionalExtensionality.functional_extensionality_dep"
],
"C170_all_but_one_partial": [
"ClassicalDedekindReals.sig_forall_dec",
"FunctionalExtensionality.functional_extensionality_dep"
],
"C170_small_partial": [
"ClassicalDedekindReals.sig_forall_dec",
"FunctionalExtensionality.functional_extensionality_dep"
],
"C170_stray_refuted": [
"ClassicalDedekindReals.sig_forall_dec",
"FunctionalExtensionality.functional_extensionality_dep"
],
"C171_black": [
"ClassicalDedekindReals.sig_forall_dec",
"FunctionalExtensionality.functional_extensionality_dep"
],
"C171_clip": [
"ClassicalDedekindReals.sig_forall_dec",
"FunctionalExtensionality.functional_extensionality_dep"
],
"C172_rough": [
"ClassicalDedekindReals.sig_forall_dec",
"ClassicalDedekindReals.sig_not_dec",
"Classical_Prop.classic",
"FunctionalExtensionality.functional_extensionality_dep"
],
"C172_smooth": [
"ClassicalDedekindReals.sig_forall_dec",
"ClassicalDedekindReals.sig_not_dec",
"Classical_Prop.classic",
"FunctionalExtensionality.functional_extensionality_dep"
],
"C173_footprint_refuted": [
"ClassicalDedekindReals.sig_forall_dec",
"ClassicalDedekindReals.sig_not_dec",
"Classical_Prop.classic",
"FunctionalExtensionality.functional_extensionality_dep"
],
"C173_lookup_partial": [
"ClassicalDedekindReals.sig_forall_dec",
"ClassicalDedekindReals.sig_not_dec",
"Classical_Prop.classic",
"FunctionalExtensionality.functional_extensionality_dep"
],
"C174_mirror": [
"ClassicalDedekindReals.sig_forall_dec",
"ClassicalDedekindReals.sig_not_dec",
"Classical_Prop.classic",
"FunctionalExtensionality.functional_extensionality_dep"
],
"C175_light_lost_refuted": [
"ClassicalDedekindReals.sig_forall_dec",
"ClassicalDedekindReals.sig_not_dec",
"Classical_Prop.classic",
"FunctionalExtensionality.functional_extensionality_dep"
],
"C175_split_partial": [
"ClassicalDedekindReals.sig_forall_dec",
"ClassicalDedekindReals.sig_not_dec",
"Classical_Prop.classic",
"FunctionalExtensionality.functional_extensionality_dep"
],
"C176_coating_refuted": [
"ClassicalDedekindReals.sig_forall_dec",
"ClassicalDedekindReals.sig_not_dec",
"Classical_Prop.classic",
"FunctionalExtensionality.functional_extensionality_dep"
],
"C177_clear": [
"ClassicalDedekindReals.sig_forall_dec",
"ClassicalDedekindReals.sig_not_dec",
"Classical_Prop.classic",
"FunctionalExtensionality.functional_extensionality_dep"
],
"C177_diffuse": [
"ClassicalDedekindReals.sig_forall_dec",
"ClassicalDedekindReals.sig_not_dec",
"Classical_Prop.classic",
"FunctionalExtensionality.functional_extensionality_dep"
],
"C177_opaque": [
"ClassicalDedekindReals.sig_forall_dec",
"ClassicalDedekindReals.sig_not_dec",
"Classical_Prop.classic",
"FunctionalExtensionality.functional_extensionality_dep"
],
"C177_scaled": [
"ClassicalDedekindReals.sig_forall_dec",
"ClassicalDedekindReals.sig_not_dec",
"Classical_Prop.classic",
"FunctionalExtensionality.functional_extensionality_dep"
],
"C177_translucent": [
"ClassicalDedekindReals.sig_forall_dec",
"ClassicalDedekindReals.sig_not_dec",
"Classical_Prop.classic",
"FunctionalExtensionality.functional_extensionality_dep"
],
"C178_usable": [
"ClassicalDedekindReals.sig_forall_dec",
"ClassicalDedekindReals.sig_not_dec",
"Classical_Prop.classic",
"FunctionalExtensionality.functional_extensionality_dep"
],
"C179_non_negative": [
"ClassicalDedekindReals.sig_forall_dec",
"ClassicalDedekindReals.sig_not_dec",
"Classical_Prop.classic",
"FunctionalExtensionality.functional_extensionality_dep"
],
"C17_motion_bounds_static_refuted": [
"ClassicalDedekindReals.sig_forall_dec",
"ClassicalDedekindReals.sig_not_dec",
"Classical_Prop.classic",
"FunctionalExtensionality.functional_extensionality_dep"
],
"C17_motion_bounds_translation_partial": [
"ClassicalDedekindReals.sig_forall_dec",
"ClassicalDedekindReals.sig_not_dec",
"Classical_Prop.classic",
"FunctionalExtensionality.functional_extensionality_dep"
],
"C180_mix_refuted": [
"ClassicalDedekindReals.sig_forall_dec",
"ClassicalDedekindReals.sig_not_dec",
"FunctionalExtensionality.functional_extensionality_dep"
],
"C181_coefficients": [
"ClassicalDedekindReals.sig_forall_dec"
],
"C182_diffuse_refuted": [],
"C182_kd_surface_partial": [
"ClassicalDedekindReals.sig_forall_dec",
"ClassicalDedekindReals.sig_not_dec",
"Classical_Prop.classic",
"FunctionalExtensionality.functional_extensionality_dep"
],
"C182_surface_refuted": [],
"C183_bump_refuted": [
"ClassicalDedekindReals.sig_forall_dec",
"ClassicalDedekindReals.sig_not_dec",
"FunctionalExtensionality.functional_extensionality_dep"
],
"C184_file": [
"ClassicalDedekindReals.sig_forall_dec",
"ClassicalDedekindReals.sig_not_dec",
"Classical_Prop.classic",
"FunctionalExtensionality.functional_extensionality_dep"
],
"C184_malformed": [
"ClassicalDedekindReals.sig_forall_dec",
"ClassicalDedekindReals.sig_not_dec",
"Classical_Prop.classic",
"FunctionalExtensionality.functional_extensionality_dep"
],
"C185_again_refuted": [
"ClassicalDedekindReals.sig_forall_dec",
"ClassicalDedekindReals.sig_not_dec",
"Classical_Prop.classic",
"FunctionalExtensionality.functional_extensionality_dep"
],
"C185_first_partial": [
"ClassicalDedekindReals.sig_forall_dec",
"ClassicalDedekindReals.sig_not_dec",
"Classical_Prop.classic",
"FunctionalExtensionality.functional_extensionality_dep"
],
"C186_clear_partial": [
"ClassicalDedekindReals.sig_forall_dec",
"ClassicalDedekindReals.sig_not_dec",
"Classical_Prop.classic",
"FunctionalExtensionality.functional_extensionality_dep"
],
"C186_direction_refuted": [
"ClassicalDedekindReals.sig_forall_dec",
"ClassicalDedekindReals.sig_not_dec",
"Classical_Prop.classic",
"FunctionalExtensionality.functional_extensionality_dep"
],
"C186_mirror_partial": [
"ClassicalDedekindReals.sig_forall_dec",
"ClassicalDedekindReals.sig_not_dec",
"Classical_Prop.classic",
"FunctionalExtensionality.functional_extensionality_dep"
],
"C187_any_shape": [
"ClassicalDedekindReals.sig_forall_dec",
"FunctionalExtensionality.functional_extensionality_dep"
],
"C187_triangle": [
"ClassicalDedekindReals.sig_forall_dec",
"ClassicalDedekindReals.sig_not_dec",
"FunctionalExtensionality.functional_extensionality_dep"
],
"C187_triangle_miss": [
"ClassicalDedekindReals.sig_forall_dec",
"ClassicalDedekindReals.sig_not_dec",
"FunctionalExtensionality.functional_extensionality_dep"
],
"C188_reversed_refuted": [
"ClassicalDedekindReals.sig_forall_dec",
"ClassicalDedekindReals.sig_not_dec",
"Classical_Prop.classic",
"FunctionalExtensionality.functional_extensionality_dep"
],
"C188_sphere_partial": [
"ClassicalDedekindReals.sig_forall_dec",
"ClassicalDedekindReals.sig_not_dec",
"Classical_Prop.classic",
"FunctionalExtensionality.functional_extensionality_dep"
],
"C188_weingarten": [
"ClassicalDedekindReals.sig_forall_dec",
"ClassicalDedekindReals.sig_not_dec",
"FunctionalExtensionality.functional_extensionality_dep"
],
"C189_disk": [
"ClassicalDedekindReals.sig_forall_dec",
"ClassicalDedekindReals.sig_not_dec",
"Classical_Prop.classic",
"FunctionalExtensionality.functional_extensionality_dep"
],
"C189_sphere": [
"ClassicalDedekindReals.sig_forall_dec",
"ClassicalDedekindReals.sig_not_dec",
"Classical_Prop.classic",
"FunctionalExtensionality.functional_extensionality_dep"
],
"C18_from_matrix_refuted": [
"ClassicalDedekindReals.sig_forall_dec",
"ClassicalDedekindReals.sig_not_dec",
"FunctionalExtensionality.functional_extensionality_dep"
],
"C18_half_turns_partial": [
"ClassicalDedekindReals.sig_forall_dec",
"ClassicalDedekindReals.sig_not_dec",
"FunctionalExtensionality.functional_extensionality_dep"
],
"C18_slerp_partial": [
"ClassicalDedekindReals.sig_forall_dec",
"ClassicalDedekindReals.sig_not_dec",
"Classical_Prop.classic",
"FunctionalExtensionality.functional_extensionality_dep"
],
"C18_x_half_turn_refuted": [
"ClassicalDedekindReals.sig_forall_dec",
"ClassicalDedekindReals.sig_not_dec",
"FunctionalExtensionality.functional_extensionality_dep"
],
"C190_picture_ignored_refuted": [
"ClassicalDedekindReals.sig_forall_dec",
"ClassicalDedekindReals.sig_not_dec",
"Classical_Prop.classic",
"FunctionalExtensionality.functional_extensionality_dep"
],
"C190_plain_colour_partial": [
"ClassicalDedekindReals.sig_forall_dec",
"ClassicalDedekindReals.sig_not_dec",
"Classical_Prop.classic",
"FunctionalExtensionality.functional_extensionality_dep"
],
"C191_escaping_ray_refuted": [],
"C192_colour_partial": [
"ClassicalDedekindReals.sig_forall_dec",
"ClassicalDedekindReals.sig_not_dec",
"Classical_Prop.classic",
"FunctionalExtensionality.functional_extensionality_dep"
],
"C192_one_direction_refuted": [
"ClassicalDedekindReals.sig_forall_dec",
"ClassicalDedekindReals.sig_not_dec",
"Classical_Prop.classic",
"FunctionalExtensionality.functional_extensionality_dep"
],
"C193_density_refuted": [
"ClassicalDedekindReals.sig_forall_dec",
"ClassicalDedekindReals.sig_not_dec",
"Classical_Prop.classic",
"FunctionalExtensionality.functional_extensionality_dep"
],
"C193_poles_partial": [
"ClassicalDedekindReals.sig_forall_dec",
"ClassicalDedekindReals.sig_not_dec",
"Classical_Prop.classic",
"FunctionalExtensionality.functional_extensionality_dep"
],
"C194_emission_refuted": [
"ClassicalDedekindReals.sig_forall_dec",
"ClassicalDedekindReals.sig_not_dec",
"Classical_Prop.classic",
"FunctionalExtensionality.functional_extensionality_dep"
],
"C195_no_primitive_lost": [
"ClassicalDedekindReals.sig_forall_dec",
"FunctionalExtensionality.functional_extensionality_dep"
],
"C196_clamped_after": [
"ClassicalDedekindReals.sig_forall_dec",
"ClassicalDedekindReals.sig_not_dec",
"Classical_Prop.classic",
"FunctionalExtensionality.functional_extensionality_dep"
],
"C196_clamped_before": [
"ClassicalDedekindReals.sig_forall_dec",
"ClassicalDedekindReals.sig_not_dec",
"Classical_Prop.classic",
"FunctionalExtensionality.functional_extensionality_dep"
],
"C196_static_is_constant": [
"ClassicalDedekindReals.sig_forall_dec",
"ClassicalDedekindReals.sig_not_dec",
"Classical_Prop.classic",
"FunctionalExtensionality.functional_extensionality_dep"
],
"C197_unit_quaternion_is_rotation": [
"ClassicalDedekindReals.sig_forall_dec",
"FunctionalExtensionality.functional_extensionality_dep"
],
"C198_cdf_table": [
"ClassicalDedekindReals.sig_forall_dec",
"FunctionalExtensionality.functional_extensionality_dep"
],
"C198_pdf_integrates": [
"ClassicalDedekindReals.sig_forall_dec",
"FunctionalExtensionality.functional_extensionality_dep"
],
"C198_sample_dis": [
"ClassicalDedekindReals.sig_forall_dec",
"FunctionalExtensionality.functional_extensionality_dep"
],
"C199_pdf": [
"ClassicalDedekindReals.sig_forall_dec",
"FunctionalExtensionality.functional_extensionality_dep"
],
"C19_cone_without_frame_refuted": [],
"C19_domains_partial": [
"ClassicalDedekindReals.sig_forall_dec",
"ClassicalDedekindReals.sig_not_dec",
"FunctionalExtensionality.functional_extensionality_dep"
],
"C200_locked": [
"ClassicalDedekindReals.sig_forall_dec",
"FunctionalExtensionality.functional_extensionality_dep"
],
"C201_nonempty": [
"ClassicalDedekindReals.sig_forall_dec",
"FunctionalExtensionality.functional_extensionality_dep"
],
"C201_sample_extent": [
"ClassicalDedekindReals.sig_forall_dec",
"FunctionalExtensionality.functional_extensionality_dep"
],
"C202_area": [
"ClassicalDedekindReals.sig_forall_dec",
"ClassicalDedekindReals.sig_not_dec",
"FunctionalExtensionality.functional_extensionality_dep"
],
"C203_eq_correct": [
"ClassicalDedekindReals.sig_forall_dec",
"FunctionalExtensionality.functional_extensionality_dep"
],
"C204_bytes": [
"ClassicalDedekindReals.sig_forall_dec",
"FunctionalExtensionality.functional_extensionality_dep"
],
"C204_positions": [
"ClassicalDedekindReals.sig_forall_dec",
"FunctionalExtensionality.functional_extensionality_dep"
],
"C205_cylinder_sample": [
"ClassicalDedekindReals.sig_forall_dec",
"ClassicalDedekindReals.sig_not_dec",
"FunctionalExtensionality.functional_extensionality_dep"
],
"C205_onto": [
"ClassicalDedekindReals.sig_forall_dec",
"ClassicalDedekindReals.sig_not_dec",
"Classical_Prop.classic",
"FunctionalExtensionality.functional_extensionality_dep"
],
"C205_uniform": [
"ClassicalDedekindReals.sig_forall_dec",
"ClassicalDedekindReals.sig_not_dec",
"Classical_Prop.classic",
"FunctionalExtensionality.functional_extensionality_dep"
],
"C206_rejection": [
"ClassicalDedekindReals.sig_forall_dec",
"FunctionalExtensionality.functional_extensionality_dep"
],
"C207_any_partial": [
"ClassicalDedekindReals.sig_forall_dec",
"ClassicalDedekindReals.sig_not_dec",
"Classical_Prop.classic",
"FunctionalExtensionality.functional_extensionality_dep"
],
"C207_mirrored_refuted": [
"ClassicalDedekindReals.sig_forall_dec",
"ClassicalDedekindReals.sig_not_dec",
"Classical_Prop.classic",
"FunctionalExtensionality.functional_extensionality_dep"
],
"C207_nearest_partial": [
"ClassicalDedekindReals.sig_forall_dec",
"ClassicalDedekindReals.sig_not_dec",
"Classical_Prop.classic",
"FunctionalExtensionality.functional_extensionality_dep"
],
"C208_shadow_consistent": [
"ClassicalDedekindReals.sig_forall_dec",
"ClassicalDedekindReals.sig_not_dec",
"Classical_Prop.classic",
"FunctionalExtensionality.functional_extensionality_dep"
],
"C209_record": [
"ClassicalDedekindReals.sig_forall_dec",
"ClassicalDedekindReals.sig_not_dec",
"Classical_Prop.classic",
"FunctionalExtensionality.functional_extensionality_dep"
],
"C20_cosine_law_refuted": [
"ClassicalDedekindReals.sig_forall_dec",
"ClassicalDedekindReals.sig_not_dec",
"FunctionalExtensionality.functional_extensionality_dep"
],
"C20_upper_hemisphere_partial": [
"ClassicalDedekindReals.sig_forall_dec",
"ClassicalDedekindReals.sig_not_dec",
"FunctionalExtensionality.functional_extensionality_dep"
],
"C210_geometric_partial": [],
"C210_instance_refuted": [],
"C211_exponents": [
"ClassicalDedekindReals.sig_forall_dec",
"FunctionalExtensionality.functional_extensionality_dep"
],
"C211_normalised": [
"ClassicalDedekindReals.sig_forall_dec",
"ClassicalDedekindReals.sig_not_dec",
"Classical_Prop.classic",
"FunctionalExtensionality.functional_extensionality_dep"
],
"C212_aniso": [
"ClassicalDedekindReals.sig_forall_dec",
"ClassicalDedekindReals.sig_not_dec",
"Classical_Prop.classic",
"FunctionalExtensionality.functional_extensionality_dep"
],
"C212_blinn": [
"ClassicalDedekindReals.sig_forall_dec",
"ClassicalDedekindReals.sig_not_dec",
"Classical_Prop.classic",
"FunctionalExtensionality.functional_extensionality_dep"
],
"C213_mixture": [
"ClassicalDedekindReals.sig_forall_dec",
"ClassicalDedekindReals.sig_not_dec",
"Classical_Prop.classic",
"FunctionalExtensionality.functional_extensionality_dep"
],
"C213_reflectance": [
"ClassicalDedekindReals.sig_forall_dec",
"ClassicalDedekindReals.sig_not_dec",
"Classical_Prop.classic",
"FunctionalExtensionality.functional_extensionality_dep"
],
"C213_schlick": [
"ClassicalDedekindReals.sig_forall_dec",
"FunctionalExtensionality.functional_extensionality_dep"
],
"C214_estimate": [
"ClassicalDedekindReals.sig_forall_dec",
"ClassicalDedekindReals.sig_not_dec",
"Classical_Prop.classic",
"FunctionalExtensionality.functional_extensionality_dep"
],
"C214_lambertian": [
"ClassicalDedekindReals.sig_forall_dec",
"ClassicalDedekindReals.sig_not_dec",
"Classical_Prop.classic",
"FunctionalExtensionality.functional_extensionality_dep"
],
"C214_mirror": [
"ClassicalDedekindReals.sig_forall_dec",
"ClassicalDedekindReals.sig_not_dec",
"Classical_Prop.classic",
"FunctionalExtensionality.functional_extensionality_dep"
],
"C214_surface": [
"ClassicalDedekindReals.sig_forall_dec",
"ClassicalDedekindReals.sig_not_dec",
"Classical_Prop.classic",
"FunctionalExtensionality.functional_extensionality_dep"
],
"C215_scaled_refuted": [
"ClassicalDedekindReals.sig_forall_dec",
"ClassicalDedekindReals.sig_not_dec",
"Classical_Prop.classic",
"FunctionalExtensionality.functional_extensionality_dep"
],
"C216_aniso_refuted": [
"ClassicalDedekindReals.sig_forall_dec",
"ClassicalDedekindReals.sig_not_dec",
"Classical_Prop.classic",
"FunctionalExtensionality.functional_extensionality_dep"
],
"C216_blinn_partial": [
"ClassicalDedekindReals.sig_forall_dec",
"ClassicalDedekindReals.sig_not_dec",
"Classical_Prop.classic",
"FunctionalExtensionality.functional_extensionality_dep"
],
"C217_division_partial": [
"ClassicalDedekindReals.sig_forall_dec",
"FunctionalExtensionality.functional_extensionality_dep"
],
"C217_near_one_refuted": [
"ClassicalDedekindReals.sig_forall_dec",
"FunctionalExtensionality.functional_extensionality_dep"
],
"C218_bound_contains": [
"ClassicalDedekindReals.sig_forall_dec",
"ClassicalDedekindReals.sig_not_dec",
"Classical_Prop.classic",
"FunctionalExtensionality.functional_extensionality_dep"
],
"C218_bound_least": [
"ClassicalDedekindReals.sig_forall_dec",
"ClassicalDedekindReals.sig_not_dec",
"Classical_Prop.classic",
"FunctionalExtensionality.functional_extensionality_dep"
],
"C219_any_partial": [
"ClassicalDedekindReals.sig_forall_dec",
"ClassicalDedekindReals.sig_not_dec",
"Classical_Prop.classic",
"FunctionalExtensionality.functional_extensionality_dep"
],
"C219_medium_changes_hits_refuted": [
"ClassicalDedekindReals.sig_forall_dec",
"ClassicalDedekindReals.sig_not_dec",
"Classical_Prop.classic",
"FunctionalExtensionality.functional_extensionality_dep"
],
"C219_nearest_partial": [
"ClassicalDedekindReals.sig_forall_dec",
"ClassicalDedekindReals.sig_not_dec",
"Classical_Prop.classic",
"FunctionalExtensionality.functional_extensionality_dep"
],
"C21_heuristics": [
"ClassicalDedekindReals.sig_forall_dec",
"FunctionalExtensionality.functional_extensionality_dep"
],
"C220_no_volume_partial": [
"ClassicalDedekindReals.sig_forall_dec",
"FunctionalExtensionality.functional_extensionality_dep"
],
"C220_shared_aggregate_refuted": [
"ClassicalDedekindReals.sig_forall_dec",
"ClassicalDedekindReals.sig_not_dec",
"Classical_Prop.classic",
"FunctionalExtensionality.functional_extensionality_dep"
],
"C221_pixels_between": [
"ClassicalDedekindReals.sig_forall_dec",
"ClassicalDedekindReals.sig_not_dec",
"FunctionalExtensionality.functional_extensionality_dep"
],
"C221_uniform": [
"ClassicalDedekindReals.sig_forall_dec",
"ClassicalDedekindReals.sig_not_dec",
"FunctionalExtensionality.functional_extensionality_dep"
],
"C222_cylinder": [
"ClassicalDedekindReals.sig_forall_dec",
"ClassicalDedekindReals.sig_not_dec",
"Classical_Prop.classic",
"FunctionalExtensionality.functional_extensionality_dep"
],
"C222_disk": [
"ClassicalDedekindReals.sig_forall_dec",
"ClassicalDedekindReals.sig_not_dec",
"Classical_Prop.classic",
"FunctionalExtensionality.functional_extensionality_dep"
],
"C222_sphere": [
"ClassicalDedekindReals.sig_forall_dec",
"ClassicalDedekindReals.sig_not_dec",
"Classical_Prop.classic",
"FunctionalExtensionality.functional_extensionality_dep"
],
"C222_triangle": [
"ClassicalDedekindReals.sig_forall_dec",
"ClassicalDedekindReals.sig_not_dec",
"Classical_Prop.classic",
"FunctionalExtensionality.functional_extensionality_dep"
],
"C223_disk_hole_refuted": [
"ClassicalDedekindReals.sig_forall_dec",
"ClassicalDedekindReals.sig_not_dec",
"Classical_Prop.classic",
"FunctionalExtensionality.functional_extensionality_dep"
],
"C223_disk_partial": [
"ClassicalDedekindReals.sig_forall_dec",
"ClassicalDedekindReals.sig_not_dec",
"Classical_Prop.classic",
"FunctionalExtensionality.functional_extensionality_dep"
],
"C223_sphere_partial": [
"ClassicalDedekindReals.sig_forall_dec",
"ClassicalDedekindReals.sig_not_dec",
"Classical_Prop.classic",
"FunctionalExtensionality.functional_extensionality_dep"
],
"C223_sphere_v_refuted": [
"ClassicalDedekindReals.sig_forall_dec",
"ClassicalDedekindReals.sig_not_dec",
"Classical_Prop.classic",
"FunctionalExtensionality.functional_extensionality_dep"
],
"C224_default_uv": [
"ClassicalDedekindReals.sig_forall_dec"
],
"C224_interpolation": [
"ClassicalDedekindReals.sig_forall_dec",
"ClassicalDedekindReals.sig_not_dec",
"FunctionalExtensionality.functional_extensionality_dep"
],
"C225_cone_exact": [
"ClassicalDedekindReals.sig_forall_dec",
"ClassicalDedekindReals.sig_not_dec",
"FunctionalExtensionality.functional_extensionality_dep"
],
"C225_density": [
"ClassicalDedekindReals.sig_forall_dec",
"ClassicalDedekindReals.sig_not_dec",
"Classical_Prop.classic",
"FunctionalExtensionality.functional_extensionality_dep"
],
"C225_inside": [
"ClassicalDedekindReals.sig_forall_dec",
"ClassicalDedekindReals.sig_not_dec",
"Classical_Prop.classic",
"FunctionalExtensionality.functional_extensionality_dep"
],
"C225_sample": [
"ClassicalDedekindReals.sig_forall_dec",
"ClassicalDedekindReals.sig_not_dec",
"Classical_Prop.classic",
"FunctionalExtensionality.functional_extensionality_dep"
],
"C226_cylinder": [
"ClassicalDedekindReals.sig_forall_dec",
"ClassicalDedekindReals.sig_not_dec",
"FunctionalExtensionality.functional_extensionality_dep"
],
"C226_sphere": [
"ClassicalDedekindReals.sig_forall_dec",
"ClassicalDedekindReals.sig_not_dec",
"Classical_Prop.classic",
"FunctionalExtensionality.functional_extensionality_dep"
],
"C227_offsets": [
"ClassicalDedekindReals.sig_forall_dec",
"ClassicalDedekindReals.sig_not_dec",
"Classical_Prop.classic",
"FunctionalExtensionality.functional_extensionality_dep"
],
"C228_inside_partial": [
"ClassicalDedekindReals.sig_forall_dec",
"ClassicalDedekindReals.sig_not_dec",
"Classical_Prop.classic",
"FunctionalExtensionality.functional_extensionality_dep"
],
"C228_miss_refuted": [
"ClassicalDedekindReals.sig_forall_dec",
"ClassicalDedekindReals.sig_not_dec",
"Classical_Prop.classic",
"FunctionalExtensionality.functional_extensionality_dep"
],
"C229_darker_partial": [
"ClassicalDedekindReals.sig_forall_dec",
"ClassicalDedekindReals.sig_not_dec",
"Classical_Prop.classic",
"FunctionalExtensionality.functional_extensionality_dep"
],
"C229_fog_refuted": [
"ClassicalDedekindReals.sig_forall_dec",
"ClassicalDedekindReals.sig_not_dec",
"Classical_Prop.classic",
"FunctionalExtensionality.functional_extensionality_dep"
],
"C229_no_medium_partial": [
"ClassicalDedekindReals.sig_forall_dec",
"ClassicalDedekindReals.sig_not_dec",
"Classical_Prop.classic",
"FunctionalExtensionality.functional_extensionality_dep"
],
"C229_repeat_refuted": [
"ClassicalDedekindReals.sig_forall_dec",
"ClassicalDedekindReals.sig_not_dec",
"Classical_Prop.classic",
"FunctionalExtensionality.functional_extensionality_dep"
],
"C22_sample_cont_partial": [
"ClassicalDedekindReals.sig_forall_dec",
"FunctionalExtensionality.functional_extensionality_dep"
],
"C22_sample_cont_zero_partial": [
"ClassicalDedekindReals.sig_forall_dec",
"FunctionalExtensionality.functional_extensionality_dep"
],
"C22_sample_cont_zero_refuted": [
"ClassicalDedekindReals.sig_forall_dec",
"FunctionalExtensionality.functional_extensionality_dep"
],
"C230_area_refuted": [
"ClassicalDedekindReals.sig_forall_dec",
"FunctionalExtensionality.functional_extensionality_dep"
],
"C230_delta_partial": [
"ClassicalDedekindReals.sig_forall_dec",
"FunctionalExtensionality.functional_extensionality_dep"
],
"C230_environment_refuted": [
"ClassicalDedekindReals.sig_forall_dec"
],
"C231_difference": [
"ClassicalDedekindReals.sig_forall_dec"
],
"C231_face_forward": [
"ClassicalDedekindReals.sig_forall_dec",
"FunctionalExtensionality.functional_extensionality_dep"
],
"C231_refused": [
"ClassicalDedekindReals.sig_forall_dec"
],
"C231_round_trip": [
"ClassicalDedekindReals.sig_forall_dec",
"FunctionalExtensionality.functional_extensionality_dep"
],
"C232_sums_partial": [
"ClassicalDedekindReals.sig_forall_dec",
"FunctionalExtensionality.functional_extensionality_dep"
],
"C232_sums_refuted": [
"ClassicalDedekindReals.sig_forall_dec"
],
"C233_constructor": [],
"C233_finite_partial": [
"ClassicalDedekindReals.sig_forall_dec",
"FunctionalExtensionality.functional_extensionality_dep"
],
"C233_from_arr": [],
"C233_infinite_refuted": [
"ClassicalDedekindReals.sig_forall_dec",
"FunctionalExtensionality.functional_extensionality_dep"
],
"C233_point_difference": [
"ClassicalDedekindReals.sig_forall_dec"
],
"C234_class_ignored": [
"ClassicalDedekindReals.sig_forall_dec",
"FunctionalExtensionality.functional_extensionality_dep"
],
"C234_equivalence": [
"ClassicalDedekindReals.sig_forall_dec",
"FunctionalExtensionality.functional_extensionality_dep"
],
"C234_meaning": [
"ClassicalDedekindReals.sig_forall_dec",
"FunctionalExtensionality.functional_extensionality_dep"
],
"C235_create": [
"ClassicalDedekindReals.sig_forall_dec"
],
"C235_default": [
"ClassicalDedekindReals.sig_forall_dec",
"FunctionalExtensionality.functional_extensionality_dep"
],
"C236_copy_partial": [],
"C236_sequence_refuted": [],
"C237_constant": [
"ClassicalDedekindReals.sig_forall_dec",
"FunctionalExtensionality.functional_extensionality_dep"
],
"C237_linear": [
"ClassicalDedekindReals.sig_forall_dec",
"FunctionalExtensionality.functional_extensionality_dep"
],
"C237_nonneg": [
"ClassicalDedekindReals.sig_forall_dec",
"FunctionalExtensionality.functional_extensionality_dep"
],
"C237_refused": [
"ClassicalDedekindReals.sig_forall_dec",
"FunctionalExtensionality.functional_extensionality_dep"
],
"C237_rgb": [
"ClassicalDedekindReals.sig_forall_dec",
"FunctionalExtensionality.functional_extensionality_dep"
],
"C237_values": [
"ClassicalDedekindReals.sig_forall_dec",
"FunctionalExtensionality.functional_extensionality_dep"
],
"C238_pow": [
"ClassicalDedekindReals.sig_forall_dec",
"FunctionalExtensionality.functional_extensionality_dep"
],
"C238_sqrt": [
"ClassicalDedekindReals.sig_forall_dec",
"ClassicalDedekindReals.sig_not_dec",
"FunctionalExtensionality.functional_extensionality_dep"
],
"C239_created": [
"ClassicalDedekindReals.sig_forall_dec",
"FunctionalExtensionality.functional_extensionality_dep"
],
"C239_refused": [
"ClassicalDedekindReals.sig_forall_dec"
],
"C23_density_refuted": [
"ClassicalDedekindReals.sig_forall_dec",
"FunctionalExtensionality.functional_extensionality_dep"
],
"C23_sample_partial": [
"ClassicalDedekindReals.sig_forall_dec",
"FunctionalExtensionality.functional_extensionality_dep"
],
"C23_second_coordinate_refuted": [
"ClassicalDedekindReals.sig_forall_dec",
"FunctionalExtensionality.functional_extensionality_dep"
],
"C240_refined": [
"ClassicalDedekindReals.sig_forall_dec",
"FunctionalExtensionality.functional_extensionality_dep"
],
"C240_tight": [
"ClassicalDedekindReals.sig_forall_dec",
"FunctionalExtensionality.functional_extensionality_dep"
],
"C241_levels_partial": [
"ClassicalDedekindReals.sig_forall_dec",
"ClassicalDedekindReals.sig_not_dec",
"FunctionalExtensionality.functional_extensionality_dep"
],
"C241_zero_refuted": [
"ClassicalDedekindReals.sig_forall_dec",
"ClassicalDedekindReals.sig_not_dec",
"FunctionalExtensionality.functional_extensionality_dep"
],
"C242_open": [
"ClassicalDedekindReals.sig_forall_dec",
"ClassicalDedekindReals.sig_not_dec",
"FunctionalExtensionality.functional_extensionality_dep"
],
"C242_scene": [
"ClassicalDedekindReals.sig_forall_dec",
"ClassicalDedekindReals.sig_not_dec",
"Classical_Prop.classic",
"FunctionalExtensionality.functional_extensionality_dep"
],
"C243_children": [
"ClassicalDedekindReals.sig_forall_dec",
"FunctionalExtensionality.functional_extensionality_dep"
],
"C243_copies": [
"ClassicalDedekindReals.sig_forall_dec"
],
"C243_generations": [
"ClassicalDedekindReals.sig_forall_dec"
],
"C243_scale": [
"ClassicalDedekindReals.sig_forall_dec",
"FunctionalExtensionality.functional_extensionality_dep"
],
"C244_bar": [],
"C244_completion": [],
"C244_progress": [],
"C245_getitem": [],
"C246_below_one_refuted": [
"ClassicalDedekindReals.sig_forall_dec",
"ClassicalDedekindReals.sig_not_dec",
"Classical_Prop.classic",
"FunctionalExtensionality.functional_extensionality_dep"
],
"C246_strata_partial": [
"ClassicalDedekindReals.sig_forall_dec",
"ClassicalDedekindReals.sig_not_dec",
"Classical_Prop.classic",
"FunctionalExtensionality.functional_extensionality_dep"
],
"C247_next_pixel_refuted": [
"ClassicalDedekindReals.sig_forall_dec",
"ClassicalDedekindReals.sig_not_dec",
"Classical_Prop.classic",
"FunctionalExtensionality.functional_extensionality_dep"
],
"C247_pixel_partial": [
"ClassicalDedekindReals.sig_forall_dec",
"ClassicalDedekindReals.sig_not_dec",
"Classical_Prop.classic",
"FunctionalExtensionality.functional_extensionality_dep"
],
"C248_in_bounds": [
"ClassicalDedekindReals.sig_forall_dec",
"ClassicalDedekindReals.sig_not_dec",
"Classical_Prop.classic",
"FunctionalExtensionality.functional_extensionality_dep"
],
"C248_own_pixel": [
"ClassicalDedekindReals.sig_forall_dec",
"ClassicalDedekindReals.sig_not_dec",
"Classical_Prop.classic",
"FunctionalExtensionality.functional_extensionality_dep"
],
"C248_reached": [
"ClassicalDedekindReals.sig_forall_dec",
"ClassicalDedekindReals.sig_not_dec",
"Classical_Prop.classic",
"FunctionalExtensionality.functional_extensionality_dep"
],
"C249_ends_partial": [
"ClassicalDedekindReals.sig_forall_dec",
"ClassicalDedekindReals.sig_not_dec",
"Classical_Prop.classic",
"FunctionalExtensionality.functional_extensionality_dep"
],
"C249_error_partial": [
"ClassicalDedekindReals.sig_forall_dec",
"ClassicalDedekindReals.sig_not_dec",
"Classical_Prop.classic",
"FunctionalExtensionality.functional_extensionality_dep"
],
"C249_range_refuted": [
"ClassicalDedekindReals.sig_forall_dec",
"ClassicalDedekindReals.sig_not_dec",
"Classical_Prop.classic",
"FunctionalExtensionality.functional_extensionality_dep"
],
"C249_times_partial": [
"ClassicalDedekindReals.sig_forall_dec",
"ClassicalDedekindReals.sig_not_dec",
"Classical_Prop.classic",
"FunctionalExtensionality.functional_extensionality_dep"
],
"C249_zero_partial": [
"ClassicalDedekindReals.sig_forall_dec",
"ClassicalDedekindReals.sig_not_dec",
"Classical_Prop.classic",
"FunctionalExtensionality.functional_extensionality_dep"
],
"C24_raster_order_once": [
"ClassicalDedekindReals.sig_forall_dec",
"FunctionalExtensionality.functional_extensionality_dep"
],
"C250_brightest_refuted": [
"ClassicalDedekindReals.sig_forall_dec",
"ClassicalDedekindReals.sig_not_dec",
"Classical_Prop.classic",
"FunctionalExtensionality.functional_extensionality_dep"
],
"C250_bytes_partial": [
"ClassicalDedekindReals.sig_forall_dec",
"ClassicalDedekindReals.sig_not_dec",
"Classical_Prop.classic",
"FunctionalExtensionality.functional_extensionality_dep"
],
"C251_buckets": [
"ClassicalDedekindReals.sig_forall_dec",
"ClassicalDedekindReals.sig_not_dec",
"Classical_Prop.classic",
"FunctionalExtensionality.functional_extensionality_dep"
],
"C252_balance": [
"ClassicalDedekindReals.sig_forall_dec",
"ClassicalDedekindReals.sig_not_dec",
"Classical_Prop.classic",
"FunctionalExtensionality.functional_extensionality_dep"
],
"C253_denominator_partial": [
"ClassicalDedekindReals.sig_forall_dec",
"ClassicalDedekindReals.sig_not_dec",
"Classical_Prop.classic",
"FunctionalExtensionality.functional_extensionality_dep"
],
"C253_power_partial": [
"ClassicalDedekindReals.sig_forall_dec",
"ClassicalDedekindReals.sig_not_dec",
"Classical_Prop.classic",
"FunctionalExtensionality.functional_extensionality_dep"
],
"C253_vanishing_refuted": [
"ClassicalDedekindReals.sig_forall_dec",
"ClassicalDedekindReals.sig_not_dec",
"Classical_Prop.classic",
"FunctionalExtensionality.functional_extensionality_dep"
],
"C254_below_one_refuted": [
"ClassicalDedekindReals.sig_forall_dec",
"ClassicalDedekindReals.sig_not_dec",
"Classical_Prop.classic",
"FunctionalExtensionality.functional_extensionality_dep"
],
"C254_sample_partial": [
"ClassicalDedekindReals.sig_forall_dec",
"ClassicalDedekindReals.sig_not_dec",
"Classical_Prop.classic",
"FunctionalExtensionality.functional_extensionality_dep"
],
"C254_table_partial": [
"ClassicalDedekindReals.sig_forall_dec",
"ClassicalDedekindReals.sig_not_dec",
"Classical_Prop.classic",
"FunctionalExtensionality.functional_extensionality_dep"
],
"C255_inside_partial": [
"ClassicalDedekindReals.sig_forall_dec",
"ClassicalDedekindReals.sig_not_dec",
"Classical_Prop.classic",
"FunctionalExtensionality.functional_extensionality_dep"
],
"C255_missed_refuted": [
"ClassicalDedekindReals.sig_forall_dec",
"ClassicalDedekindReals.sig_not_dec",
"Classical_Prop.classic",
"FunctionalExtensionality.functional_extensionality_dep"
],
"C255_origin_partial": [
"ClassicalDedekindReals.sig_forall_dec",
"ClassicalDedekindReals.sig_not_dec",
"Classical_Prop.classic",
"FunctionalExtensionality.functional_extensionality_dep"
],
"C256_inside_partial": [
"ClassicalDedekindReals.sig_forall_dec",
"ClassicalDedekindReals.sig_not_dec",
"Classical_Prop.classic",
"FunctionalExtensionality.functional_extensionality_dep"
],
"C256_missed_refuted": [
"ClassicalDedekindReals.sig_forall_dec",
"ClassicalDedekindReals.sig_not_dec",
"Classical_Prop.classic",
"FunctionalExtensionality.functional_extensionality_dep"
],
"C257_crop": [
"ClassicalDedekindReals.sig_forall_dec",
"ClassicalDedekindReals.sig_not_dec",
"Classical_Prop.classic",
"FunctionalExtensionality.functional_extensionality_dep"
],
"C258_voxels": [
"ClassicalDedekindReals.sig_forall_dec",
"ClassicalDedekindReals.sig_not_dec",
"Classical_Prop.classic",
"FunctionalExtensionality.functional_extensionality_dep"
],
"C259_identifiers": [
"ClassicalDedekindReals.sig_forall_dec",
"ClassicalDedekindReals.sig_not_dec",
"Classical_Prop.classic",
"FunctionalExtensionality.functional_extensionality_dep"
],
"C25_strata": [
"ClassicalDedekindReals.sig_forall_dec",
"FunctionalExtensionality.functional_extensionality_dep"
],
"C260_metal": [
"ClassicalDedekindReals.sig_forall_dec",
"ClassicalDedekindReals.sig_not_dec",
"Classical_Prop.classic",
"FunctionalExtensionality.functional_extensionality_dep"
],
"C260_plastic": [
"ClassicalDedekindReals.sig_forall_dec",
"ClassicalDedekindReals.sig_not_dec",
"Classical_Prop.classic",
"FunctionalExtensionality.functional_extensionality_dep"
],
"C260_uber": [
"ClassicalDedekindReals.sig_forall_dec",
"ClassicalDedekindReals.sig_not_dec",
"Classical_Prop.classic",
"FunctionalExtensionality.functional_extensionality_dep"
],
"C261_identity": [
"ClassicalDedekindReals.sig_forall_dec",
"ClassicalDedekindReals.sig_not_dec",
"Classical_Prop.classic",
"FunctionalExtensionality.functional_extensionality_dep"
],
"C261_scale": [
"ClassicalDedekindReals.sig_forall_dec",
"ClassicalDedekindReals.sig_not_dec",
"Classical_Prop.classic",
"FunctionalExtensionality.functional_extensionality_dep"
],
"C261_translate": [
"ClassicalDedekindReals.sig_forall_dec",
"ClassicalDedekindReals.sig_not_dec",
"Classical_Prop.classic",
"FunctionalExtensionality.functional_extensionality_dep"
],
"C261_whole": [
"ClassicalDedekindReals.sig_forall_dec",
"ClassicalDedekindReals.sig_not_dec",
"Classical_Prop.classic",
"FunctionalExtensionality.functional_extensionality_dep"
],
"C262_unit": [
"ClassicalDedekindReals.sig_forall_dec",
"ClassicalDedekindReals.sig_not_dec",
"Classical_Prop.classic",
"FunctionalExtensionality.functional_extensionality_dep"
],
"C262_zero": [
"ClassicalDedekindReals.sig_forall_dec",
"ClassicalDedekindReals.sig_not_dec",
"Classical_Prop.classic",
"FunctionalExtensionality.functional_extensionality_dep"
],
"C263_symmetries": [
"ClassicalDedekindReals.sig_forall_dec",
"ClassicalDedekindReals.sig_not_dec",
"Classical_Prop.classic",
"FunctionalExtensionality.functional_extensionality_dep"
],
"C264_at_least": [
"ClassicalDedekindReals.sig_forall_dec",
"ClassicalDedekindReals.sig_not_dec",
"Classical_Prop.classic",
"FunctionalExtensionality.functional_extensionality_dep"
],
"C264_counts": [
"ClassicalDedekindReals.sig_forall_dec",
"ClassicalDedekindReals.sig_not_dec",
"Classical_Prop.classic",
"FunctionalExtensionality.functional_extensionality_dep"
],
"C264_error": [
"ClassicalDedekindReals.sig_forall_dec",
"ClassicalDedekindReals.sig_not_dec",
"Classical_Prop.classic",
"FunctionalExtensionality.functional_extensionality_dep"
],
"C265_outside_refuted": [
"ClassicalDedekindReals.sig_forall_dec",
"ClassicalDedekindReals.sig_not_dec",
"Classical_Prop.classic",
"FunctionalExtensionality.functional_extensionality_dep"
],
"C265_weights_partial": [
"ClassicalDedekindReals.sig_forall_dec",
"ClassicalDedekindReals.sig_not_dec",
"Classical_Prop.classic",
"FunctionalExtensionality.functional_extensionality_dep"
],
"C266_cone": [
"ClassicalDedekindReals.sig_forall_dec",
"ClassicalDedekindReals.sig_not_dec",
"Classical_Prop.classic",
"FunctionalExtensionality.functional_extensionality_dep"
],
"C267_round_trip_refuted": [
"ClassicalDedekindReals.sig_forall_dec",
"ClassicalDedekindReals.sig_not_dec",
"Classical_Prop.classic",
"FunctionalExtensionality.functional_extensionality_dep"
],
"C267_whole_partial": [
"ClassicalDedekindReals.sig_forall_dec",
"ClassicalDedekindReals.sig_not_dec",
"Classical_Prop.classic",
"FunctionalExtensionality.functional_extensionality_dep"
],
"C268_short_partial": [
"ClassicalDedekindReals.sig_forall_dec",
"ClassicalDedekindReals.sig_not_dec",
"Classical_Prop.classic",
"FunctionalExtensionality.functional_extensionality_dep"
],
"C268_short_refuted": [
"ClassicalDedekindReals.sig_forall_dec",
"ClassicalDedekindReals.sig_not_dec",
"Classical_Prop.classic",
"FunctionalExtensionality.functional_extensionality_dep"
],
"C269_order_partial": [
"ClassicalDedekindReals.sig_forall_dec",
"ClassicalDedekindReals.sig_not_dec",
"Classical_Prop.classic",
"FunctionalExtensionality.functional_extensionality_dep"
],
"C269_order_refuted": [
"ClassicalDedekindReals.sig_forall_dec",
"ClassicalDedekindReals.sig_not_dec",
"Classical_Prop.classic",
"FunctionalExtensionality.functional_extensionality_dep"
],
"C26_crop_window_lost_refuted": [
"ClassicalDedekindReals.sig_forall_dec",
"FunctionalExtensionality.functional_extensionality_dep"
],
"C26_fractional_tile_refuted": [
"ClassicalDedekindReals.sig_forall_dec",
"FunctionalExtensionality.functional_extensionality_dep"
],
"C26_partition_partial": [
"ClassicalDedekindReals.sig_forall_dec",
"FunctionalExtensionality.functional_extensionality_dep"
],
"C26_tile_is_window_partial": [
"ClassicalDedekindReals.sig_forall_dec",
"FunctionalExtensionality.functional_extensionality_dep"
],
"C270_bounded": [
"ClassicalDedekindReals.sig_forall_dec",
"ClassicalDedekindReals.sig_not_dec",
"Classical_Prop.classic",
"FunctionalExtensionality.functional_extensionality_dep"
],
"C270_lit": [
"ClassicalDedekindReals.sig_forall_dec",
"ClassicalDedekindReals.sig_not_dec",
"Classical_Prop.classic",
"FunctionalExtensionality.functional_extensionality_dep"
],
"C271_dark_direct": [
"ClassicalDedekindReals.sig_forall_dec",
"ClassicalDedekindReals.sig_not_dec",
"Classical_Prop.classic",
"FunctionalExtensionality.functional_extensionality_dep"
],
"C271_dark_path": [
"ClassicalDedekindReals.sig_forall_dec",
"ClassicalDedekindReals.sig_not_dec",
"Classical_Prop.classic",
"FunctionalExtensionality.functional_extensionality_dep"
],
"C271_dark_whitted": [
"ClassicalDedekindReals.sig_forall_dec",
"ClassicalDedekindReals.sig_not_dec",
"Classical_Prop.classic",
"FunctionalExtensionality.functional_extensionality_dep"
],
"C271_world": [
"ClassicalDedekindReals.sig_forall_dec",
"ClassicalDedekindReals.sig_not_dec",
"Classical_Prop.classic",
"FunctionalExtensionality.functional_extensionality_dep"
],
"C272_limit_refuted": [
"ClassicalDedekindReals.sig_forall_dec",
"ClassicalDedekindReals.sig_not_dec",
"Classical_Prop.classic",
"FunctionalExtensionality.functional_extensionality_dep"
],
"C272_stronger_partial": [
"ClassicalDedekindReals.sig_forall_dec",
"ClassicalDedekindReals.sig_not_dec",
"Classical_Prop.classic",
"FunctionalExtensionality.functional_extensionality_dep"
],
"C273_direct_is_whitted": [
"ClassicalDedekindReals.sig_forall_dec",
"ClassicalDedekindReals.sig_not_dec",
"Classical_Prop.classic",
"FunctionalExtensionality.functional_extensionality_dep"
],
"C274_picture": [
"ClassicalDedekindReals.sig_forall_dec",
"ClassicalDedekindReals.sig_not_dec",
"FunctionalExtensionality.functional_extensionality_dep"
],
"C275_scene_picture": [
"ClassicalDedekindReals.sig_forall_dec",
"ClassicalDedekindReals.sig_not_dec",
"Classical_Prop.classic",
"FunctionalExtensionality.functional_extensionality_dep"
],
"C276_grid_refuted": [
"ClassicalDedekindReals.sig_forall_dec",
"ClassicalDedekindReals.sig_not_dec",
"Classical_Prop.classic",
"FunctionalExtensionality.functional_extensionality_dep"
],
"C276_grid_sound_partial": [
"ClassicalDedekindReals.sig_forall_dec",
"ClassicalDedekindReals.sig_not_dec",
"Classical_Prop.classic",
"FunctionalExtensionality.functional_extensionality_dep"
],
"C276_simple_any_partial": [
"ClassicalDedekindReals.sig_forall_dec",
"FunctionalExtensionality.functional_extensionality_dep"
],
"C276_simple_partial": [
"ClassicalDedekindReals.sig_forall_dec",
"FunctionalExtensionality.functional_extensionality_dep"
],
"C277_equality": [
"ClassicalDedekindReals.sig_forall_dec",
"FunctionalExtensionality.functional_extensionality_dep"
],
"C277_identity": [
"ClassicalDedekindReals.sig_forall_dec",
"FunctionalExtensionality.functional_extensionality_dep"
],
"C277_inverse": [
"ClassicalDedekindReals.sig_forall_dec",
"ClassicalDedekindReals.sig_not_dec",
"FunctionalExtensionality.functional_extensionality_dep"
],
"C277_same": [
"ClassicalDedekindReals.sig_forall_dec",
"FunctionalExtensionality.functional_extensionality_dep"
],
"C278_lookup_partial": [
"ClassicalDedekindReals.sig_forall_dec",
"FunctionalExtensionality.functional_extensionality_dep"
],
"C278_order_refuted": [
"ClassicalDedekindReals.sig_forall_dec",
"FunctionalExtensionality.functional_extensionality_dep"
],
"C279_materials": [
"ClassicalDedekindReals.sig_forall_dec",
"ClassicalDedekindReals.sig_not_dec",
"Classical_Prop.classic",
"FunctionalExtensionality.functional_extensionality_dep"
],
"C279_order": [
"ClassicalDedekindReals.sig_forall_dec",
"ClassicalDedekindReals.sig_not_dec",
"Classical_Prop.classic",
"FunctionalExtensionality.functional_extensionality_dep"
],
"C279_superposition": [
"ClassicalDedekindReals.sig_forall_dec",
"ClassicalDedekindReals.sig_not_dec",
"Classical_Prop.classic",
"FunctionalExtensionality.functional_extensionality_dep"
],
"C279_world": [
"ClassicalDedekindReals.sig_forall_dec",
"ClassicalDedekindReals.sig_not_dec",
"Classical_Prop.classic",
"FunctionalExtensionality.functional_extensionality_dep"
],
"C27_footprint": [
"ClassicalDedekindReals.sig_forall_dec",
"FunctionalExtensionality.functional_extensionality_dep"
],
"C27_table_index": [
"ClassicalDedekindReals.sig_forall_dec",
"FunctionalExtensionality.functional_extensionality_dep"
],
"C280_disk": [
"ClassicalDedekindReals.sig_forall_dec",
"ClassicalDedekindReals.sig_not_dec",
"Classical_Prop.classic",
"FunctionalExtensionality.functional_extensionality_dep"
],
"C280_sphere": [
"ClassicalDedekindReals.sig_forall_dec",
"ClassicalDedekindReals.sig_not_dec",
"Classical_Prop.classic",
"FunctionalExtensionality.functional_extensionality_dep"
],
"C280_triangle": [
"ClassicalDedekindReals.sig_forall_dec",
"ClassicalDedekindReals.sig_not_dec",
"FunctionalExtensionality.functional_extensionality_dep"
],
"C281_rendered": [
"ClassicalDedekindReals.sig_forall_dec",
"ClassicalDedekindReals.sig_not_dec",
"Classical_Prop.classic",
"FunctionalExtensionality.functional_extensionality_dep"
],
"C281_rigid": [
"ClassicalDedekindReals.sig_forall_dec",
"ClassicalDedekindReals.sig_not_dec",
"Classical_Prop.classic",
"FunctionalExtensionality.functional_extensionality_dep"
],
"C282_fade_partial": [
"ClassicalDedekindReals.sig_forall_dec",
"ClassicalDedekindReals.sig_not_dec",
"Classical_Prop.classic",
"FunctionalExtensionality.functional_extensionality_dep"
],
"C282_jump_refuted": [
"ClassicalDedekindReals.sig_forall_dec",
"ClassicalDedekindReals.sig_not_dec",
"Classical_Prop.classic",
"FunctionalExtensionality.functional_extensionality_dep"
],
"C282_step_partial": [
"ClassicalDedekindReals.sig_forall_dec",
"FunctionalExtensionality.functional_extensionality_dep"
],
"C282_step_refuted": [
"ClassicalDedekindReals.sig_forall_dec",
"FunctionalExtensionality.functional_extensionality_dep"
],
"C283_bounded": [
"ClassicalDedekindReals.sig_forall_dec",
"ClassicalDedekindReals.sig_not_dec",
"Classical_Prop.classic",
"FunctionalExtensionality.functional_extensionality_dep"
],
"C284_choice": [
"ClassicalDedekindReals.sig_forall_dec",
"ClassicalDedekindReals.sig_not_dec",
"Classical_Prop.classic",
"FunctionalExtensionality.functional_extensionality_dep"
],
"C284_density_entry": [
"ClassicalDedekindReals.sig_forall_dec",
"ClassicalDedekindReals.sig_not_dec",
"Classical_Prop.classic",
"FunctionalExtensionality.functional_extensionality_dep"
],
"C284_one": [
"ClassicalDedekindReals.sig_forall_dec",
"ClassicalDedekindReals.sig_not_dec",
"Classical_Prop.classic",
"FunctionalExtensionality.functional_extensionality_dep"
],
"C285_centre_partial": [
"ClassicalDedekindReals.sig_forall_dec",
"ClassicalDedekindReals.sig_not_dec",
"Classical_Prop.classic",
"FunctionalExtensionality.functional_extensionality_dep"
],
"C285_constant_refuted": [
"ClassicalDedekindReals.sig_forall_dec",
"ClassicalDedekindReals.sig_not_dec",
"Classical_Prop.classic",
"FunctionalExtensionality.functional_extensionality_dep"
],
"C285_value_partial": [
"ClassicalDedekindReals.sig_forall_dec",
"ClassicalDedekindReals.sig_not_dec",
"Classical_Prop.classic",
"FunctionalExtensionality.functional_extensionality_dep"
],
"C285_weight_partial": [
"ClassicalDedekindReals.sig_forall_dec",
"ClassicalDedekindReals.sig_not_dec",
"Classical_Prop.classic",
"FunctionalExtensionality.functional_extensionality_dep"
],
"C286_brighter": [
"ClassicalDedekindReals.sig_forall_dec",
"ClassicalDedekindReals.sig_not_dec",
"Classical_Prop.classic",
"FunctionalExtensionality.functional_extensionality_dep"
],
"C286_materials": [
"ClassicalDedekindReals.sig_forall_dec",
"ClassicalDedekindReals.sig_not_dec",
"Classical_Prop.classic",
"FunctionalExtensionality.functional_extensionality_dep"
],
"C286_world": [
"ClassicalDedekindReals.sig_forall_dec",
"ClassicalDedekindReals.sig_not_dec",
"Classical_Prop.classic",
"FunctionalExtensionality.functional_extensionality_dep"
],
"C287_amplified_refuted": [
"ClassicalDedekindReals.sig_forall_dec",
"ClassicalDedekindReals.sig_not_dec",
"Classical_Prop.classic",
"FunctionalExtensionality.functional_extensionality_dep"
],
"C287_glass_partial": [
"ClassicalDedekindReals.sig_forall_dec",
"ClassicalDedekindReals.sig_not_dec",
"Classical_Prop.classic",
"FunctionalExtensionality.functional_extensionality_dep"
],
"C287_mirror_partial": [
"ClassicalDedekindReals.sig_forall_dec",
"ClassicalDedekindReals.sig_not_dec",
"Classical_Prop.classic",
"FunctionalExtensionality.functional_extensionality_dep"
],
"C288_agree": [
"ClassicalDedekindReals.sig_forall_dec",
"ClassicalDedekindReals.sig_not_dec",
"Classical_Prop.classic",
"FunctionalExtensionality.functional_extensionality_dep"
],
"C288_diffuse": [
"ClassicalDedekindReals.sig_forall_dec",
"ClassicalDedekindReals.sig_not_dec",
"Classical_Prop.classic",
"FunctionalExtensionality.functional_extensionality_dep"
],
"C288_world": [
"ClassicalDedekindReals.sig_forall_dec",
"ClassicalDedekindReals.sig_not_dec",
"Classical_Prop.classic",
"FunctionalExtensionality.functional_extensionality_dep"
],
"C289_path": [
"ClassicalDedekindReals.sig_forall_dec",
"ClassicalDedekindReals.sig_not_dec",
"Classical_Prop.classic",
"FunctionalExtensionality.functional_extensionality_dep"
],
"C289_whitted": [
"ClassicalDedekindReals.sig_forall_dec",
"ClassicalDedekindReals.sig_not_dec",
"Classical_Prop.classic",
"FunctionalExtensionality.functional_extensionality_dep"
],
"C289_world": [
"ClassicalDedekindReals.sig_forall_dec",
"ClassicalDedekindReals.sig_not_dec",
"Classical_Prop.classic",
"FunctionalExtensionality.functional_extensionality_dep"
],
"C28_order": [
"ClassicalDedekindReals.sig_forall_dec",
"FunctionalExtensionality.functional_extensionality_dep"
],
"C290_diffuse": [
"ClassicalDedekindReals.sig_forall_dec",
"ClassicalDedekindReals.sig_not_dec",
"Classical_Prop.classic",
"FunctionalExtensionality.functional_extensionality_dep"
],
"C290_mean": [
"ClassicalDedekindReals.sig_forall_dec",
"ClassicalDedekindReals.sig_not_dec",
"Classical_Prop.classic",
"FunctionalExtensionality.functional_extensionality_dep"
],
"C291_any_order": [
"ClassicalDedekindReals.sig_forall_dec",
"ClassicalDedekindReals.sig_not_dec",
"Classical_Prop.classic",
"FunctionalExtensionality.functional_extensionality_dep"
],
"C291_what_is_met": [
"ClassicalDedekindReals.sig_forall_dec",
"ClassicalDedekindReals.sig_not_dec",
"Classical_Prop.classic",
"FunctionalExtensionality.functional_extensionality_dep"
],
"C292_direct_picture": [
"ClassicalDedekindReals.sig_forall_dec",
"ClassicalDedekindReals.sig_not_dec",
"Classical_Prop.classic",
"FunctionalExtensionality.functional_extensionality_dep"
],
"C293_cylinder_partial": [
"ClassicalDedekindReals.sig_forall_dec",
"ClassicalDedekindReals.sig_not_dec",
"Classical_Prop.classic",
"FunctionalExtensionality.functional_extensionality_dep"
],
"C293_cylinder_refuted": [
"ClassicalDedekindReals.sig_forall_dec",
"ClassicalDedekindReals.sig_not_dec",
"Classical_Prop.classic",
"FunctionalExtensionality.functional_extensionality_dep"
],
"C293_error": [
"ClassicalDedekindReals.sig_forall_dec",
"ClassicalDedekindReals.sig_not_dec",
"Classical_Prop.classic",
"FunctionalExtensionality.functional_extensionality_dep"
],
"C293_far_refuted": [
"ClassicalDedekindReals.sig_forall_dec",
"ClassicalDedekindReals.sig_not_dec",
"Classical_Prop.classic",
"FunctionalExtensionality.functional_extensionality_dep"
],
"C293_sphere_partial": [
"ClassicalDedekindReals.sig_forall_dec",
"ClassicalDedekindReals.sig_not_dec",
"Classical_Prop.classic",
"FunctionalExtensionality.functional_extensionality_dep"
],
"C294_crack_refuted": [
"ClassicalDedekindReals.sig_forall_dec",
"ClassicalDedekindReals.sig_not_dec",
"Classical_Prop.classic",
"FunctionalExtensionality.functional_extensionality_dep"
],
"C294_whole_partial": [
"ClassicalDedekindReals.sig_forall_dec",
"ClassicalDedekindReals.sig_not_dec",
"Classical_Prop.classic",
"FunctionalExtensionality.functional_extensionality_dep"
],
"C295_direction_refuted": [
"ClassicalDedekindReals.sig_forall_dec",
"ClassicalDedekindReals.sig_not_dec",
"Classical_Prop.classic",
"FunctionalExtensionality.functional_extensionality_dep"
],
"C295_limit": [
"ClassicalDedekindReals.sig_forall_dec",
"ClassicalDedekindReals.sig_not_dec",
"Classical_Prop.classic",
"FunctionalExtensionality.functional_extensionality_dep"
],
"C295_mirror_partial": [
"ClassicalDedekindReals.sig_forall_dec",
"ClassicalDedekindReals.sig_not_dec",
"Classical_Prop.classic",
"FunctionalExtensionality.functional_extensionality_dep"
],
"C295_world_partial": [
"ClassicalDedekindReals.sig_forall_dec",
"ClassicalDedekindReals.sig_not_dec",
"Classical_Prop.classic",
"FunctionalExtensionality.functional_extensionality_dep"
],
"C296_behind_refuted": [
"ClassicalDedekindReals.sig_forall_dec",
"ClassicalDedekindReals.sig_not_dec",
"Classical_Prop.classic",
"FunctionalExtensionality.functional_extensionality_dep"
],
"C296_glass_partial": [
"ClassicalDedekindReals.sig_forall_dec",
"ClassicalDedekindReals.sig_not_dec",
"Classical_Prop.classic",
"FunctionalExtensionality.functional_extensionality_dep"
],
"C297_normal": [
"ClassicalDedekindReals.sig_forall_dec",
"ClassicalDedekindReals.sig_not_dec",
"Classical_Prop.classic",
"FunctionalExtensionality.functional_extensionality_dep"
],
"C297_point": [
"ClassicalDedekindReals.sig_forall_dec",
"ClassicalDedekindReals.sig_not_dec",
"Classical_Prop.classic",
"FunctionalExtensionality.functional_extensionality_dep"
],
"C297_product": [
"ClassicalDedekindReals.sig_forall_dec",
"ClassicalDedekindReals.sig_not_dec",
"Classical_Prop.classic",
"FunctionalExtensionality.functional_extensionality_dep"
],
"C297_round_trip": [
"ClassicalDedekindReals.sig_forall_dec",
"ClassicalDedekindReals.sig_not_dec",
"Classical_Prop.classic",
"FunctionalExtensionality.functional_extensionality_dep"
],
"C297_vector": [
"ClassicalDedekindReals.sig_forall_dec",
"ClassicalDedekindReals.sig_not_dec",
"Classical_Prop.classic",
"FunctionalExtensionality.functional_extensionality_dep"
],
"C298_point": [
"ClassicalDedekindReals.sig_forall_dec",
"ClassicalDedekindReals.sig_not_dec",
"Classical_Prop.classic",
"FunctionalExtensionality.functional_extensionality_dep"
],
"C298_transformed": [
"ClassicalDedekindReals.sig_forall_dec",
"ClassicalDedekindReals.sig_not_dec",
"Classical_Prop.classic",
"FunctionalExtensionality.functional_extensionality_dep"
],
"C298_world": [
"ClassicalDedekindReals.sig_forall_dec",
"ClassicalDedekindReals.sig_not_dec",
"Classical_Prop.classic",
"FunctionalExtensionality.functional_extensionality_dep"
],
"C299_same_picture": [
"ClassicalDedekindReals.sig_forall_dec",
"ClassicalDedekindReals.sig_not_dec",
"Classical_Prop.classic",
"FunctionalExtensionality.functional_extensionality_dep"
],
"C299_same_reports": [
"ClassicalDedekindReals.sig_forall_dec",
"ClassicalDedekindReals.sig_not_dec",
"FunctionalExtensionality.functional_extensionality_dep"
],
"C29_border_refuted": [
"ClassicalDedekindReals.sig_forall_dec",
"FunctionalExtensionality.functional_extensionality_dep"
],
"C29_narrow_partial": [
"ClassicalDedekindReals.sig_forall_dec",
"FunctionalExtensionality.functional_extensionality_dep"
],
"C300_direction_refuted": [
"ClassicalDedekindReals.sig_forall_dec",
"ClassicalDedekindReals.sig_not_dec",
"Classical_Prop.classic",
"FunctionalExtensionality.functional_extensionality_dep"
],
"C300_glass_partial": [
"ClassicalDedekindReals.sig_forall_dec",
"ClassicalDedekindReals.sig_not_dec",
"Classical_Prop.classic",
"FunctionalExtensionality.functional_extensionality_dep"
],
"C300_mirror_partial": [
"ClassicalDedekindReals.sig_forall_dec",
"ClassicalDedekindReals.sig_not_dec",
"Classical_Prop.classic",
"FunctionalExtensionality.functional_extensionality_dep"
],
"C301_cameras": [
"ClassicalDedekindReals.sig_forall_dec",
"ClassicalDedekindReals.sig_not_dec",
"Classical_Prop.classic",
"FunctionalExtensionality.functional_extensionality_dep"
],
"C301_same_picture": [
"ClassicalDedekindReals.sig_forall_dec",
"ClassicalDedekindReals.sig_not_dec",
"Classical_Prop.classic",
"FunctionalExtensionality.functional_extensionality_dep"
],
"C301_same_samples": [
"ClassicalDedekindReals.sig_forall_dec",
"ClassicalDedekindReals.sig_not_dec",
"FunctionalExtensionality.functional_extensionality_dep"
],
"C302_sum": [
"ClassicalDedekindReals.sig_forall_dec",
"ClassicalDedekindReals.sig_not_dec",
"FunctionalExtensionality.functional_extensionality_dep"
],
"C302_world": [
"ClassicalDedekindReals.sig_forall_dec",
"ClassicalDedekindReals.sig_not_dec",
"Classical_Prop.classic",
"FunctionalExtensionality.functional_extensionality_dep"
],
"C303_scaled": [
"ClassicalDedekindReals.sig_forall_dec",
"ClassicalDedekindReals.sig_not_dec",
"FunctionalExtensionality.functional_extensionality_dep"
],
"C303_world_partial": [
"ClassicalDedekindReals.sig_forall_dec",
"ClassicalDedekindReals.sig_not_dec",
"Classical_Prop.classic",
"FunctionalExtensionality.functional_extensionality_dep"
],
"C304_more": [
"ClassicalDedekindReals.sig_forall_dec",
"ClassicalDedekindReals.sig_not_dec",
"FunctionalExtensionality.functional_extensionality_dep"
],
"C304_world": [
"ClassicalDedekindReals.sig_forall_dec",
"ClassicalDedekindReals.sig_not_dec",
"Classical_Prop.classic",
"FunctionalExtensionality.functional_extensionality_dep"
],
"C305_world": [
"ClassicalDedekindReals.sig_forall_dec",
"ClassicalDedekindReals.sig_not_dec",
"Classical_Prop.classic",
"FunctionalExtensionality.functional_extensionality_dep"
],
"C306_dark": [
"ClassicalDedekindReals.sig_forall_dec",
"ClassicalDedekindReals.sig_not_dec",
"Classical_Prop.classic",
"FunctionalExtensionality.functional_extensionality_dep"
],
"C306_lit": [
"ClassicalDedekindReals.sig_forall_dec",
"ClassicalDedekindReals.sig_not_dec",
"Classical_Prop.classic",
"FunctionalExtensionality.functional_extensionality_dep"
],
"C306_range": [
"ClassicalDedekindReals.sig_forall_dec",
"ClassicalDedekindReals.sig_not_dec",
"FunctionalExtensionality.functional_extensionality_dep"
],
"C307_dark_direct": [
"ClassicalDedekindReals.sig_forall_dec",
"ClassicalDedekindReals.sig_not_dec",
"Classical_Prop.classic",
"FunctionalExtensionality.functional_extensionality_dep"
],
"C307_dark_path": [
"ClassicalDedekindReals.sig_forall_dec",
"ClassicalDedekindReals.sig_not_dec",
"Classical_Prop.classic",
"FunctionalExtensionality.functional_extensionality_dep"
],
"C30_any_filter": [
"ClassicalDedekindReals.sig_forall_dec",
"FunctionalExtensionality.functional_extensionality_dep"
],
"C30_average": [
"ClassicalDedekindReals.sig_forall_dec",
"FunctionalExtensionality.functional_extensionality_dep"
],
"C31_crop_partial": [
"ClassicalDedekindReals.sig_forall_dec",
"FunctionalExtensionality.functional_extensionality_dep"
],
"C31_vertical_crop_refuted": [
"ClassicalDedekindReals.sig_forall_dec",
"FunctionalExtensionality.functional_extensionality_dep"
],
"C32_filters": [
"ClassicalDedekindReals.sig_forall_dec",
"ClassicalDedekindReals.sig_not_dec",
"Classical_Prop.classic",
"FunctionalExtensionality.functional_extensionality_dep"
],
"C32_lanczos_lobe": [
"ClassicalDedekindReals.sig_forall_dec",
"ClassicalDedekindReals.sig_not_dec",
"Classical_Prop.classic",
"FunctionalExtensionality.functional_extensionality_dep"
],
"C32_lanczos_zeros": [
"ClassicalDedekindReals.sig_forall_dec",
"ClassicalDedekindReals.sig_not_dec",
"FunctionalExtensionality.functional_extensionality_dep"
],
"C32_mitchell_tiling": [
"ClassicalDedekindReals.sig_forall_dec",
"FunctionalExtensionality.functional_extensionality_dep"
],
"C32_mitchell_unity": [
"ClassicalDedekindReals.sig_forall_dec",
"FunctionalExtensionality.functional_extensionality_dep"
],
"C33_any_hit_partial": [
"ClassicalDedekindReals.sig_forall_dec",
"FunctionalExtensionality.functional_extensionality_dep"
],
"C33_hit_and_range_partial": [
"ClassicalDedekindReals.sig_forall_dec",
"FunctionalExtensionality.functional_extensionality_dep"
],
"C33_record_refuted": [
"ClassicalDedekindReals.sig_forall_dec",
"FunctionalExtensionality.functional_extensionality_dep"
],
"C34_full_refine": [],
"C35_construction": [
"ClassicalDedekindReals.sig_forall_dec",
"ClassicalDedekindReals.sig_not_dec",
"Classical_Prop.classic",
"FunctionalExtensionality.functional_extensionality_dep"
],
"C35_positions": [
"ClassicalDedekindReals.sig_forall_dec",
"ClassicalDedekindReals.sig_not_dec",
"Classical_Prop.classic",
"FunctionalExtensionality.functional_extensionality_dep"
],
"C35_registration": [
"ClassicalDedekindReals.sig_forall_dec",
"ClassicalDedekindReals.sig_not_dec",
"Classical_Prop.classic",
"FunctionalExtensionality.functional_extensionality_dep"
],
"C36_object_bound": [
"ClassicalDedekindReals.sig_forall_dec",
"ClassicalDedekindReals.sig_not_dec",
"FunctionalExtensionality.functional_extensionality_dep"
],
"C36_shadow_agrees": [
"ClassicalDedekindReals.sig_forall_dec",
"ClassicalDedekindReals.sig_not_dec",
"FunctionalExtensionality.functional_extensionality_dep"
],
"C36_triangle_bound": [
"ClassicalDedekindReals.sig_forall_dec",
"FunctionalExtensionality.functional_extensionality_dep"
],
"C36_triangle_complete": [
"ClassicalDedekindReals.sig_forall_dec",
"ClassicalDedekindReals.sig_not_dec",
"FunctionalExtensionality.functional_extensionality_dep"
],
"C36_triangle_sound": [
"ClassicalDedekindReals.sig_forall_dec",
"ClassicalDedekindReals.sig_not_dec",
"FunctionalExtensionality.functional_extensionality_dep"
],
"C37_sample_crash_refuted": [
"ClassicalDedekindReals.sig_forall_dec",
"ClassicalDedekindReals.sig_not_dec",
"FunctionalExtensionality.functional_extensionality_dep"
],
"C37_sample_partial": [
"ClassicalDedekindReals.sig_forall_dec",
"ClassicalDedekindReals.sig_not_dec",
"FunctionalExtensionality.functional_extensionality_dep"
],
"C37_sample_refuted": [
"ClassicalDedekindReals.sig_forall_dec",
"ClassicalDedekindReals.sig_not_dec",
"FunctionalExtensionality.functional_extensionality_dep"
],
"C38_parameters": [
"ClassicalDedekindReals.sig_forall_dec",
"ClassicalDedekindReals.sig_not_dec",
"Classical_Prop.classic",
"FunctionalExtensionality.functional_extensionality_dep"
],
"C38_shadow_agrees": [
"ClassicalDedekindReals.sig_forall_dec",
"ClassicalDedekindReals.sig_not_dec",
"Classical_Prop.classic",
"FunctionalExtensionality.functional_extensionality_dep"
],
"C38_small_spheres_invisible": [
"ClassicalDedekindReals.sig_forall_dec",
"ClassicalDedekindReals.sig_not_dec",
"Classical_Prop.classic",
"FunctionalExtensionality.functional_extensionality_dep"
],
"C38_sphere": [
"ClassicalDedekindReals.sig_forall_dec",
"ClassicalDedekindReals.sig_not_dec",
"Classical_Prop.classic",
"FunctionalExtensionality.functional_extensionality_dep"
],
"C39_angle_range": [
"ClassicalDedekindReals.sig_forall_dec",
"ClassicalDedekindReals.sig_not_dec",
"FunctionalExtensionality.functional_extensionality_dep"
],
"C39_cylinder": [
"ClassicalDedekindReals.sig_forall_dec",
"ClassicalDedekindReals.sig_not_dec",
"Classical_Prop.classic",
"FunctionalExtensionality.functional_extensionality_dep"
],
"C39_disk": [
"ClassicalDedekindReals.sig_forall_dec",
"ClassicalDedekindReals.sig_not_dec",
"Classical_Prop.classic",
"FunctionalExtensionality.functional_extensionality_dep"
],
"C40_edges_exist": [],
"C40_every_level_is_a_surface": [
"ClassicalDedekindReals.sig_forall_dec",
"FunctionalExtensionality.functional_extensionality_dep"
],
"C40_one_level_splits_every_triangle": [
"ClassicalDedekindReals.sig_forall_dec",
"FunctionalExtensionality.functional_extensionality_dep"
],
"C41_frame": [
"ClassicalDedekindReals.sig_forall_dec",
"ClassicalDedekindReals.sig_not_dec",
"FunctionalExtensionality.functional_extensionality_dep"
],
"C42_density": [
"ClassicalDedekindReals.sig_forall_dec",
"ClassicalDedekindReals.sig_not_dec",
"Classical_Prop.classic",
"FunctionalExtensionality.functional_extensionality_dep"
],
"C42_evaluation": [
"ClassicalDedekindReals.sig_forall_dec",
"ClassicalDedekindReals.sig_not_dec",
"Classical_Prop.classic",
"FunctionalExtensionality.functional_extensionality_dep"
],
"C42_matching": [],
"C42_selection": [
"ClassicalDedekindReals.sig_forall_dec",
"ClassicalDedekindReals.sig_not_dec",
"Classical_Prop.classic",
"FunctionalExtensionality.functional_extensionality_dep"
],
"C43_bsdf": [
"ClassicalDedekindReals.sig_forall_dec",
"ClassicalDedekindReals.sig_not_dec",
"Classical_Prop.classic",
"FunctionalExtensionality.functional_extensionality_dep"
],
"C43_lobes": [
"ClassicalDedekindReals.sig_forall_dec",
"ClassicalDedekindReals.sig_not_dec",
"Classical_Prop.classic",
"FunctionalExtensionality.functional_extensionality_dep"
],
"C44_fraction": [
"ClassicalDedekindReals.sig_forall_dec",
"ClassicalDedekindReals.sig_not_dec",
"FunctionalExtensionality.functional_extensionality_dep"
],
"C45_mirror": [
"ClassicalDedekindReals.sig_forall_dec",
"ClassicalDedekindReals.sig_not_dec",
"Classical_Prop.classic",
"FunctionalExtensionality.functional_extensionality_dep"
],
"C45_transmission": [
"ClassicalDedekindReals.sig_forall_dec",
"ClassicalDedekindReals.sig_not_dec",
"Classical_Prop.classic",
"FunctionalExtensionality.functional_extensionality_dep"
],
"C46_lambertian_estimate": [
"ClassicalDedekindReals.sig_forall_dec",
"ClassicalDedekindReals.sig_not_dec",
"Classical_Prop.classic",
"FunctionalExtensionality.functional_extensionality_dep"
],
"C46_sampling": [
"ClassicalDedekindReals.sig_forall_dec",
"ClassicalDedekindReals.sig_not_dec",
"Classical_Prop.classic",
"FunctionalExtensionality.functional_extensionality_dep"
],
"C47_coefficientwise": [
"ClassicalDedekindReals.sig_forall_dec",
"FunctionalExtensionality.functional_extensionality_dep"
],
"C47_linear": [
"ClassicalDedekindReals.sig_forall_dec",
"FunctionalExtensionality.functional_extensionality_dep"
],
"C47_luminance": [
"ClassicalDedekindReals.sig_forall_dec",
"FunctionalExtensionality.functional_extensionality_dep"
],
"C47_round_trip": [
"ClassicalDedekindReals.sig_forall_dec",
"FunctionalExtensionality.functional_extensionality_dep"
],
"C48_area_is_an_integral": [
"ClassicalDedekindReals.sig_forall_dec",
"FunctionalExtensionality.functional_extensionality_dep"
],
"C48_mean": [
"ClassicalDedekindReals.sig_forall_dec",
"FunctionalExtensionality.functional_extensionality_dep"
],
"C49_blocks_partial": [
"ClassicalDedekindReals.sig_forall_dec",
"ClassicalDedekindReals.sig_not_dec",
"FunctionalExtensionality.functional_extensionality_dep"
],
"C49_contents_refuted": [
"ClassicalDedekindReals.sig_forall_dec",
"ClassicalDedekindReals.sig_not_dec",
"FunctionalExtensionality.functional_extensionality_dep"
],
"C50_defaults": [
"ClassicalDedekindReals.sig_forall_dec",
"ClassicalDedekindReals.sig_not_dec",
"FunctionalExtensionality.functional_extensionality_dep"
],
"C50_fresh_state": [
"ClassicalDedekindReals.sig_forall_dec",
"ClassicalDedekindReals.sig_not_dec",
"FunctionalExtensionality.functional_extensionality_dep"
],
"C50_history": [
"ClassicalDedekindReals.sig_forall_dec",
"ClassicalDedekindReals.sig_not_dec",
"FunctionalExtensionality.functional_extensionality_dep"
],
"C50_lower": [],
"C50_session": [
"ClassicalDedekindReals.sig_forall_dec",
"ClassicalDedekindReals.sig_not_dec",
"FunctionalExtensionality.functional_extensionality_dep"
],
"C50_setters": [
"ClassicalDedekindReals.sig_forall_dec",
"ClassicalDedekindReals.sig_not_dec",
"FunctionalExtensionality.functional_extensionality_dep"
],
"C50_values": [
"ClassicalDedekindReals.sig_forall_dec",
"ClassicalDedekindReals.sig_not_dec",
"FunctionalExtensionality.functional_extensionality_dep"
],
"C51_fifo": [],
"C51_unknown_type": [],
"C52_path_terminates": [
"ClassicalDedekindReals.sig_forall_dec",
"ClassicalDedekindReals.sig_not_dec",
"Classical_Prop.classic",
"FunctionalExtensionality.functional_extensionality_dep"
],
"C52_recursion_terminates": [
"ClassicalDedekindReals.sig_forall_dec",
"ClassicalDedekindReals.sig_not_dec",
"Classical_Prop.classic",
"FunctionalExtensionality.functional_extensionality_dep"
],
"C52_world_terminates": [
"ClassicalDedekindReals.sig_forall_dec",
"ClassicalDedekindReals.sig_not_dec",
"Classical_Prop.classic",
"FunctionalExtensionality.functional_extensionality_dep"
],
"C53_infinite_refuted": [
"ClassicalDedekindReals.sig_forall_dec",
"FunctionalExtensionality.functional_extensionality_dep"
],
"C53_sane_partial": [
"ClassicalDedekindReals.sig_forall_dec",
"FunctionalExtensionality.functional_extensionality_dep"
],
"C54_shadow_segment": [
"ClassicalDedekindReals.sig_forall_dec",
"ClassicalDedekindReals.sig_not_dec",
"FunctionalExtensionality.functional_extensionality_dep"
],
"C55_inverse_square": [
"ClassicalDedekindReals.sig_forall_dec",
"ClassicalDedekindReals.sig_not_dec",
"FunctionalExtensionality.functional_extensionality_dep"
],
"C56_black": [
"ClassicalDedekindReals.sig_forall_dec"
],
"C56_clamp": [
"ClassicalDedekindReals.sig_forall_dec"
],
"C56_repeat": [
"ClassicalDedekindReals.sig_forall_dec"
],
"C56_repeat_periodic": [
"ClassicalDedekindReals.sig_forall_dec"
],
"C57_constant": [
"ClassicalDedekindReals.sig_forall_dec",
"ClassicalDedekindReals.sig_not_dec",
"Classical_Prop.classic",
"FunctionalExtensionality.functional_extensionality_dep"
],
"C57_footprint": [
"ClassicalDedekindReals.sig_forall_dec",
"ClassicalDedekindReals.sig_not_dec",
"Classical_Prop.classic",
"FunctionalExtensionality.functional_extensionality_dep"
],
"C57_lookup_in_range": [
"ClassicalDedekindReals.sig_forall_dec",
"ClassicalDedekindReals.sig_not_dec",
"Classical_Prop.classic",
"FunctionalExtensionality.functional_extensionality_dep"
],
"C58_bilerp": [
"ClassicalDedekindReals.sig_forall_dec",
"FunctionalExtensionality.functional_extensionality_dep"
],
"C58_constant_scale": [
"ClassicalDedekindReals.sig_forall_dec"
],
"C58_mix": [
"ClassicalDedekindReals.sig_forall_dec",
"FunctionalExtensionality.functional_extensionality_dep"
],
"C58_uv": [
"ClassicalDedekindReals.sig_forall_dec",
"FunctionalExtensionality.functional_extensionality_dep"
],
"C59_hg_forward": [
"ClassicalDedekindReals.sig_forall_dec",
"ClassicalDedekindReals.sig_not_dec",
"Classical_Prop.classic",
"FunctionalExtensionality.functional_extensionality_dep"
],
"C59_phase_normalised": [
"ClassicalDedekindReals.sig_forall_dec",
"ClassicalDedekindReals.sig_not_dec",
"Classical_Prop.classic",
"FunctionalExtensionality.functional_extensionality_dep"
],
"C59_phase_positive": [
"ClassicalDedekindReals.sig_forall_dec",
"ClassicalDedekindReals.sig_not_dec",
"Classical_Prop.classic",
"FunctionalExtensionality.functional_extensionality_dep"
],
"C59_phase_symmetric": [
"ClassicalDedekindReals.sig_forall_dec",
"ClassicalDedekindReals.sig_not_dec",
"Classical_Prop.classic",
"FunctionalExtensionality.functional_extensionality_dep"
],
"C60_homogeneous_tau": [
"ClassicalDedekindReals.sig_forall_dec",
"ClassicalDedekindReals.sig_not_dec",
"Classical_Prop.classic",
"FunctionalExtensionality.functional_extensionality_dep"
],
"C60_tau_additive": [
"ClassicalDedekindReals.sig_forall_dec",
"ClassicalDedekindReals.sig_not_dec",
"Classical_Prop.classic",
"FunctionalExtensionality.functional_extensionality_dep"
],
"C60_tau_nonneg": [
"ClassicalDedekindReals.sig_forall_dec",
"ClassicalDedekindReals.sig_not_dec",
"Classical_Prop.classic",
"FunctionalExtensionality.functional_extensionality_dep"
],
"C61_lerp": [
"ClassicalDedekindReals.sig_forall_dec",
"FunctionalExtensionality.functional_extensionality_dep"
],
"C61_powers": [
"ClassicalDedekindReals.sig_forall_dec",
"ClassicalDedekindReals.sig_not_dec",
"Classical_Prop.classic",
"FunctionalExtensionality.functional_extensionality_dep"
],
"C61_rounding": [
"ClassicalDedekindReals.sig_forall_dec",
"FunctionalExtensionality.functional_extensionality_dep"
],
"C61_tolerances": [
"ClassicalDedekindReals.sig_forall_dec",
"FunctionalExtensionality.functional_extensionality_dep"
],
"C62_raydiff_main_ray_partial": [
"ClassicalDedekindReals.sig_forall_dec",
"ClassicalDedekindReals.sig_not_dec",
"FunctionalExtensionality.functional_extensionality_dep"
],
"C62_raydiff_offsets_refuted": [
"ClassicalDedekindReals.sig_forall_dec",
"ClassicalDedekindReals.sig_not_dec",
"FunctionalExtensionality.functional_extensionality_dep"
],
"C63_azimuth": [
"ClassicalDedekindReals.sig_forall_dec",
"ClassicalDedekindReals.sig_not_dec",
"FunctionalExtensionality.functional_extensionality_dep"
],
"C63_cone_density": [
"ClassicalDedekindReals.sig_forall_dec",
"ClassicalDedekindReals.sig_not_dec",
"FunctionalExtensionality.functional_extensionality_dep"
],
"C63_cosine_density": [
"ClassicalDedekindReals.sig_forall_dec",
"ClassicalDedekindReals.sig_not_dec",
"Classical_Prop.classic",
"FunctionalExtensionality.functional_extensionality_dep"
],
"C63_hemisphere_density": [
"ClassicalDedekindReals.sig_forall_dec",
"ClassicalDedekindReals.sig_not_dec",
"FunctionalExtensionality.functional_extensionality_dep"
],
"C63_hg_density": [
"ClassicalDedekindReals.sig_forall_dec",
"ClassicalDedekindReals.sig_not_dec",
"Classical_Prop.classic",
"FunctionalExtensionality.functional_extensionality_dep"
],
"C63_sampling_laws": [
"ClassicalDedekindReals.sig_forall_dec",
"ClassicalDedekindReals.sig_not_dec",
"FunctionalExtensionality.functional_extensionality_dep"
],
"C63_sphere_density": [
"ClassicalDedekindReals.sig_forall_dec",
"ClassicalDedekindReals.sig_not_dec",
"FunctionalExtensionality.functional_extensionality_dep"
],
"C64_requests": [
"ClassicalDedekindReals.sig_forall_dec"
],
"C65_crop_refuted": [],
"C65_hue_refuted": [
"ClassicalDedekindReals.sig_forall_dec",
"FunctionalExtensionality.functional_extensionality_dep"
],
"C66_any_sound_partial": [
"ClassicalDedekindReals.sig_forall_dec",
"ClassicalDedekindReals.sig_not_dec",
"Classical_Prop.classic",
"FunctionalExtensionality.functional_extensionality_dep"
],
"C66_missed_hit_refuted": [
"ClassicalDedekindReals.sig_forall_dec",
"ClassicalDedekindReals.sig_not_dec",
"Classical_Prop.classic",
"FunctionalExtensionality.functional_extensionality_dep"
],
"C66_starts_in_box_partial": [
"ClassicalDedekindReals.sig_forall_dec",
"ClassicalDedekindReals.sig_not_dec",
"Classical_Prop.classic",
"FunctionalExtensionality.functional_extensionality_dep"
],
"C66_unit_steps_any_partial": [
"ClassicalDedekindReals.sig_forall_dec",
"ClassicalDedekindReals.sig_not_dec",
"Classical_Prop.classic",
"FunctionalExtensionality.functional_extensionality_dep"
],
"C66_unit_steps_partial": [
"ClassicalDedekindReals.sig_forall_dec",
"ClassicalDedekindReals.sig_not_dec",
"Classical_Prop.classic",
"FunctionalExtensionality.functional_extensionality_dep"
],
"C66_walk_sound_partial": [
"ClassicalDedekindReals.sig_forall_dec",
"ClassicalDedekindReals.sig_not_dec",
"Classical_Prop.classic",
"FunctionalExtensionality.functional_extensionality_dep"
],
"C67_lazy_refinement_safe": [],
"C67_no_deadlock": [],
"C68_cylinder_full_refuted": [
"ClassicalDedekindReals.sig_forall_dec",
"ClassicalDedekindReals.sig_not_dec",
"Classical_Prop.classic",
"FunctionalExtensionality.functional_extensionality_dep"
],
"C68_disk_full_partial": [
"ClassicalDedekindReals.sig_forall_dec",
"ClassicalDedekindReals.sig_not_dec",
"Classical_Prop.classic",
"FunctionalExtensionality.functional_extensionality_dep"
],
"C68_disk_full_refuted": [
"ClassicalDedekindReals.sig_forall_dec",
"ClassicalDedekindReals.sig_not_dec",
"Classical_Prop.classic",
"FunctionalExtensionality.functional_extensionality_dep"
],
"C69_attributes_partial": [
"ClassicalDedekindReals.sig_forall_dec",
"FunctionalExtensionality.functional_extensionality_dep"
],
"C69_shading_ignored_refuted": [
"ClassicalDedekindReals.sig_forall_dec",
"ClassicalDedekindReals.sig_not_dec",
"FunctionalExtensionality.functional_extensionality_dep"
],
"C69_shared_vertices_refuted": [
"ClassicalDedekindReals.sig_forall_dec",
"ClassicalDedekindReals.sig_not_dec",
"FunctionalExtensionality.functional_extensionality_dep"
],
"C69_wrong_values_refuted": [
"ClassicalDedekindReals.sig_forall_dec",
"FunctionalExtensionality.functional_extensionality_dep"
],
"C70_disk_normal_refuted": [
"ClassicalDedekindReals.sig_forall_dec",
"ClassicalDedekindReals.sig_not_dec",
"Classical_Prop.classic",
"FunctionalExtensionality.functional_extensionality_dep"
],
"C70_full_disk_sample_partial": [
"ClassicalDedekindReals.sig_forall_dec",
"ClassicalDedekindReals.sig_not_dec",
"Classical_Prop.classic",
"FunctionalExtensionality.functional_extensionality_dep"
],
"C70_partial_disk_sample_refuted": [
"ClassicalDedekindReals.sig_forall_dec",
"ClassicalDedekindReals.sig_not_dec",
"Classical_Prop.classic",
"FunctionalExtensionality.functional_extensionality_dep"
],
"C70_reversed_partial": [
"ClassicalDedekindReals.sig_forall_dec",
"ClassicalDedekindReals.sig_not_dec",
"Classical_Prop.classic",
"FunctionalExtensionality.functional_extensionality_dep"
],
"C70_sphere_sample_refuted": [
"ClassicalDedekindReals.sig_forall_dec",
"ClassicalDedekindReals.sig_not_dec",
"Classical_Prop.classic",
"FunctionalExtensionality.functional_extensionality_dep"
],
"C71_differentials": [
"ClassicalDedekindReals.sig_forall_dec",
"ClassicalDedekindReals.sig_not_dec",
"FunctionalExtensionality.functional_extensionality_dep"
],
"C71_no_differentials": [
"ClassicalDedekindReals.sig_forall_dec",
"FunctionalExtensionality.functional_extensionality_dep"
],
"C71_shading_derivatives": [
"ClassicalDedekindReals.sig_forall_dec",
"ClassicalDedekindReals.sig_not_dec",
"FunctionalExtensionality.functional_extensionality_dep"
],
"C71_shading_frame": [
"ClassicalDedekindReals.sig_forall_dec",
"ClassicalDedekindReals.sig_not_dec",
"FunctionalExtensionality.functional_extensionality_dep"
],
"C71_shading_weights": [
"ClassicalDedekindReals.sig_forall_dec",
"ClassicalDedekindReals.sig_not_dec",
"FunctionalExtensionality.functional_extensionality_dep"
],
"C71_sphere_normal": [
"ClassicalDedekindReals.sig_forall_dec",
"ClassicalDedekindReals.sig_not_dec",
"Classical_Prop.classic",
"FunctionalExtensionality.functional_extensionality_dep"
],
"C71_triangle_normal": [
"ClassicalDedekindReals.sig_forall_dec",
"ClassicalDedekindReals.sig_not_dec",
"FunctionalExtensionality.functional_extensionality_dep"
],
"C71_triangle_tangents": [
"ClassicalDedekindReals.sig_forall_dec",
"ClassicalDedekindReals.sig_not_dec",
"FunctionalExtensionality.functional_extensionality_dep"
],
"C72_bound": [
"ClassicalDedekindReals.sig_forall_dec",
"FunctionalExtensionality.functional_extensionality_dep"
],
"C72_construction": [
"ClassicalDedekindReals.sig_forall_dec",
"FunctionalExtensionality.functional_extensionality_dep"
],
"C72_faces": [
"ClassicalDedekindReals.sig_forall_dec",
"FunctionalExtensionality.functional_extensionality_dep"
],
"C72_flat_points": [
"ClassicalDedekindReals.sig_forall_dec"
],
"C72_object_bound": [
"ClassicalDedekindReals.sig_forall_dec",
"ClassicalDedekindReals.sig_not_dec",
"FunctionalExtensionality.functional_extensionality_dep"
],
"C73_u_range_partial": [
"ClassicalDedekindReals.sig_forall_dec",
"ClassicalDedekindReals.sig_not_dec",
"Classical_Prop.classic",
"FunctionalExtensionality.functional_extensionality_dep"
],
"C73_v_range_refuted": [
"ClassicalDedekindReals.sig_forall_dec",
"ClassicalDedekindReals.sig_not_dec",
"Classical_Prop.classic",
"FunctionalExtensionality.functional_extensionality_dep"
],
"C74_large_index_rejected_partial": [
"ClassicalDedekindReals.sig_forall_dec",
"FunctionalExtensionality.functional_extensionality_dep"
],
"C74_negative_index_refuted": [
"ClassicalDedekindReals.sig_forall_dec",
"FunctionalExtensionality.functional_extensionality_dep"
],
"C75_distinct_ids": [],
"C75_object_bounds": [
"ClassicalDedekindReals.sig_forall_dec",
"ClassicalDedekindReals.sig_not_dec",
"FunctionalExtensionality.functional_extensionality_dep"
],
"C75_primitive_ids": [],
"C76_round_trip_partial": [
"ClassicalDedekindReals.sig_forall_dec",
"FunctionalExtensionality.functional_extensionality_dep"
],
"C76_round_trip_refuted": [
"ClassicalDedekindReals.sig_forall_dec",
"ClassicalDedekindReals.sig_not_dec",
"FunctionalExtensionality.functional_extensionality_dep"
],
"C77_single_lobe_partial": [
"ClassicalDedekindReals.sig_forall_dec",
"ClassicalDedekindReals.sig_not_dec",
"Classical_Prop.classic",
"FunctionalExtensionality.functional_extensionality_dep"
],
"C77_two_lobes_refuted": [
"ClassicalDedekindReals.sig_forall_dec",
"ClassicalDedekindReals.sig_not_dec",
"Classical_Prop.classic",
"FunctionalExtensionality.functional_extensionality_dep"
],
"C78_fresnel_formula_refuted": [
"ClassicalDedekindReals.sig_forall_dec",
"ClassicalDedekindReals.sig_not_dec",
"FunctionalExtensionality.functional_extensionality_dep"
],
"C78_high_index_refuted": [
"ClassicalDedekindReals.sig_forall_dec",
"ClassicalDedekindReals.sig_not_dec",
"FunctionalExtensionality.functional_extensionality_dep"
],
"C78_moderate_indices_partial": [
"ClassicalDedekindReals.sig_forall_dec",
"ClassicalDedekindReals.sig_not_dec",
"FunctionalExtensionality.functional_extensionality_dep"
],
"C79_normal_incidence_partial": [
"ClassicalDedekindReals.sig_forall_dec",
"ClassicalDedekindReals.sig_not_dec",
"Classical_Prop.classic",
"FunctionalExtensionality.functional_extensionality_dep"
],
"C79_snell_refuted": [
"ClassicalDedekindReals.sig_forall_dec",
"ClassicalDedekindReals.sig_not_dec",
"Classical_Prop.classic",
"FunctionalExtensionality.functional_extensionality_dep"
],
"C79_spurious_total_reflection_refuted": [
"ClassicalDedekindReals.sig_forall_dec",
"ClassicalDedekindReals.sig_not_dec",
"Classical_Prop.classic",
"FunctionalExtensionality.functional_extensionality_dep"
],
"C80_btdf_adapter_partial": [
"ClassicalDedekindReals.sig_forall_dec",
"ClassicalDedekindReals.sig_not_dec",
"Classical_Prop.classic",
"FunctionalExtensionality.functional_extensionality_dep"
],
"C80_btdf_density_refuted": [
"ClassicalDedekindReals.sig_forall_dec",
"ClassicalDedekindReals.sig_not_dec",
"Classical_Prop.classic",
"FunctionalExtensionality.functional_extensionality_dep"
],
"C80_scaled_refuted": [
"ClassicalDedekindReals.sig_forall_dec",
"ClassicalDedekindReals.sig_not_dec",
"Classical_Prop.classic",
"FunctionalExtensionality.functional_extensionality_dep"
],
"C81_density_non_negative": [
"ClassicalDedekindReals.sig_forall_dec",
"ClassicalDedekindReals.sig_not_dec",
"Classical_Prop.classic",
"FunctionalExtensionality.functional_extensionality_dep"
],
"C81_non_negative": [
"ClassicalDedekindReals.sig_forall_dec",
"ClassicalDedekindReals.sig_not_dec",
"Classical_Prop.classic",
"FunctionalExtensionality.functional_extensionality_dep"
],
"C81_shadowing": [
"ClassicalDedekindReals.sig_forall_dec",
"FunctionalExtensionality.functional_extensionality_dep"
],
"C81_smooth_oren_nayar": [
"ClassicalDedekindReals.sig_forall_dec",
"ClassicalDedekindReals.sig_not_dec",
"Classical_Prop.classic",
"FunctionalExtensionality.functional_extensionality_dep"
],
"C82_measured_samples": [
"ClassicalDedekindReals.sig_forall_dec",
"ClassicalDedekindReals.sig_not_dec",
"Classical_Prop.classic",
"FunctionalExtensionality.functional_extensionality_dep"
],
"C82_measured_tables": [
"ClassicalDedekindReals.sig_forall_dec",
"ClassicalDedekindReals.sig_not_dec",
"Classical_Prop.classic",
"FunctionalExtensionality.functional_extensionality_dep"
],
"C82_remap_range": [
"ClassicalDedekindReals.sig_forall_dec",
"ClassicalDedekindReals.sig_not_dec",
"Classical_Prop.classic",
"FunctionalExtensionality.functional_extensionality_dep"
],
"C83_table_coverage_refuted": [
"ClassicalDedekindReals.sig_forall_dec",
"ClassicalDedekindReals.sig_not_dec",
"Classical_Prop.classic",
"FunctionalExtensionality.functional_extensionality_dep"
],
"C84_microfacet_other_side_refuted": [
"ClassicalDedekindReals.sig_forall_dec",
"ClassicalDedekindReals.sig_not_dec",
"Classical_Prop.classic",
"FunctionalExtensionality.functional_extensionality_dep"
],
"C85_constant_refuted": [
"ClassicalDedekindReals.sig_forall_dec",
"FunctionalExtensionality.functional_extensionality_dep"
],
"C85_every_interval_partial": [
"ClassicalDedekindReals.sig_forall_dec",
"FunctionalExtensionality.functional_extensionality_dep"
],
"C86_bins_partial": [
"ClassicalDedekindReals.sig_forall_dec",
"FunctionalExtensionality.functional_extensionality_dep"
],
"C86_bins_refuted": [
"ClassicalDedekindReals.sig_forall_dec",
"FunctionalExtensionality.functional_extensionality_dep"
],
"C86_init_refuted": [
"ClassicalDedekindReals.sig_forall_dec",
"FunctionalExtensionality.functional_extensionality_dep"
],
"C87_blue_smallest_refuted": [
"ClassicalDedekindReals.sig_forall_dec",
"FunctionalExtensionality.functional_extensionality_dep"
],
"C87_from_rgb_partial": [
"ClassicalDedekindReals.sig_forall_dec",
"FunctionalExtensionality.functional_extensionality_dep"
],
"C87_from_rgb_refuted": [
"ClassicalDedekindReals.sig_forall_dec",
"FunctionalExtensionality.functional_extensionality_dep"
],
"C87_green_smallest_refuted": [
"ClassicalDedekindReals.sig_forall_dec",
"FunctionalExtensionality.functional_extensionality_dep"
],
"C87_grey_partial": [
"ClassicalDedekindReals.sig_forall_dec",
"FunctionalExtensionality.functional_extensionality_dep"
],
"C88_nearest_refuted": [
"ClassicalDedekindReals.sig_forall_dec",
"ClassicalDedekindReals.sig_not_dec",
"Classical_Prop.classic",
"FunctionalExtensionality.functional_extensionality_dep"
],
"C88_round_pow_2_partial": [
"ClassicalDedekindReals.sig_forall_dec",
"ClassicalDedekindReals.sig_not_dec",
"Classical_Prop.classic",
"FunctionalExtensionality.functional_extensionality_dep"
],
"C89_unmatched_partial": [
"ClassicalDedekindReals.sig_forall_dec",
"ClassicalDedekindReals.sig_not_dec",
"FunctionalExtensionality.functional_extensionality_dep"
],
"C89_unmatched_refuted": [
"ClassicalDedekindReals.sig_forall_dec",
"ClassicalDedekindReals.sig_not_dec",
"FunctionalExtensionality.functional_extensionality_dep"
],
"C90_copy_refuted": [
"ClassicalDedekindReals.sig_forall_dec",
"ClassicalDedekindReals.sig_not_dec",
"FunctionalExtensionality.functional_extensionality_dep"
],
"C90_named_partial": [
"ClassicalDedekindReals.sig_forall_dec",
"ClassicalDedekindReals.sig_not_dec",
"FunctionalExtensionality.functional_extensionality_dep"
],
"C91_accumulates": [
"ClassicalDedekindReals.sig_forall_dec",
"ClassicalDedekindReals.sig_not_dec",
"FunctionalExtensionality.functional_extensionality_dep"
],
"C92_camera": [
"ClassicalDedekindReals.sig_forall_dec",
"ClassicalDedekindReals.sig_not_dec",
"FunctionalExtensionality.functional_extensionality_dep"
],
"C93_before_init_refuted": [
"ClassicalDedekindReals.sig_forall_dec",
"ClassicalDedekindReals.sig_not_dec",
"FunctionalExtensionality.functional_extensionality_dep"
],
"C94_clean_refuted": [
"ClassicalDedekindReals.sig_forall_dec",
"ClassicalDedekindReals.sig_not_dec",
"FunctionalExtensionality.functional_extensionality_dep"
],
"C95_import_refuted": [],
"C96_spot_falloff": [
"ClassicalDedekindReals.sig_forall_dec",
"ClassicalDedekindReals.sig_not_dec",
"Classical_Prop.classic",
"FunctionalExtensionality.functional_extensionality_dep"
],
"C97_attenuation_refuted": [
"ClassicalDedekindReals.sig_forall_dec",
"ClassicalDedekindReals.sig_not_dec",
"Classical_Prop.classic",
"FunctionalExtensionality.functional_extensionality_dep"
],
"C97_gonio_partial": [
"ClassicalDedekindReals.sig_forall_dec",
"ClassicalDedekindReals.sig_not_dec",
"FunctionalExtensionality.functional_extensionality_dep"
],
"C97_gonio_refuted": [
"ClassicalDedekindReals.sig_forall_dec",
"ClassicalDedekindReals.sig_not_dec",
"FunctionalExtensionality.functional_extensionality_dep"
],
"C97_spot_partial": [
"ClassicalDedekindReals.sig_forall_dec",
"ClassicalDedekindReals.sig_not_dec",
"FunctionalExtensionality.functional_extensionality_dep"
],
"C98_area_weighted": [
"ClassicalDedekindReals.sig_forall_dec",
"FunctionalExtensionality.functional_extensionality_dep"
],
"C98_density": [
"ClassicalDedekindReals.sig_forall_dec",
"FunctionalExtensionality.functional_extensionality_dep"
],
"C98_flattening": [],
"C99_one_sided": [
"ClassicalDedekindReals.sig_forall_dec",
"FunctionalExtensionality.functional_extensionality_dep"
],
"C99_sample": [
"ClassicalDedekindReals.sig_forall_dec",
"ClassicalDedekindReals.sig_not_dec",
"FunctionalExtensionality.functional_extensionality_dep"
]
}