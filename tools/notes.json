{
 "C03": {
  "note": "Faithful for every box with ordered corners. Missing (false of the code): the copy of the empty box is all of space; b != b is True unless b is one point."
 },
 "C04": {
  "note": "Exact, with the exact interval, for all boxes and rays except that a zero direction component must not be IEEE -0.0 while the origin lies on a face plane of that axis; with -0.0 there the test misses (proved)."
 },
 "C07": {
  "note": "Total for the default method with max_prim <= 4. Missing (false of the code): 'middle' raises AssertionError, max_prim >= 5 raises TypeError, 'equal' raises AttributeError."
 },
 "C10": {
  "note": "Proved for all primitive sets whose tree height fits the 64-entry stack (in particular up to 65 primitives) and rays without negative-zero components that do not lie on an x face plane. Missing (false of the code): deeper trees overflow the stack."
 },
 "C11": {
  "note": "Proved except for rays parallel to the x slabs starting on an x face, and negative-zero components; both exceptions are real misses (proved)."
 },
 "C15": {
  "note": "Holds exactly for transforms whose linear part has no negative entry (that condition is shown necessary); false for e.g. rotations."
 },
 "C16": {
  "note": "Position proved. Missing (false of the code): it is the inverse transform that carries +z to the viewing direction."
 },
 "C17": {
  "note": "Motion bounds proved for pure translations; false for a non-animated transform."
 },
 "C18": {
  "note": "slerp proved; conversion from a rotation matrix is wrong (proved)."
 },
 "C19": {
  "note": "All samplers but the frameless cone, which raises for every input."
 },
 "C20": {
  "note": "Unit vectors of the upper hemisphere. Missing (false of the code): the cosine is uniform instead of having density 2z."
 },
 "C22": {
  "note": "Continuous sampling proved for variates in (0,1], and for 0 if the first entry is positive; variate 0 with a leading zero entry gives NaN (proved)."
 },
 "C23": {
  "note": "Row index and density right away from the cumulative entries. Missing (false of the code): the second coordinate is the row index, and the density at a cumulative entry is another row's."
 },
 "C26": {
  "note": "Windows containing pixel (0,0), tiles that divide the window. Missing (false of the code): crop windows starting later are dropped; a tile of fractional width runs past its window."
 },
 "C29": {
  "note": "Narrow filters: safe when each pixel's samples belong to one thread and no sample lies on a pixel border; a border sample of the half-pixel box filter can lose another thread's update (proved). Wide filters: see C200."
 },
 "C31": {
  "note": "Square images or crops that start at the top. Missing (false of the code): other vertical crops use the horizontal resolution."
 },
 "C33": {
  "note": "The flag and ray.maxt are right; the record is that of the first primitive met, which need not be the nearest (proved)."
 },
 "C37": {
  "note": "Holds for faces whose second vertex index is the first plus one (the sampler reads vertex i+1, not the face's second vertex); otherwise it can sample another triangle or raise (proved)."
 },
 "C49": {
  "note": "Stacks, current set and graphics state restored; the transforms' contents are not (proved: begin/end have no effect on them)."
 },
 "C53": {
  "note": "Proved unless the radiance has components of both infinite signs; such a value reaches the film (proved)."
 },
 "C62": {
  "note": "Main ray only; the offset rays stay in the old space."
 },
 "C65": {
  "note": "Hue and crop parts are false: channels are scaled separately, and a cropped render is never written (bytes and order: C204)."
 },
 "C66": {
  "note": "Terminates, in range, reports only real hits; misses hits because the step formula is misparenthesised (proved). It finds the nearest hit for rays starting in the box of a primitive they hit and for rays whose direction components are 1, or 0 with a negative coordinate, the only ones for which the formula is right."
 },
 "C68": {
  "note": "Disks: the full and the shadow test agree, and the hit is right, except that a hit within the hole-centre region (squared radius at most the inner radius, e.g. the centre) raises; every cylinder hit raises (proved)."
 },
 "C69": {
  "note": "Holds for faces listing vertices 3f, 3f+1, 3f+2; otherwise the (u,v) of other vertices are used (proved); normals without tangents have no effect (proved)."
 },
 "C70": {
  "note": "Full disks: point. Missing (false of the code): partial disks, disk normals, spheres."
 },
 "C73": {
  "note": "u proved; v leaves [0,1] for some spheres (proved)."
 },
 "C74": {
  "note": "Too large indices rejected; negative indices are accepted and wrap around (proved)."
 },
 "C76": {
  "note": "Identity exactly when the frame consists of world axes; false otherwise (l2w multiplies by the wrong matrix)."
 },
 "C77": {
  "note": "Holds when exactly one lobe matches (and the frame is the world's); false with two lobes."
 },
 "C78": {
  "note": "Fraction up to index ratio 3; fails at 10, and the normal-incidence value is not Fresnel's."
 },
 "C79": {
  "note": "Holds at normal incidence only; otherwise the ratio is inverted (proved for all other pairs)."
 },
 "C80": {
  "note": "Value and sampling of the transmission adapter; its density and the scaling adapter are wrong (proved)."
 },
 "C83": {
  "note": "False of the code: one cell only is ever read."
 },
 "C84": {
  "note": "False of the code: a negative value on the other side (non-negativity on its own side: C81)."
 },
 "C85": {
  "note": "Holds unless the interval ends on a sample wavelength; then the average is over a longer interval (a constant 1 averages to 3)."
 },
 "C86": {
  "note": "Proved: bin i averages [400+10i, 410+300i] when that end is not a sample wavelength. Missing (false of the code): the right end should be 410+10i; the built-in tables integrate to the end of the table."
 },
 "C87": {
  "note": "Right when red is smallest or for grey; wrong curves otherwise (proved)."
 },
 "C88": {
  "note": "Within a factor sqrt 2; not always the nearest power (proved)."
 },
 "C89": {
  "note": "An end with both stacks of its kind empty changes nothing (it only reports). Missing (false of the code): a pair of mismatched ends raises IndexError or leaves a transform on its stack."
 },
 "C90": {
  "note": "A name gives back the same object; it is not a copy, so later changes show through (proved)."
 },
 "C93": {
  "note": "False of the code: calls before initialisation are accepted."
 },
 "C94": {
  "note": "False of the code: transforms, names and stacks survive system_clean."
 },
 "C95": {
  "note": "False of the code: importing raises NameError."
 },
 "C97": {
  "note": "Full statement false of the code: refuted: profile divides, distance is ignored. Refuted by C97_attenuation_refuted, C97_gonio_refuted. What holds: C97_spot_partial, C97_gonio_partial."
 },
 "C100": {
  "note": "Full statement false of the code: refuted: every one raises. Refuted by C100_emission_refuted. "
 },
 "C101": {
  "note": "Full statement false of the code: refuted: other sizes are returned unchanged, grey images raise. Refuted by C101_read_image_refuted. What holds: C101_read_image_partial."
 },
 "C102": {
  "note": "Full statement false of the code: refuted. Refuted by C102_distant_refuted, C102_projection_refuted. What holds: C102_counts_partial."
 },
 "C107": {
  "note": "Full statement false of the code: refuted: the BSDF half never contributes, so the estimate is too small by its weight. Refuted by C107_mis_refuted. "
 },
 "C109": {
  "note": "Full statement false of the code: refuted: it raises on every sample. Refuted by C109_one_light_refuted. "
 },
 "C110": {
  "note": "Full statement false of the code: holds for reflection; refuted for transmission, whose contribution is always black. Refuted by C110_transmission_refuted. What holds: C110_reflection_partial."
 },
 "C111": {
  "note": "Full statement false of the code: refuted. Refuted by C111_double_count_refuted. "
 },
 "C113": {
  "note": "Full statement false of the code: refuted: for flat surfaces the code uses exactly the negative. Refuted by C113_transmission_refuted, C113_transmission_curved_refuted. What holds: C113_ratio_partial."
 },
 "C119": {
  "note": "Full statement false of the code: refuted at every vertex of every surface: gamma uses 8+beta for 8*beta, the border mask 1/5 for 1/6. Refuted by C119_limit_position_depends_on_levels_refuted. "
 },
 "C120": {
  "note": "Full statement false of the code: holds if vertex 0 lies on a border; refuted otherwise: every closed mesh raises. Refuted by C120_no_closed_mesh_is_refined_refuted. What holds: C120_open_mesh_is_refined_partial."
 },
 "C121": {
  "note": "Full statement false of the code: refuted: a missing parenthesis cancels the angle, the integral is 1-k^2 and g=0.97 gives negative values. Refuted by C121_schlick_refuted. What holds: C121_schlick_partial."
 },
 "C122": {
  "note": "Full statement false of the code: refuted: the transformed ray is computed and not used. Refuted by C122_transform_ignored_refuted. "
 },
 "C124": {
  "note": "Full statement false of the code: true for non-negative linear parts, refuted otherwise. Refuted by C124_world_bound_refuted. What holds: C124_world_bound_partial."
 },
 "C127": {
  "note": "Full statement false of the code: refuted: the time is passed as g; times above 1 give negative values. Refuted by C127_medium_phase_refuted. What holds: C127_medium_phase_partial."
 },
 "C129": {
  "note": "Full statement false of the code: refuted: TypeError for every non-empty aggregate; phases are summed unweighted. Refuted by C129_aggregate_refuted. What holds: C129_aggregate_empty_partial."
 },
 "C130": {
  "note": "Full statement false of the code: refuted: always TypeError. Refuted by C130_grid_refuted. "
 },
 "C138": {
  "note": "Full statement false of the code: The code does not: two equal textures give 1, a thin footprint gives NaN. The per-axis odd fraction it computes is right.. Refuted by C138_equal_textures_refuted, C138_thin_footprint_refuted. What holds: C138_odd_fraction_partial."
 },
 "C139": {
  "note": "Full statement false of the code: Holds for even i; odd levels are transposed.. Refuted by C139_odd_levels_transposed_refuted. What holds: C139_even_levels_partial."
 },
 "C141": {
  "note": "Full statement false of the code: The code returns a quarter of it.. Refuted by C141_black_quarter_refuted. "
 },
 "C142": {
  "note": "Full statement false of the code: Violated: whenever the shorter axis, or the longer one divided by the largest allowed eccentricity if that is more, lies strictly between 0 and 2, the lookup raises AttributeError. A footprint with an axis of zero length is interpolated on the finest level, exact at texel centres, and one of 2 or more returns the mean of a square image.. Refuted by C142_elliptical_refuted. What holds: C142_point_footprint_partial, C142_all_footprints_partial."
 },
 "C143": {
  "note": "Full statement false of the code: Evaluation always raises; unreadable files and non-square images raise; the cache ignores the storage type. Square RGB images load with the parameters asked for, stay cached, and are not confused with maps cached for other files or parameters.. Refuted by C143_evaluation_refuted, C143_unreadable_refuted, C143_nonsquare_refuted, C143_cache_type_refuted. What holds: C143_cached_partial, C143_keys_partial."
 },
 "C145": {
  "note": "Full statement false of the code: The code raises IndexError for non-square images unless both sides are powers of two.. Refuted by C145_nonsquare_refuted. "
 },
 "C147": {
  "note": "Full statement false of the code: The code: it is 0 or -1 there, and jumps.. Refuted by C147_lattice_refuted, C147_discontinuous_refuted. What holds: C147_lattice_partial."
 },
 "C149": {
  "note": "Full statement false of the code: Violated: FBm raises whenever at least one octave is requested and neither footprint vector is longer than a noise cell, so always without differentials; windy textures raise unless a footprint vector is longer than ten noise cells, and marble textures raise in every case. Over a longer footprint FBm is the noise at the point faded by a weight between 0 and 1, and a windy texture is the absolute faded noise at a tenth of the point times the faded noise at the point.. Refuted by C149_octave_refuted, C149_no_differentials_refuted, C149_marble_refuted. What holds: C149_large_footprint_partial, C149_windy_partial."
 },
 "C152": {
  "note": "Full statement false of the code: The y differential of t is wrong; cylindrical mapping always raises; x differentials are the forward differences.. Refuted by C152_spherical_refuted, C152_cylindrical_refuted. What holds: C152_y_difference_partial, C152_x_seam_partial, C152_x_differences_partial."
 },
 "C153": {
  "note": "Full statement false of the code: The code always raises TypeError.. Refuted by C153_dots_refuted. "
 },
 "C155": {
  "note": "Full statement false of the code: The code adds the tangents of the vertex treated before.. Refuted by C155_interior_refuted. "
 },
 "C161": {
  "note": "Full statement false of the code: Violated: the origin is the lens sample alone.. Refuted by C161_ortho_lens_origin_refuted. "
 },
 "C162": {
  "note": "Full statement false of the code: Violated for placed cameras: the offset rays stay in camera space.. Refuted by C162_offsets_in_camera_space_refuted. What holds: C162_perspective_differential_partial."
 },
 "C163": {
  "note": "Full statement false of the code: Violated: the sample's raw time.. Refuted by C163_differential_time_refuted. "
 },
 "C164": {
  "note": "Full statement false of the code: Violated for placed cameras: the placement is applied twice.. Refuted by C164_placed_twice_refuted. What holds: C164_identity_partial."
 },
 "C166": {
  "note": "Full statement false of the code: Violated: the time is passed as the recursion depth.. Refuted by C166_environment_time_refuted, C166_motion_refuted. "
 },
 "C167": {
  "note": "Full statement false of the code: Violated: they are those of positions (1,0) and (0,1) for every sample.. Refuted by C167_offsets_ignore_sample_refuted. What holds: C167_main_ray_partial, C167_offset_positions_partial."
 },
 "C169": {
  "note": "Full statement false of the code: Violated by the pinhole camera.. Refuted by C169_pinhole_unnormalised_refuted. What holds: C169_placed_unit_partial."
 },
 "C170": {
  "note": "Full statement false of the code: Violated by at most one primitive per node: the last one is never compared with the split position.. Refuted by C170_stray_refuted. What holds: C170_all_but_one_partial, C170_small_partial."
 },
 "C173": {
  "note": "Full statement false of the code: Violated for the footprint: copying the differential geometry drops it, so every texture sees a zero footprint.. Refuted by C173_footprint_refuted. What holds: C173_lookup_partial."
 },
 "C175": {
  "note": "Full statement false of the code: Violated: the transmitted part uses a Fresnel term that does not complement the reflected one.. Refuted by C175_light_lost_refuted. What holds: C175_split_partial."
 },
 "C176": {
  "note": "Full statement false of the code: Violated: the indices are passed the other way round.. Refuted by C176_coating_refuted. "
 },
 "C180": {
  "note": "Full statement false of the code: Violated: get_bsdf always raises TypeError.. Refuted by C180_mix_refuted. "
 },
 "C182": {
  "note": "Full statement false of the code: Violated: one of the two calls raises TypeError in each class.. Refuted by C182_surface_refuted, C182_diffuse_refuted. What holds: C182_kd_surface_partial."
 },
 "C183": {
  "note": "Full statement false of the code: Violated: every such hit raises AttributeError.. Refuted by C183_bump_refuted. "
 },
 "C185": {
  "note": "Full statement false of the code: Violated: the cache is keyed by the base name and its use raises.. Refuted by C185_again_refuted. What holds: C185_first_partial."
 },
 "C186": {
  "note": "Full statement false of the code: Violated for surfaces not aligned with the world axes: l2w uses one local coordinate per row.. Refuted by C186_direction_refuted. What holds: C186_mirror_partial, C186_clear_partial."
 },
 "C188": {
  "note": "Full statement false of the code: Violated for reversed orientation: the normal is flipped, its derivatives are not.. Refuted by C188_reversed_refuted. What holds: C188_sphere_partial."
 },
 "C190": {
  "note": "Full statement false of the code: Violated: the picture is never used; the light always has its plain colour.. Refuted by C190_picture_ignored_refuted. What holds: C190_plain_colour_partial."
 },
 "C191": {
  "note": "Full statement false of the code: Violated: it always raises TypeError.. Refuted by C191_escaping_ray_refuted. "
 },
 "C192": {
  "note": "Full statement false of the code: Violated: every draw gives the same direction with density NaN; colour and shadow ray are right.. Refuted by C192_one_direction_refuted. What holds: C192_colour_partial."
 },
 "C193": {
  "note": "Full statement false of the code: Violated: it is 1 for every direction but the poles.. Refuted by C193_density_refuted. What holds: C193_poles_partial."
 },
 "C194": {
  "note": "Full statement false of the code: Violated: both raise.. Refuted by C194_emission_refuted. "
 },
 "C207": {
  "note": "Full statement false of the code: Violated: a sphere or disk placed by a mirroring or rotating transform can be missed.. Refuted by C207_mirrored_refuted. What holds: C207_nearest_partial, C207_any_partial."
 },
 "C210": {
  "note": "Full statement false of the code: Violated: TransformedPrimitive can never be instantiated, as it leaves abstract methods undefined.. Refuted by C210_instance_refuted. What holds: C210_geometric_partial."
 },
 "C215": {
  "note": "Full statement false of the code: Violated: they always raise AttributeError.. Refuted by C215_scaled_refuted. "
 },
 "C216": {
  "note": "Full statement false of the code: Violated: the anisotropic one is zero there and positive everywhere else off the horizon.. Refuted by C216_aniso_refuted. What holds: C216_blinn_partial."
 },
 "C217": {
  "note": "Full statement false of the code: Violated: the division is skipped if w differs from 1 by up to 1e-5.. Refuted by C217_near_one_refuted. What holds: C217_division_partial."
 },
 "C219": {
  "note": "Full statement false of the code: Violated: where a primitive's own bound is wrong, as for a sphere mirrored in x, the object is missed without a medium and found with one; proved under the conditions of C207, with no condition on the medium's box.. Refuted by C219_medium_changes_hits_refuted. What holds: C219_nearest_partial, C219_any_partial."
 },
 "C220": {
  "note": "Full statement false of the code: Violated: with a medium the constructor unions the medium's bound into the box object owned by the tree's root, so a second scene over the same aggregate without a medium reports a bound that contains the first scene's medium.. Refuted by C220_shared_aggregate_refuted. What holds: C220_no_volume_partial."
 },
 "C223": {
  "note": "Full statement false of the code: Violated: the v of a sphere hit is multiplied by the polar range instead of divided by it, so it exceeds 1; a disk with a hole reports negative v at its rim.. Refuted by C223_sphere_v_refuted, C223_disk_hole_refuted. What holds: C223_sphere_partial, C223_disk_partial."
 },
 "C228": {
  "note": "Full statement false of the code: Violated for points outside: the cone density is returned for every direction.. Refuted by C228_miss_refuted. What holds: C228_inside_partial."
 },
 "C229": {
  "note": "Full statement false of the code: Violated in a medium: the estimate multiplies the light's own radiance array by the transmittance in place, so every visible request darkens the light for all later ones.. Refuted by C229_repeat_refuted, C229_fog_refuted. What holds: C229_no_medium_partial, C229_darker_partial."
 },
 "C230": {
  "note": "Full statement false of the code: Violated: every area light adds its emission to every escaping ray, and an environment light makes the query raise.. Refuted by C230_area_refuted, C230_environment_refuted. What holds: C230_delta_partial."
 },
 "C232": {
  "note": "Full statement false of the code: Violated: a vector plus a point is a vector, two points or a point and a number can be added.. Refuted by C232_sums_refuted. What holds: C232_sums_partial."
 },
 "C233": {
  "note": "Full statement false of the code: Violated: inherited arithmetic on infinite components creates NaN objects without raising.. Refuted by C233_infinite_refuted. What holds: C233_finite_partial."
 },
 "C236": {
  "note": "Full statement false of the code: Violated: three floats raise TypeError, and three integers are taken for the shape of an uninitialised array.. Refuted by C236_sequence_refuted. What holds: C236_copy_partial."
 },
 "C241": {
  "note": "Full statement false of the code: Violated: with zero levels refining overwrites the surface's own vertices by their limit positions, so that a second refinement gives other positions.. Refuted by C241_zero_refuted. What holds: C241_levels_partial."
 },
 "C246": {
  "note": "Full statement false of the code: Violated: for every number of strata from two on, the largest draw makes the last sample exactly 1.. Refuted by C246_below_one_refuted. What holds: C246_strata_partial."
 },
 "C247": {
  "note": "Full statement false of the code: Violated: in every column but the first the largest draw gives the coordinate of the next pixel.. Refuted by C247_next_pixel_refuted. What holds: C247_pixel_partial."
 },
 "C249": {
  "note": "Full statement false of the code: Violated: interpolating between 3 and 3 at one fifth gives more than 3; it does stay in range when the end points are not of the same sign, as for a shutter that opens at time 0.. Refuted by C249_range_refuted. What holds: C249_ends_partial, C249_zero_partial, C249_times_partial, C249_error_partial."
 },
 "C250": {
  "note": "Full statement false of the code: Violated: it can become 254.. Refuted by C250_brightest_refuted. What holds: C250_bytes_partial."
 },
 "C253": {
  "note": "Full statement false of the code: Violated: the squares of two tiny densities both vanish and the code divides zero by zero; it cannot happen from 2^-500 on.. Refuted by C253_vanishing_refuted. What holds: C253_power_partial, C253_denominator_partial."
 },
 "C254": {
  "note": "Full statement false of the code: Violated: for the table 1, 3 a draw below 1 gives the point 1.. Refuted by C254_below_one_refuted. What holds: C254_table_partial, C254_sample_partial."
 },
 "C255": {
  "note": "Full statement false of the code: Violated: a ray that meets a box exactly at parameter 255 is reported to miss it; rays starting in the box, and rays from the coordinate origin that meet it at a float64 parameter, are never missed.. Refuted by C255_missed_refuted. What holds: C255_inside_partial, C255_origin_partial."
 },
 "C256": {
  "note": "Full statement false of the code: Violated: the ray from the origin along (1, 49, 1) meets the box from (1, 0, 0) to (2, 49, 2) and is rejected; unit rays starting strictly inside a box are always accepted.. Refuted by C256_missed_refuted. What holds: C256_inside_partial."
 },
 "C265": {
  "note": "Full statement false of the code: Violated: the third weight can be negative, by at most 2^-51, and the sum is within 2^-51 of 1.. Refuted by C265_outside_refuted. What holds: C265_weights_partial."
 },
 "C267": {
  "note": "Full statement false of the code: Violated: after a translation by 2^52 the coordinate 1/4 comes back as 0; with whole-number coordinates up to 2^53 it is exact.. Refuted by C267_round_trip_refuted. What holds: C267_whole_partial."
 },
 "C268": {
  "note": "Full statement false of the code: Violated: if no component exceeds 2^-538 the vector is returned unchanged, because its squared length rounds to 0.. Refuted by C268_short_refuted. What holds: C268_short_partial."
 },
 "C269": {
  "note": "Full statement false of the code: Violated: 2^52, 3/8, 3/8 sums to 2^52 but 3/8, 3/8, 2^52 to 2^52 + 1; the difference is at most twice the bound of C264.. Refuted by C269_order_refuted. What holds: C269_order_partial."
 },
 "C272": {
  "note": "Full statement false of the code: Violated: light below 10^-5 counts as black; a triangle lit so dimly is black but not black with the lamp four times as strong. It holds whenever no light's radiance crosses that limit at a point of a surface which some ray meets.. Refuted by C272_limit_refuted. What holds: C272_stronger_partial."
 },
 "C276": {
  "note": "Full statement false of the code: Violated: in a grid the enlarged box shifts the voxels rays are looked up in, so a ray that starts in an object's box and hits it is reported to miss once a medium far away is added. Over the exhaustive aggregate every query gives the same flag, range and record; over the grid queries stay safe and report only real hits.. Refuted by C276_grid_refuted. What holds: C276_simple_partial, C276_simple_any_partial, C276_grid_sound_partial."
 },
 "C278": {
  "note": "Full statement false of the code: Violated: the table, taken from pbrt, lists the reduced scattering coefficient first, so the two are returned in the wrong order, e.g. for Marble. Every known name gives two non-negative spectra, those of its row; every other name gives None twice.. Refuted by C278_order_refuted. What holds: C278_lookup_partial."
 },
 "C282": {
  "note": "Full statement false of the code: Violated: smooth_step clips to the bounds without rescaling, so for 0 < lo < hi < 1 it never reaches 0 or 1; turbulence therefore drops by at least 0.216 times the absolute noise where the footprint passes one noise cell, at every point where the noise is not 0. What holds: with the bounds 0 and 1 the step is the usual cubic; between one and two noise cells FBm and turbulence are the noise, resp. its absolute value, times a weight that depends on the logarithm of the footprint only: 0.216 up to 0.3 octaves, 0.784 from 0.7 octaves, the cubic in between.. Refuted by C282_step_refuted, C282_jump_refuted. What holds: C282_step_partial, C282_fade_partial."
 },
 "C285": {
  "note": "Full statement false of the code: Violated: the last clause; a constant 1 + 3*2^-52 comes out as 1 + 2*2^-52 at (3/8, 5/8) of a 2x2 level.. Refuted by C285_constant_refuted. What holds: C285_weight_partial, C285_value_partial, C285_centre_partial."
 },
 "C287": {
  "note": "Full statement false of the code: Violated: for surfaces not aligned with the world axes the direction that l2w returns is not the one the weight was computed for; a perfect mirror tilted by the angle of sine 3/5 multiplies light by more than any given factor for some viewing directions.. Refuted by C287_amplified_refuted. What holds: C287_mirror_partial, C287_glass_partial."
 },
 "C293": {
  "note": "Full statement false of the code: Violated: from 2^27 units away a ray through the very centre of a sphere of radius 1/2 computes a discriminant of 0 and misses; a line passing beside a thin cylinder computes a positive one and goes on.. Refuted by C293_far_refuted, C293_cylinder_refuted. What holds: C293_sphere_partial, C293_cylinder_partial."
 },
 "C294": {
  "note": "Full statement false of the code: Violated: for the two halves of a parallelogram with small whole-number corners there is a ray through their common edge which both reject, since b1 + b2 rounds to 1 + 2^-52.. Refuted by C294_crack_refuted. What holds: C294_whole_partial."
 },
 "C295": {
  "note": "Full statement false of the code: Violated: an upright mirror, whose frame is not aligned, returns black although the ray thrown back returns white.. Refuted by C295_direction_refuted. What holds: C295_mirror_partial, C295_world_partial."
 },
 "C296": {
  "note": "Full statement false of the code: Violated: the transmitted part is missing: a pane of clear glass in front of a white direction straight behind it looks black.. Refuted by C296_behind_refuted. What holds: C296_glass_partial."
 },
 "C300": {
  "note": "Full statement false of the code: Violated: in general: an upright mirror with normal +x shows another direction than the mirrored one, so that the mirror looks black where the ray thrown back sees white.. Refuted by C300_direction_refuted. What holds: C300_mirror_partial, C300_glass_partial."
 },
 "C303": {
  "note": "What holds: C303_world_partial."
 }
}