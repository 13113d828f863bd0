# Formal model of zjiayao/pyTracer in Coq 8.16.1 - design

## 1. Approach

* **Model** (`rocq/theories/M_*.v`, `Base.v`): Gallina functions that mirror the Python functions branch by branch, in
  the order of the source.  Each definition has a comment with the file and lines it models, and says where it
  simplifies.
* **Specification** (`S_*.v`): the vocabulary of the theorems (what it means to lie on a sphere, to be a partition, to
  be the mean of a curve, ...), written without the model's helpers.
* **Proofs** (`P_*.v`) and **properties** (`Props_*.v`).  A property file holds only theorems named `Cnn_...`
  (nn = the id in `properties.jsonl`), each followed by `Print Assumptions`, and `Example`s showing that concrete,
  non-trivial cases meet the hypotheses.
* **Violations.**  pyTracer has many defects.  Where the unchanged code violates a property, `Cnn_..._refuted` proves it of
  the faithful model (a witness, or for all inputs if it always fails), and what does hold is `Cnn_..._partial`, under a
  hypothesis which the refutation shows to be needed.  Such a claim has status `partial` in `MANIFEST.json` and its note
  says what is missing.  A claim is `proved` only if every one of its theorems is unconditional in this sense.

## 2. Modelling decisions

| Python | model |
|---|---|
| exception | value `Err e` of `res A := Ok a | Err e`; `do x <- e; ...` is the sequencing of the source |
| calls that always raise | `M_Python`: Python's rules for argument counts, missing attributes and methods, properties called as methods, unpacking, `isinstance` and abstract classes, applied to tables of the signatures and attributes of /repo |
| float64 | Coq's reals `R`, exact (no rounding, no overflow); where IEEE infinities, NaN or the sign of zero decide the control flow: the extended type `E = Fin r | PInf | NInf | NaN` with IEEE comparison, min/max and division; a second model `M_Float`, `M_Float2` (properties C246-C258, C261-C269) repeats the functions in which a rounding error could change a choice (sample, pixel, byte, bucket, table entry, box test) with every operation rounded to binary64 by Flocq's `round` (nearest even, gradual underflow, no overflow) |
| numpy vectors, `Spectrum` (= `RGBSpectrum`) | triples `V3`; sampled spectra: lists of 30 reals |
| int, array index | `Z`/`nat`; Python's negative indexing is modelled where it can occur |
| `while` loops | recursion with fuel; the theorems show how much fuel always suffices |
| random numbers | explicit arguments, or a stream `nat -> R` with the position returned |
| mutable objects | values returned (`ray.maxt`), an explicit store (attribute stacks, film, BVH node array), or a thread-interleaving step relation (`M_FilmThreads`, `M_VoxelThreads`) |
| threads (`ThreadPool`, `Lock`) | small-step interleaving of reads, writes, acquire and release; a float addition `x += d` is a read followed by a write |
| textures, shapes as arguments | arbitrary functions, so that theorems hold for every one |
| scene, materials, lights, volume integrator seen by the integrators | a record `env` of arbitrary functions (`M_Integrator`); for whole scenes (C270-C273) `M_World.env_of` fills it with the modelled scene, materials and point lights; `M_World2.world_render` is the render of such a scene from camera to pixels (C275) |

## 3. Trusted base

* Coq 8.16.1's kernel (`coqc`; nothing is extracted, no plugin, no `native_compute` in proofs).
* The reading that ties `M_*.v` to the Python source, and numpy's/Python's documented semantics as written in the
  comments (e.g. `searchsorted`, `clip`, slicing, integer division, attribute lookup failing).
* `Print Assumptions` lists for each theorem a subset of these axioms, all from Coq's standard library:
  * `ClassicalDedekindReals.sig_forall_dec`, `ClassicalDedekindReals.sig_not_dec`, `Classical_Prop.classic`, `FunctionalExtensionality.functional_extensionality_dep`: 370 theorems
  * `ClassicalDedekindReals.sig_forall_dec`, `FunctionalExtensionality.functional_extensionality_dep`: 199 theorems
  * `ClassicalDedekindReals.sig_forall_dec`, `ClassicalDedekindReals.sig_not_dec`, `FunctionalExtensionality.functional_extensionality_dep`: 117 theorems
  * closed under the global context (no axiom): 43 theorems
  * `ClassicalDedekindReals.sig_forall_dec`: 24 theorems (C100_emission_refuted, C114_constructor_builds_adjacency, C114_unused_vertices_are_refused, C129_aggregate_empty_partial, C136_child_ray, C150_uv_values, C181_coefficients, C224_default_uv, C230_environment_refuted, C231_difference, C231_refused, C232_sums_refuted, C233_point_difference, C235_create, C239_refused, C243_copies, C243_generations, C56_black, C56_clamp, C56_repeat, C56_repeat_periodic, C58_constant_scale, C64_requests, C72_flat_points)
  No axioms of this development; no `Admitted`, no module types, functors or section-less variables.

### Not modelled
* Rounding: theorems speak about exact arithmetic.  A claim like "the hit point is on the sphere" is exact in the model.
* PIL's decoding and encoding (a picture is its shape and pixels), the file system (a file is present or not, or its
  lines), progress output, logging, numpy warnings, `__repr__`, `jit` decorators.
* `pytracer/data/*` are tables: the theorems hold for every table with the shape the code relies on.
* `examples/`, `tests/`, `setup.py`.
* `pytracer/utility/parser.py` and `pytracer/integrator/volume/__init__.py` are empty files.
* Python memory and object identity except where stated (transform stacks C49/C90, mesh references C114, light colours).

## 4. What is modelled, by file

| model | code |
|---|---|
| `M_Aggregate.v` (39 definitions) | aggregate.py, primitive.py, pytracer/aggregate/aggregate.py, pytracer/aggregate/primitive.py, shape/__init__.py |
| `M_Aggregate2.v` (6 definitions) | aggregate.py, aggregate/aggregate.py, scene.py, scene/scene.py |
| `M_Alias.v` (9 definitions) | integrator/utility.py, light/light.py, renderer/renderer.py |
| `M_BVH.v` (52 definitions) | bvh.py, pytracer/aggregate/accelerator/bvh.py |
| `M_Camera.v` (20 definitions) | camera.py, camera/camera.py, camera/environment.py, camera/projective.py, environment.py, projective.py, sampler/sample.py, transform/__init__.py |
| `M_Film.v` (44 definitions) | film/film.py, filter/filter.py, pytracer/__init__.py, pytracer/film/film.py, pytracer/filter/filter.py, pytracer/spectral/spectrum.py, pytracer/utility/imageio.py, spectral/spectrum.py, utility/imageio.py |
| `M_FilmThreads.v` (25 definitions) | film/film.py |
| `M_Float.v` (34 definitions) | aggregate/accelerator/bvh.py, aggregate/aggregate.py, film/film.py, geometry/__init__.py, montecarlo/distribution.py, montecarlo/utility.py, pytracer/__init__.py, sampler/sampler/stratified.py, sampler/utility.py, utility/imageio.py, utility/utility.py |
| `M_Float2.v` (14 definitions) | film/film.py, geometry/__init__.py, geometry/utility.py, montecarlo/utility.py, shape/triangle.py, transform/__init__.py |
| `M_Float3.v` (6 definitions) | integrator/utility.py, montecarlo/distribution.py, reflection/bsdf.py, texture/utility.py, utility/utility.py |
| `M_Float4.v` (8 definitions) | cylinder.py, geometry/__init__.py, pytracer/__init__.py, shape/cylinder.py, shape/sphere.py, shape/triangle.py, sphere.py, triangle.py |
| `M_Float5.v` (3 definitions) | transform/__init__.py |
| `M_Float6.v` (1 definitions) | geometry/__init__.py |
| `M_Geometry.v` (47 definitions) | geometry/__init__.py, geometry/utility.py, pytracer/geometry/__init__.py, pytracer/geometry/utility.py, utility/utility.py |
| `M_InfLight.v` (15 definitions) | light/light.py, pytracer/light/light.py, texture/utility.py |
| `M_Integrator.v` (48 definitions) | direct.py, geometry/__init__.py, integrator/utility.py, light/light.py, light/utility.py, path.py, reflection/bdf/bdf.py, reflection/bsdf.py, renderer/renderer.py, sampler/sample.py, sampler/sampler/stratified.py, spectral/spectrum.py, surface/direct.py, surface/path.py, surface/whitted.py, utility.py, utility/utility.py, whitted.py |
| `M_Interface.v` (60 definitions) | __init__.py, api.py, interface/__init__.py, interface/api.py, interface/option.py, interface/parameter.py, option.py, parameter.py |
| `M_Light.v` (38 definitions) | geometry/__init__.py, imageio.py, integrator/utility.py, light.py, light/light.py, light/utility.py, utility.py, utility/imageio.py |
| `M_Loop.v` (70 definitions) | loopsubdiv.py, shape/__init__.py, shape/loopsubdiv.py |
| `M_LoopObj.v` (10 definitions) | bvh.py, loopsubdiv.py, primitive.py, pytracer/shape/loopsubdiv.py |
| `M_Material.v` (27 definitions) | aggregate/intersection.py, aggregate/primitive.py, bdf/measured.py, geometry/diffgeom.py, material.py, pytracer/__init__.py, pytracer/material/material.py, spectral/spectrum.py, volume/bssrdf.py, volume/utility.py |
| `M_MipMap.v` (33 definitions) | image.py, pytracer/texture/texture/image.py, pytracer/texture/utility.py, texture/texture/image.py, texture/utility.py |
| `M_Misc.v` (5 definitions) | geometry/__init__.py, utility/utility.py |
| `M_MonteCarlo.v` (33 definitions) | montecarlo/distribution.py, montecarlo/utility.py, pytracer/__init__.py, pytracer/montecarlo/distribution.py, pytracer/montecarlo/utility.py |
| `M_Primitive.v` (31 definitions) | accelerator/bvh.py, aggregate/intersection.py, aggregate/primitive.py, bvh.py, disk.py, intersection.py, primitive.py, scene.py, scene/scene.py, shape/__init__.py, shape/triangle.py, sphere.py, triangle.py |
| `M_Python.v` (20 definitions) | geometry/__init__.py, light/light.py, montecarlo/utility.py, sampler/sample.py, shape/__init__.py, shape/cylinder.py, spectral/spectrum.py, texture/texture/image.py, texture/texturemap/__init__.py, texture/utility.py |
| `M_Reflection.v` (74 definitions) | bdf.py, bsdf.py, fresnelblend.py, measured.py, orennayar.py, reflection/bdf/measured.py, reflection/bdf/torrance.py, reflection/bsdf.py, reflection/fresnel.py, reflection/utility.py, spectral/__init__.py, spectral/spectrum.py, torrance.py |
| `M_Render.v` (3 definitions) | integrator/integrator.py, renderer.py, renderer/renderer.py |
| `M_Renderer.v` (9 definitions) | renderer.py, renderer/renderer.py, sampler/sampler/__init__.py, scene/scene.py, spectral/spectrum.py |
| `M_Rho.v` (5 definitions) | bdf.py, bsdf.py, reflection/bdf/bdf.py, reflection/bsdf.py |
| `M_Sampler.v` (25 definitions) | sample.py, sampler/__init__.py, sampler/sample.py, sampler/sampler/__init__.py, sampler/sampler/stratified.py, sampler/stratified.py, sampler/utility.py, utility.py |
| `M_Scene.v` (2 definitions) | bvh.py, scene.py, scene/scene.py |
| `M_Shapes.v` (73 definitions) | cylinder.py, disk.py, geometry/__init__.py, geometry/diffgeom.py, pytracer/geometry/diffgeom.py, shape/__init__.py, shape/cylinder.py, shape/disk.py, shape/sphere.py, shape/triangle.py, sphere.py, triangle.py |
| `M_Small.v` (8 definitions) | data/volume.py, montecarlo/utility.py, transform/__init__.py, volume/utility.py |
| `M_Spectrum.v` (29 definitions) | pytracer/spectral/spectrum.py, spectral/spectrum.py, utility/utility.py |
| `M_Spectrum2.v` (13 definitions) | pytracer/data/spectral.py, pytracer/spectral/spectrum.py, spectral/spectrum.py |
| `M_Texture.v` (39 definitions) | data/noise.py, pytracer/texture/texture/__init__.py, spectral/spectrum.py, texture/__init__.py, texture/texture/__init__.py, texture/texturemap/__init__.py, texture/utility.py, texturemap/__init__.py |
| `M_Transform.v` (68 definitions) | pytracer/transform/__init__.py, pytracer/transform/quat.py, quat.py, transform/__init__.py, utility/utility.py |
| `M_Typed.v` (14 definitions) | geometry/__init__.py, geometry/utility.py |
| `M_Utility.v` (17 definitions) | pytracer/utility/utility.py, utility/utility.py |
| `M_Volume.v` (47 definitions) | pytracer/volume/utility.py, pytracer/volume/volume.py, volume.py, volume/utility.py |
| `M_VoxelThreads.v` (11 definitions) | aggregate.py, pytracer/aggregate/aggregate.py |
| `M_World.v` (14 definitions) | aggregate/intersection.py, aggregate/primitive.py, diffgeom.py, direct.py, integrator/surface/direct.py, intersection.py, light/light.py, light/utility.py, primitive.py, renderer.py, scene.py, scene/scene.py, shape/__init__.py, triangle.py, whitted.py |
| `M_World2.v` (6 definitions) | direct.py, integrator/surface/whitted.py, interface/option.py, projective.py, renderer.py, renderer/renderer.py, sampler/sample.py |
| `M_World3.v` (4 definitions) | integrator/surface/path.py, path.py, renderer.py, renderer/renderer.py |

## 5. Concurrency

`M_FilmThreads` compiles each worker's samples to the exact sequence of lock/read/write/unlock steps of
`ImageFilm.add_sample`/`splat` and interleaves any number of workers; `C200`, `C29` quantify over all schedules, prove that
no update is lost, that every schedule ends and that no deadlock occurs.  `M_VoxelThreads` does the same for the lazy
refinement in `aggregate.Voxel.intersect` (`C67`), with its double-checked flag.

## 6. Testing the theorems

`seeded/LOG.jsonl` records wrong programs: every operator, constant, argument order, branch and update in the model was
edited mechanically, one at a time, in a scratch copy, and everything depending on it was rebuilt; further ones were
written by hand.  Survivors led to tightened theorems (field `tightened`) or are equivalent programs / unreachable code
(field `note`).

## 7. Proof methods

Geometric facts: real algebra (`lra`, `nra`, `field`, `ring`) on the modelled formulas, and derivatives/integrals with
Coq's `Ranalysis`/`RiemannInt` and Coquelicot; lists, trees and loops: induction with invariants; BVH: a relational description
of well-formed node arrays, refined by construction and used by traversal; subdivision: an invariant on the pointer
structure preserved by each level; schedules: invariants over the step relation plus a commutation argument; refutations:
concrete witnesses evaluated in the model.

## 8. Plan per property
(`m:` model modules its theorems speak about; `s:` specification modules; `p:` the file with the theorems.)


* **C01** Bounding-box union is a least upper bound - proved. m: M_Geometry; s: S_Geometry; p: Props_Geometry.v: union_least_upper_bound.
* **C02** Box containment and overlap tests are exact - proved. m: M_Geometry; s: S_Geometry; p: Props_Geometry.v: inside_exact, overlaps_exact, expand_covers, measures_monotone, maximum_extent_maximal.
* **C03** Copying a box preserves it - partial. m: M_Geometry; s: S_Geometry; p: Props_Geometry.v: copy_faithful_partial, copy_empty_refuted, ne_self_refuted, C203_eq_correct. Faithful for every box with ordered corners. Missing (false of the code): the copy of the empty box is all of space; b != b is True unless b is one point. The true clauses are also stated on their own as C203.
* **C04** Ray/box slab test is exact - partial. m: M_Geometry; s: S_Geometry; p: Props_Geometry.v: slab_test_exact_partial, slab_interval_exact_partial, negative_zero_refuted. Exact, with the exact interval, for all boxes and rays except that a zero direction component must not be IEEE -0.0 while the origin lies on a face plane of that axis; with -0.0 there the test misses (proved).
* **C05** Box parametrisation and bounding sphere - proved. m: M_Geometry; s: S_Geometry; p: Props_Geometry.v: lerp_offset_inverse, offset_lerp_inverse, lerp_in_box, bounding_sphere_contains, bounding_sphere_least, bounding_sphere_inverted.
* **C06** Direction utilities: normalisation, frames, facing, spherical coordinates - proved. m: M_Geometry; s: S_Geometry; p: Props_Geometry.v, Props_Tight7.v: normalize, coordinate_system_orthonormal, face_forward, spherical_round_trip, frames.
* **C07** BVH construction is total and loses no primitive - partial. m: M_BVH; s: in the statement; p: Props_BVH.v, Props_BVHMethod.v: sah_total_partial, middle_refuted, large_leaf_refuted, equal_refuted, method_names, C195_no_primitive_lost. Total for the default method with max_prim <= 4. Missing (false of the code): 'middle' raises AssertionError, max_prim >= 5 raises TypeError, 'equal' raises AttributeError. The true clauses are also stated on their own as C195.
* **C08** BVH node bounds enclose their subtrees - proved. m: M_BVH, M_Geometry; s: S_BVH, S_Geometry; p: Props_BVH.v: bounds_enclose, world_bound.
* **C09** Flattened BVH represents the tree - proved. m: M_BVH; s: S_BVH; p: Props_BVH.v: layout, indices_in_range.
* **C10** BVH traversal agrees with testing every primitive - partial. m: M_BVH; s: S_BVH; p: Props_BVH.v: nearest_partial, nearest_height_partial, any_partial, empty, stack_overflow_refuted. Proved for all primitive sets whose tree height fits the 64-entry stack (in particular up to 65 primitives) and rays without negative-zero components that do not lie on an x face plane. Missing (false of the code): deeper trees overflow the stack.
* **C11** BVH box rejection is conservative - partial. m: M_BVH, M_Geometry; s: S_BVH, S_Geometry; p: Props_BVH.v: box_test_conservative_partial, on_face_refuted, negative_zero_refuted. Proved except for rays parallel to the x slabs starting on an x face, and negative-zero components; both exceptions are real misses (proved).
* **C12** Transforms carry their true inverse - proved. m: M_Transform; s: S_Transform; p: Props_Transform.v: round_trip, matrix, inverse_involution.
* **C13** Composition of transforms is application in sequence - proved. m: M_Geometry, M_Transform; s: S_Transform; p: Props_Transform.v: composition, ray_moves_with_transform, translate.
* **C14** Normals stay perpendicular to transformed surfaces - proved. m: M_Transform; s: S_Geometry, S_Transform; p: Props_Transform.v: normals_stay_perpendicular.
* **C15** Transforming a bounding box bounds the transformed contents - partial. m: M_Transform; s: S_Geometry, S_Transform; p: Props_Transform.v: bbox_image_partial, bbox_image_refuted. Holds exactly for transforms whose linear part has no negative entry (that condition is shown necessary); false for e.g. rotations.
* **C16** look_at places and orients the camera - partial. m: M_Geometry, M_Transform; s: in the statement; p: Props_Transform.v: look_at_position_partial, look_at_direction_refuted. Position proved. Missing (false of the code): it is the inverse transform that carries +z to the viewing direction.
* **C17** Animated transforms interpolate between their end points - partial. m: M_Transform; s: S_Geometry, S_Transform; p: Props_Transform.v: motion_bounds_translation_partial, motion_bounds_static_refuted, C196_clamped_before, C196_clamped_after, C196_static_is_constant. Motion bounds proved for pure translations; false for a non-animated transform. The true clauses are also stated on their own as C196.
* **C18** Quaternion rotations are rigid - partial. m: M_Transform; s: S_Geometry, S_Transform; p: Props_Tight8.v, Props_Transform.v: half_turns_partial, x_half_turn_refuted, slerp_partial, from_matrix_refuted, C197_unit_quaternion_is_rotation. slerp proved; conversion from a rotation matrix is wrong (proved). The true clauses are also stated on their own as C197.
* **C19** Sampling routines stay in their domain - partial. m: M_MonteCarlo; s: S_Geometry; p: Props_MonteCarlo.v: domains_partial, cone_without_frame_refuted, C206_rejection. All samplers but the frameless cone, which raises for every input. The true clauses are also stated on their own as C206.
* **C20** Cosine-weighted hemisphere sampling matches its pdf - partial. m: M_MonteCarlo; s: S_Geometry; p: Props_MonteCarlo.v: upper_hemisphere_partial, cosine_law_refuted. Unit vectors of the upper hemisphere. Missing (false of the code): the cosine is uniform instead of having density 2z.
* **C21** MIS heuristics form a partition of unity - proved. m: M_MonteCarlo; s: in the statement; p: Props_MonteCarlo.v: heuristics.
* **C22** Piecewise-constant 1D distributions are exact - partial. m: M_MonteCarlo; s: S_MonteCarlo; p: Props_MonteCarlo.v: sample_cont_partial, sample_cont_zero_partial, sample_cont_zero_refuted, C198_cdf_table, C198_pdf_integrates, C198_sample_dis. Continuous sampling proved for variates in (0,1], and for 0 if the first entry is positive; variate 0 with a leading zero entry gives NaN (proved). The true clauses are also stated on their own as C198.
* **C23** Piecewise-constant 2D distributions are exact - partial. m: M_MonteCarlo; s: S_MonteCarlo; p: Props_MonteCarlo.v: sample_partial, second_coordinate_refuted, density_refuted, C199_pdf. Row index and density right away from the cumulative entries. Missing (false of the code): the second coordinate is the row index, and the density at a cumulative entry is another row's. The true clauses are also stated on their own as C199.
* **C24** The stratified sampler covers the image exactly once - proved. m: M_Sampler; s: S_Sampler; p: Props_Sampler.v: raster_order_once.
* **C25** Stratification: one sample per stratum - proved. m: M_Sampler; s: S_Sampler; p: Props_Sampler.v: strata.
* **C26** Tiling the image is a partition - partial. m: M_Sampler; s: S_Sampler; p: Props_Sampler.v: partition_partial, tile_is_window_partial, crop_window_lost_refuted, fractional_tile_refuted. Windows containing pixel (0,0), tiles that divide the window. Missing (false of the code): crop windows starting later are dropped; a tile of fractional width runs past its window.
* **C27** Film accumulation only touches the filter footprint and never leaves the image - proved. m: M_Film; s: S_Film; p: Props_Film.v: footprint, table_index.
* **C28** Film accumulation is independent of the order of samples - proved. m: M_Film; s: S_Film; p: Props_Film.v: order.
* **C29** Concurrent film updates are not lost - partial. m: M_Film, M_FilmThreads; s: S_Film, S_FilmThreads; p: Props_Film.v: narrow_partial, border_refuted, C200_locked. Narrow filters: safe when each pixel's samples belong to one thread and no sample lies on a pixel border; a border sample of the half-pixel box filter can lose another thread's update (proved). Wide filters: see C200. The true clauses are also stated on their own as C200.
* **C30** Film reconstruction is a weighted average - proved. m: M_Film; s: S_Film; p: Props_Film.v: average, any_filter.
* **C31** Crop windows select the requested fraction of the image - partial. m: M_Film; s: S_Film; p: Props_Film.v: crop_partial, vertical_crop_refuted, C201_nonempty, C201_sample_extent. Square images or crops that start at the top. Missing (false of the code): other vertical crops use the horizontal resolution. The true clauses are also stated on their own as C201.
* **C32** Reconstruction filters are bounded symmetric kernels - proved. m: M_Film; s: S_Film; p: Props_Film.v, Props_Tight.v: filters, mitchell_unity, mitchell_tiling, lanczos_zeros, lanczos_lobe.
* **C33** A plain list of primitives reports the nearest hit - partial. m: M_Aggregate, M_Geometry; s: S_Aggregate, S_BVH, S_Geometry; p: Props_Aggregate.v: hit_and_range_partial, any_hit_partial, record_refuted. The flag and ray.maxt are right; the record is that of the first primitive met, which need not be the nearest (proved).
* **C34** Full refinement collects exactly the leaves - proved. m: M_Aggregate; s: S_Aggregate; p: Props_Aggregate.v: full_refine.
* **C35** Uniform grid registers every primitive in every voxel it overlaps - proved. m: M_Aggregate; s: S_Aggregate, S_Geometry; p: Props_Aggregate.v: construction, registration, positions.
* **C36** Ray/triangle intersection is sound and complete - proved. m: M_Geometry, M_Shapes; s: S_Geometry, S_Shapes; p: Props_Shapes.v, Props_Surface.v: triangle_sound, triangle_complete, shadow_agrees, triangle_bound, object_bound.
* **C37** Triangle area sampling yields points of the triangle - partial. m: M_Shapes; s: S_Geometry, S_Shapes; p: Props_Shapes.v: sample_partial, sample_refuted, sample_crash_refuted, C202_area. Holds for faces whose second vertex index is the first plus one (the sampler reads vertex i+1, not the face's second vertex); otherwise it can sample another triangle or raise (proved). The true clauses are also stated on their own as C202.
* **C38** Ray/sphere intersection is sound and nearest - proved. m: M_Geometry, M_Shapes, M_Transform; s: S_Shapes; p: Props_Shapes.v: sphere, shadow_agrees, small_spheres_invisible, parameters.
* **C39** Disk and cylinder shadow tests are exact - proved. m: M_Geometry, M_Shapes, M_Transform; s: S_Shapes; p: Props_Shapes.v: disk, cylinder, angle_range.
* **C40** Loop subdivision preserves the topology of the control mesh - proved. m: M_Loop; s: S_Loop; p: Props_Loop.v: every_level_is_a_surface, one_level_splits_every_triangle, edges_exist.
* **C41** BSDF shading frames are orthonormal - proved. m: M_Geometry, M_Reflection, M_Shapes; s: S_Geometry; p: Props_Reflection.v: frame.
* **C42** BSDF component selection is consistent - proved. m: M_Reflection; s: S_Reflection; p: Props_Reflection.v: matching, selection, evaluation, density.
* **C43** Reflectance models are reciprocal - proved. m: M_Reflection; s: S_Reflection; p: Props_Reflection.v: lobes, bsdf.
* **C44** Fresnel reflectance is a fraction - proved. m: M_Reflection; s: S_Reflection; p: Props_Reflection.v: fraction.
* **C45** Specular sampling stays on the mirror / refraction geometry - proved. m: M_Reflection; s: S_Geometry, S_Reflection; p: Props_Reflection.v: mirror, transmission.
* **C46** Lobe sampling agrees with its density and value - proved. m: M_Reflection; s: S_Geometry, S_Reflection; p: Props_Reflection.v: sampling, lambertian_estimate.
* **C47** RGB/XYZ conversion is linear and invertible within tolerance; spectra interpolate and clamp per coefficient - proved. m: M_Film, M_Spectrum; s: S_Film; p: Props_Spectrum.v: round_trip, linear, luminance, coefficientwise.
* **C48** Spectral resampling averages the curve - proved. m: M_Spectrum; s: S_Spectrum; p: Props_Spectrum.v: mean, area_is_an_integral.
* **C49** Attribute and transform stacks restore the graphics state - partial. m: M_Interface; s: S_Interface; p: Props_Interface.v: blocks_partial, contents_refuted. Stacks, current set and graphics state restored; the transforms' contents are not (proved: begin/end have no effect on them).
* **C50** One initialisation per session, and options kept as set - proved. m: M_Geometry, M_Interface, M_Sampler, M_Transform; s: S_Interface; p: Props_Interface.v, Props_Tight.v: session, setters, values, defaults, history, fresh_state, lower.
* **C51** Parameter sets are first-in-first-out per type - proved. m: M_Interface; s: S_Interface; p: Props_Interface.v: fifo, unknown_type.
* **C52** Path tracing terminates within the depth bound - proved. m: M_Geometry, M_Integrator, M_Reflection, M_Sampler, M_World; s: S_Integrator, S_Sampler; p: Props_Integrator.v, Props_WorldEnds.v: path_terminates, recursion_terminates, world_terminates.
* **C53** Only sane radiance reaches the film - partial. m: M_Renderer; s: S_Sampler; p: Props_Integrator.v: sane_partial, infinite_refuted. Proved unless the radiance has components of both infinite signs; such a value reaches the film (proved).
* **C54** Shadow rays test exactly the open segment between the two points - proved. m: M_Geometry, M_Light; s: S_Light; p: Props_Light.v: shadow_segment.
* **C55** Point light obeys the inverse-square law - proved. m: M_Geometry, M_Light, M_Reflection, M_Transform; s: S_Geometry, S_Light; p: Props_Light.v: inverse_square.
* **C56** Texel access is in range for every wrap mode - proved. m: M_MipMap; s: S_Texture; p: Props_Texture.v: repeat, repeat_periodic, clamp, black.
* **C57** Image pyramids and filters are averages - proved. m: M_MipMap; s: S_Texture; p: Props_Texture.v, Props_Tight6.v: lookup_in_range, constant, footprint.
* **C58** Constant, scale, mix, bilinear and UV textures - proved. m: M_Shapes, M_Texture; s: in the statement; p: Props_Texture.v: constant_scale, mix, bilerp, uv.
* **C59** Phase functions are positive, symmetric and normalised - proved. m: M_Volume; s: S_Geometry, S_Volume; p: Props_Volume.v: phase_positive, phase_symmetric, phase_normalised, hg_forward.
* **C60** Optical thickness of a homogeneous medium - proved. m: M_Geometry, M_Transform, M_Volume; s: S_Geometry, S_Volume; p: Props_Volume.v: homogeneous_tau, tau_additive, tau_nonneg.
* **C61** Integer/float helpers - proved. m: M_Utility; s: in the statement; p: Props_Spectrum.v: powers, rounding, tolerances, lerp.
* **C62** Transforming a ray differential transforms all three rays - partial. m: M_Geometry, M_Transform; s: S_Transform; p: Props_Transform.v: raydiff_main_ray_partial, raydiff_offsets_refuted. Main ray only; the offset rays stay in the old space.
* **C63** Samplers have the distribution their pdf claims - proved. m: M_MonteCarlo, M_Small; s: S_Geometry; p: Props_MonteCarlo.v, Props_Small.v, Props_Surface.v, Props_Tight2.v: sampling_laws, hg_density, cone_density, cosine_density, hemisphere_density, sphere_density, azimuth.
* **C64** Sample requests get their own slots - proved. m: M_Sampler; s: S_Sampler; p: Props_Sampler.v: requests.
* **C65** Image output keeps every value in byte range and order - partial. m: M_Film; s: S_Film; p: Props_Film.v: hue_refuted, crop_refuted, C204_bytes, C204_positions. Hue and crop parts are false: channels are scaled separately, and a cropped render is never written (bytes and order: C204). The true clauses are also stated on their own as C204.
* **C66** Walking the uniform grid finds the hits - partial. m: M_Aggregate, M_Geometry; s: S_Aggregate, S_BVH, S_Geometry; p: Props_Aggregate.v, Props_Aggregate2.v: walk_sound_partial, any_sound_partial, missed_hit_refuted, starts_in_box_partial, unit_steps_partial, unit_steps_any_partial. Terminates, in range, reports only real hits; misses hits because the step formula is misparenthesised (proved). It finds the nearest hit for rays starting in the box of a primitive they hit and for rays whose direction components are 1, or 0 with a negative coordinate, the only ones for which the formula is right.
* **C67** Lazy voxel refinement is thread-safe - proved. m: M_VoxelThreads; s: in the statement; p: Props_Aggregate.v: lazy_refinement_safe, no_deadlock.
* **C68** Disk and cylinder full tests agree with their shadow tests - partial. m: M_Geometry, M_Shapes, M_Transform; s: S_Shapes; p: Props_Shapes.v: disk_full_partial, disk_full_refuted, cylinder_full_refuted. Disks: the full and the shadow test agree, and the hit is right, except that a hit within the hole-centre region (squared radius at most the inner radius, e.g. the centre) raises; every cylinder hit raises (proved).
* **C69** Per-vertex attributes belong to the face's vertices - partial. m: M_Shapes, M_Transform; s: S_Shapes; p: Props_Shapes.v: attributes_partial, shared_vertices_refuted, wrong_values_refuted, shading_ignored_refuted. Holds for faces listing vertices 3f, 3f+1, 3f+2; otherwise the (u,v) of other vertices are used (proved); normals without tangents have no effect (proved).
* **C70** Area sampling of quadrics stays on the surface - partial. m: M_Shapes; s: S_Shapes; p: Props_Shapes.v, Props_Tight3.v: full_disk_sample_partial, partial_disk_sample_refuted, disk_normal_refuted, sphere_sample_refuted, reversed_partial, C205_uniform, C205_onto, C205_cylinder_sample. Full disks: point. Missing (false of the code): partial disks, disk normals, spheres. The true clauses are also stated on their own as C205.
* **C71** Surface normals, shading frames and ray differentials are consistent - proved. m: M_Film, M_Geometry, M_Shapes, M_Transform; s: S_Geometry, S_Shapes; p: Props_Shapes.v, Props_Surface.v: sphere_normal, triangle_normal, triangle_tangents, shading_frame, differentials, no_differentials, shading_weights, shading_derivatives.
* **C72** Mesh construction, bounds and refinement - proved. m: M_Shapes, M_Transform; s: S_Geometry, S_Shapes; p: Props_Shapes.v, Props_Surface.v: construction, faces, bound, flat_points, object_bound.
* **C73** Surface parameters lie in the unit square - partial. m: M_Shapes; s: S_Shapes; p: Props_Shapes.v: u_range_partial, v_range_refuted. u proved; v leaves [0,1] for some spheres (proved).
* **C74** Invalid vertex indices are rejected - partial. m: M_Shapes; s: S_Shapes; p: Props_Shapes.v: large_index_rejected_partial, negative_index_refuted. Too large indices rejected; negative indices are accepted and wrap around (proved).
* **C75** Quadric bounds and shape identifiers - proved. m: M_Primitive, M_Shapes; s: S_Shapes; p: Props_Shapes.v, Props_Tight3.v: object_bounds, distinct_ids, primitive_ids.
* **C76** Local/world conversion round-trips - partial. m: M_Geometry, M_Reflection, M_Shapes; s: S_Reflection; p: Props_Reflection.v: round_trip_partial, round_trip_refuted. Identity exactly when the frame consists of world axes; false otherwise (l2w multiplies by the wrong matrix).
* **C77** BSDF sampling agrees with BSDF evaluation - partial. m: M_Reflection; s: S_Geometry, S_Reflection; p: Props_Reflection.v: single_lobe_partial, two_lobes_refuted. Holds when exactly one lobe matches (and the frame is the world's); false with two lobes.
* **C78** Dielectric Fresnel reflectance is correct for every index pair - partial. m: M_Reflection; s: S_Reflection; p: Props_Reflection.v: moderate_indices_partial, high_index_refuted, fresnel_formula_refuted. Fraction up to index ratio 3; fails at 10, and the normal-incidence value is not Fresnel's.
* **C79** Specular transmission obeys Snell's law - partial. m: M_Reflection; s: S_Geometry, S_Reflection; p: Props_Reflection.v: snell_refuted, spurious_total_reflection_refuted, normal_incidence_partial. Holds at normal incidence only; otherwise the ratio is inverted (proved for all other pairs).
* **C80** Lobe adapters are transparent - partial. m: M_Reflection; s: S_Geometry, S_Reflection; p: Props_Reflection.v: btdf_adapter_partial, btdf_density_refuted, scaled_refuted. Value and sampling of the transmission adapter; its density and the scaling adapter are wrong (proved).
* **C81** Reflectance and densities are non-negative - proved. m: M_Reflection; s: S_Geometry, S_Reflection; p: Props_Reflection.v: non_negative, density_non_negative, shadowing, smooth_oren_nayar.
* **C82** Measured BRDF lookups are safe and bounded - proved. m: M_Reflection; s: S_Geometry, S_Reflection; p: Props_Reflection.v: measured_tables, measured_samples, remap_range.
* **C83** Measured table cells are all reachable - partial. m: M_Reflection; s: in the statement; p: Props_Reflection.v: table_coverage_refuted. False of the code: one cell only is ever read.
* **C84** Microfacet lobes are non-negative everywhere - partial. m: M_Reflection; s: S_Geometry, S_Reflection; p: Props_Reflection.v: microfacet_other_side_refuted, C81_non_negative, C81_density_non_negative, C81_shadowing, C81_smooth_oren_nayar. False of the code: a negative value on the other side (non-negativity on its own side: C81). The true clauses are also stated on their own as C81.
* **C85** Spectral averages are right for every interval - partial. m: M_Spectrum; s: S_Spectrum; p: Props_Spectrum.v: every_interval_partial, constant_refuted. Holds unless the interval ends on a sample wavelength; then the average is over a longer interval (a constant 1 averages to 3).
* **C86** Resampling uses the 30 bins between 400 and 700 nm - partial. m: M_Spectrum; s: S_Spectrum; p: Props_Spectrum.v: bins_partial, bins_refuted, init_refuted. Proved: bin i averages [400+10i, 410+300i] when that end is not a sample wavelength. Missing (false of the code): the right end should be 410+10i; the built-in tables integrate to the end of the table.
* **C87** Spectra from RGB combine the right basis curves - partial. m: M_Spectrum; s: S_Spectrum; p: Props_Spectrum.v, Props_Tight.v: from_rgb_partial, from_rgb_refuted, grey_partial, green_smallest_refuted, blue_smallest_refuted. Right when red is smallest or for grey; wrong curves otherwise (proved).
* **C88** round_pow_2 rounds to the nearest power of two - partial. m: M_Utility; s: in the statement; p: Props_Spectrum.v: round_pow_2_partial, nearest_refuted. Within a factor sqrt 2; not always the nearest power (proved).
* **C89** Unmatched block ends are ignored - partial. m: M_Interface; s: in the statement; p: Props_Interface.v: unmatched_partial, unmatched_refuted. An end with both stacks of its kind empty changes nothing (it only reports). Missing (false of the code): a pair of mismatched ends raises IndexError or leaves a transform on its stack.
* **C90** Named coordinate systems are snapshots - partial. m: M_Interface, M_Transform; s: S_Interface; p: Props_Interface.v: named_partial, copy_refuted. A name gives back the same object; it is not a copy, so later changes show through (proved).
* **C91** The current transformation is the product of the calls in order - proved. m: M_Interface, M_Transform; s: S_Interface; p: Props_Interface.v: accumulates.
* **C92** set_camera captures the camera transform - proved. m: M_Interface, M_Transform; s: S_Interface; p: Props_Interface.v: camera.
* **C93** Calls before initialisation are rejected - partial. m: M_Interface; s: in the statement; p: Props_Interface.v: before_init_refuted, C50_session, C50_setters, C50_values, C50_defaults, C50_history, C50_fresh_state, C50_lower. False of the code: calls before initialisation are accepted. The true clauses are also stated on their own as C50.
* **C94** system_clean resets the session - partial. m: M_Interface; s: S_Interface; p: Props_Interface.v: clean_refuted, C50_session, C50_setters, C50_values, C50_defaults, C50_history, C50_fresh_state, C50_lower. False of the code: transforms, names and stacks survive system_clean. The true clauses are also stated on their own as C50.
* **C95** The interface package can be imported - partial. m: M_Interface; s: in the statement; p: Props_Interface.v: import_refuted. False of the code: importing raises NameError.
* **C96** Spot light falloff is a monotone profile in [0,1] - proved. m: M_Light, M_Reflection, M_Transform; s: S_Light; p: Props_Light.v: spot_falloff.
* **C97** Spot and goniophotometric lights attenuate by profile and distance - partial. m: M_Geometry, M_Light, M_Reflection, M_Transform; s: S_Geometry, S_Light; p: Props_Light.v, Props_Tight.v: spot_partial, attenuation_refuted, gonio_refuted, gonio_partial. Full statement false of the code: refuted: profile divides, distance is ignored. Refuted by C97_attenuation_refuted, C97_gonio_refuted. What holds: C97_spot_partial, C97_gonio_partial.
* **C98** Shape sets contain every leaf shape once and weight by area - proved. m: M_Aggregate, M_Light, M_Shapes; s: S_Aggregate, S_MonteCarlo; p: Props_Light.v: flattening, area_weighted, density.
* **C99** Diffuse area lights are one-sided and sampled consistently - proved. m: M_Geometry, M_Light; s: S_Geometry, S_Light; p: Props_Light.v: one_sided, sample.
* **C100** Every light reports its power and can emit rays - partial. m: M_Light; s: in the statement; p: Props_Light.v: emission_refuted. Full statement false of the code: refuted: every one raises. Refuted by C100_emission_refuted. 
* **C101** Images are read as power-of-two RGB - partial. m: M_Light, M_Utility; s: in the statement; p: Props_Light.v: read_image_partial, read_image_refuted. Full statement false of the code: refuted: other sizes are returned unchanged, grey images raise. Refuted by C101_read_image_refuted. What holds: C101_read_image_partial.
* **C102** Distant and projection lights are usable; sample counts are at least one - partial. m: M_Light, M_Reflection, M_Transform; s: in the statement; p: Props_Light.v: distant_refuted, projection_refuted, counts_partial. Full statement false of the code: refuted. Refuted by C102_distant_refuted, C102_projection_refuted. What holds: C102_counts_partial.
* **C103** Every generated sample reaches the film exactly once - proved. m: M_Renderer, M_Sampler; s: S_Sampler; p: Props_Integrator.v: each_sample_once.
* **C104** Path radiance is never negative - proved. m: M_Geometry, M_Integrator, M_Sampler; s: S_Integrator; p: Props_Integrator.v: path_nonneg.
* **C105** Path radiance obeys superposition of light sources - proved. m: M_Geometry, M_Integrator, M_Reflection; s: S_Integrator; p: Props_Integrator.v: superposition.
* **C106** Direct lighting from delta lights is the exact product, lights are chosen uniformly, samples are averaged - proved. m: M_Geometry, M_Integrator, M_Light, M_Reflection, M_Utility; s: S_Integrator; p: Props_Integrator.v: delta_light, uniform_choice, averaging.
* **C107** Area-light estimates combine light and BSDF sampling without bias - partial. m: M_Geometry, M_Integrator, M_Light, M_Reflection, M_Utility; s: in the statement; p: Props_Integrator.v: mis_refuted. Full statement false of the code: refuted: the BSDF half never contributes, so the estimate is too small by its weight. Refuted by C107_mis_refuted. 
* **C108** Integrators only read sample arrays they have requested - proved. m: M_Integrator, M_Sampler; s: S_Integrator; p: Props_Integrator.v: path_requests, direct_requests.
* **C109** The one-light strategy of direct lighting is usable - partial. m: M_Integrator, M_Sampler; s: in the statement; p: Props_Integrator.v: one_light_refuted. Full statement false of the code: refuted: it raises on every sample. Refuted by C109_one_light_refuted. 
* **C110** Specular reflection and transmission add the recursive radiance - partial. m: M_Geometry, M_Integrator, M_Reflection, M_Utility; s: in the statement; p: Props_Integrator.v: transmission_refuted, reflection_partial. Full statement false of the code: holds for reflection; refuted for transmission, whose contribution is always black. Refuted by C110_transmission_refuted. What holds: C110_reflection_partial.
* **C111** Emission is not counted twice - partial. m: M_Geometry, M_Integrator, M_Reflection; s: in the statement; p: Props_Integrator.v: double_count_refuted. Full statement false of the code: refuted. Refuted by C111_double_count_refuted. 
* **C112** Reflected ray differentials are true derivatives - proved. m: M_Integrator; s: S_Integrator; p: Props_Integrator.v: reflection_differential.
* **C113** Transmitted ray differentials are true derivatives - partial. m: M_Integrator; s: S_Integrator; p: Props_Integrator.v, Props_Integrator2.v: transmission_refuted, transmission_curved_refuted, ratio_partial. Full statement false of the code: refuted: for flat surfaces the code uses exactly the negative. Refuted by C113_transmission_refuted, C113_transmission_curved_refuted. What holds: C113_ratio_partial.
* **C114** Face and vertex references describe the mesh - proved. m: M_Loop; s: S_Loop; p: Props_Loop.v: constructor_builds_adjacency, adjacency_at_every_level, unused_vertices_are_refused.
* **C115** Refined positions follow Loop's rules - proved. m: M_Loop; s: S_Loop; p: Props_Loop.v: positions_follow_Loops_rules, limit_step_rule.
* **C116** Refinement keeps valences and only adds regular vertices - proved. m: M_Loop; s: S_Loop; p: Props_Loop.v: valences.
* **C117** Refined and limit positions stay in the control hull and bound - proved. m: M_Loop; s: S_Geometry, S_Loop; p: Props_Loop.v: hull, object_bound.
* **C118** Subdivision commutes with affine maps - proved. m: M_Loop; s: S_Loop; p: Props_Loop.v: affine_invariance.
* **C119** Limit positions do not depend on the number of levels - partial. m: M_Loop; s: S_Loop; p: Props_Loop.v: limit_position_depends_on_levels_refuted. Full statement false of the code: refuted at every vertex of every surface: gamma uses 8+beta for 8*beta, the border mask 1/5 for 1/6. Refuted by C119_limit_position_depends_on_levels_refuted. 
* **C120** Refining yields a triangle mesh with normals - partial. m: M_Loop; s: S_Loop; p: Props_Loop.v: no_closed_mesh_is_refined_refuted, open_mesh_is_refined_partial. Full statement false of the code: holds if vertex 0 lies on a border; refuted otherwise: every closed mesh raises. Refuted by C120_no_closed_mesh_is_refined_refuted. What holds: C120_open_mesh_is_refined_partial.
* **C121** Schlick phase function is a phase function - partial. m: M_Volume; s: S_Geometry, S_Volume; p: Props_Volume.v: schlick_refuted, schlick_partial. Full statement false of the code: refuted: a missing parenthesis cancels the angle, the integral is 1-k^2 and g=0.97 gives negative values. Refuted by C121_schlick_refuted. What holds: C121_schlick_partial.
* **C122** Placing a medium moves where it attenuates - partial. m: M_Geometry, M_Volume; s: S_Geometry, S_Transform; p: Props_Volume.v: transform_ignored_refuted. Full statement false of the code: refuted: the transformed ray is computed and not used. Refuted by C122_transform_ignored_refuted. 
* **C123** Coefficients hold exactly inside the placed medium - proved. m: M_Transform, M_Volume; s: S_Geometry, S_Transform, S_Volume; p: Props_Volume.v: coefficients, density_coefficients.
* **C124** World bound contains the medium - partial. m: M_Volume; s: S_Geometry, S_Transform; p: Props_Volume.v: world_bound_partial, world_bound_refuted. Full statement false of the code: true for non-negative linear parts, refuted otherwise. Refuted by C124_world_bound_refuted. What holds: C124_world_bound_partial.
* **C125** Ray marching terminates and converges - proved. m: M_Geometry, M_Volume; s: S_Volume; p: Props_Volume.v: marching, miss, constant, convergence, diverges.
* **C126** Exponential media - proved. m: M_Geometry, M_Transform, M_Volume; s: S_Geometry, S_Volume; p: Props_Volume.v: density, convergence.
* **C127** A medium scatters with its own asymmetry - partial. m: M_Volume; s: S_Geometry, S_Volume; p: Props_Volume.v: medium_phase_refuted, medium_phase_partial. Full statement false of the code: refuted: the time is passed as g; times above 1 give negative values. Refuted by C127_medium_phase_refuted. What holds: C127_medium_phase_partial.
* **C128** Aggregates of media - proved. m: M_Geometry, M_Transform, M_Volume; s: S_Geometry, S_Volume; p: Props_Tight4.v, Props_Volume.v: encloses, coefficients, tau, bound, interval, members.
* **C129** Aggregate emission and phase - partial. m: M_Volume; s: S_Geometry, S_Volume; p: Props_Volume.v: aggregate_refuted, aggregate_empty_partial. Full statement false of the code: refuted: TypeError for every non-empty aggregate; phases are summed unweighted. Refuted by C129_aggregate_refuted. What holds: C129_aggregate_empty_partial.
* **C130** Grid media can be constructed - partial. m: M_Volume; s: in the statement; p: Props_Volume.v: grid_refuted. Full statement false of the code: refuted: always TypeError. Refuted by C130_grid_refuted. 
* **C131** Whitted direct light is a sum over the lights - proved. m: M_Geometry, M_Integrator, M_Reflection; s: S_Integrator, S_Integrator2; p: Props_Integrator2.v: whitted_sum, whitted_nonneg.
* **C132** Sampling all lights averages each light's estimates - proved. m: M_Geometry, M_Integrator, M_Reflection, M_Sampler; s: S_Integrator, S_Integrator2; p: Props_Integrator2.v: direct_all, delta_estimate.
* **C133** Sampling one light is an unbiased choice - proved. m: M_Integrator, M_Reflection; s: S_Integrator, S_Integrator2; p: Props_Integrator2.v: one_light, no_light, unbiased_choice.
* **C134** Path tracing adds up throughput-weighted light - proved. m: M_Geometry, M_Integrator, M_Reflection, M_Sampler; s: S_Integrator2; p: Props_Integrator2.v: path_sum, stored_numbers.
* **C135** Russian roulette is unbiased - proved. m: M_Reflection, M_Spectrum; s: S_Integrator2; p: Props_Integrator2.v: roulette_unbiased, at_most_half.
* **C136** Recursive ray tracing - proved. m: M_Geometry, M_Integrator, M_Reflection; s: S_Integrator; p: Props_Integrator2.v: time, background, depth_limit, recursion, child_ray.
* **C137** Checkerboards follow cell parity - proved. m: M_Shapes, M_Texture; s: in the statement; p: Props_Texture.v: point_sampled, inside_cell, solid.
* **C138** Closed-form antialiasing averages the two textures - partial. m: M_Shapes, M_Texture; s: in the statement; p: Props_Texture.v: equal_textures_refuted, thin_footprint_refuted, odd_fraction_partial. Full statement false of the code: The code does not: two equal textures give 1, a thin footprint gives NaN. The per-axis odd fraction it computes is right.. Refuted by C138_equal_textures_refuted, C138_thin_footprint_refuted. What holds: C138_odd_fraction_partial.
* **C139** Pyramid levels hold block means - partial. m: M_MipMap; s: S_Texture; p: Props_Texture.v: even_levels_partial, odd_levels_transposed_refuted. Full statement false of the code: Holds for even i; odd levels are transposed.. Refuted by C139_odd_levels_transposed_refuted. What holds: C139_even_levels_partial.
* **C140** Exactness, tiling and mean of lookups - proved. m: M_MipMap; s: S_Texture; p: Props_Texture.v: texel_centres, tiling, mean.
* **C141** Widest lookup with black wrap - partial. m: M_MipMap; s: S_Texture; p: Props_Texture.v: black_quarter_refuted. Full statement false of the code: The code returns a quarter of it.. Refuted by C141_black_quarter_refuted. 
* **C142** Elliptical lookups - partial. m: M_MipMap; s: S_Texture; p: Props_Texture.v, Props_Texture2.v: elliptical_refuted, point_footprint_partial, all_footprints_partial. Full statement false of the code: Violated: whenever the shorter axis, or the longer one divided by the largest allowed eccentricity if that is more, lies strictly between 0 and 2, the lookup raises AttributeError. A footprint with an axis of zero length is interpolated on the finest level, exact at texel centres, and one of 2 or more returns the mean of a square image.. Refuted by C142_elliptical_refuted. What holds: C142_point_footprint_partial, C142_all_footprints_partial.
* **C143** Image textures - partial. m: M_MipMap; s: S_Texture; p: Props_Texture.v, Props_Tight6.v: evaluation_refuted, unreadable_refuted, nonsquare_refuted, cache_type_refuted, cached_partial, keys_partial. Full statement false of the code: Evaluation always raises; unreadable files and non-square images raise; the cache ignores the storage type. Square RGB images load with the parameters asked for, stay cached, and are not confused with maps cached for other files or parameters.. Refuted by C143_evaluation_refuted, C143_unreadable_refuted, C143_nonsquare_refuted, C143_cache_type_refuted. What holds: C143_cached_partial, C143_keys_partial.
* **C144** Resampling of square images - proved. m: M_MipMap, M_Utility; s: S_Texture; p: Props_Texture.v: weights, square.
* **C145** Resampling of other images - partial. m: M_MipMap; s: S_Texture; p: Props_Texture.v: nonsquare_refuted. Full statement false of the code: The code raises IndexError for non-square images unless both sides are powers of two.. Refuted by C145_nonsquare_refuted. 
* **C146** Noise is total, bounded and periodic - proved. m: M_Texture; s: in the statement; p: Props_Texture.v: total_bounded, period.
* **C147** Noise is zero on the lattice and continuous - partial. m: M_Texture; s: in the statement; p: Props_Texture.v: lattice_refuted, lattice_partial, discontinuous_refuted. Full statement false of the code: The code: it is 0 or -1 there, and jumps.. Refuted by C147_lattice_refuted, C147_discontinuous_refuted. What holds: C147_lattice_partial.
* **C148** Turbulence, wrinkled and smooth step - proved. m: M_Shapes, M_Texture; s: in the statement; p: Props_Texture.v: turbulence, wrinkled, smooth_step.
* **C149** FBm, windy and marble - partial. m: M_Geometry, M_Shapes, M_Texture; s: in the statement; p: Props_Texture.v: octave_refuted, no_differentials_refuted, marble_refuted, large_footprint_partial, windy_partial. Full statement false of the code: Violated: FBm raises whenever at least one octave is requested and neither footprint vector is longer than a noise cell, so always without differentials; windy textures raise unless a footprint vector is longer than ten noise cells, and marble textures raise in every case. Over a longer footprint FBm is the noise at the point faded by a weight between 0 and 1, and a windy texture is the absolute faded noise at a tenth of the point times the faded noise at the point.. Refuted by C149_octave_refuted, C149_no_differentials_refuted, C149_marble_refuted. What holds: C149_large_footprint_partial, C149_windy_partial.
* **C150** UV, planar and 3D mappings report exact differentials - proved. m: M_Shapes, M_Texture, M_Transform; s: in the statement; p: Props_Texture.v, Props_Tight6.v: uv, planar, solid, uv_values, planar_values.
* **C151** Spherical texture coordinates - proved. m: M_Shapes, M_Texture, M_Transform; s: in the statement; p: Props_Mapping.v, Props_Texture.v: values, poles, spherical_range.
* **C152** Spherical and cylindrical differentials - partial. m: M_Shapes, M_Texture, M_Transform; s: in the statement; p: Props_Mapping.v, Props_Texture.v: y_difference_partial, x_seam_partial, spherical_refuted, cylindrical_refuted, x_differences_partial. Full statement false of the code: The y differential of t is wrong; cylindrical mapping always raises; x differentials are the forward differences.. Refuted by C152_spherical_refuted, C152_cylindrical_refuted. What holds: C152_y_difference_partial, C152_x_seam_partial, C152_x_differences_partial.
* **C153** Dots textures can be evaluated - partial. m: M_Geometry, M_Shapes, M_Texture; s: in the statement; p: Props_Texture.v: dots_refuted. Full statement false of the code: The code always raises TypeError.. Refuted by C153_dots_refuted. 
* **C154** Normals at border vertices of subdivision surfaces - proved. m: M_Geometry, M_Loop; s: in the statement; p: Props_Tangent.v: half_fan, corner.
* **C155** Normals at interior vertices of subdivision surfaces - partial. m: M_Loop; s: in the statement; p: Props_Tangent.v: interior_refuted. Full statement false of the code: The code adds the tangents of the vertex treated before.. Refuted by C155_interior_refuted. 
* **C156** What a sample contributes - proved. m: M_Renderer, M_Sampler; s: in the statement; p: Props_Tight.v: sample_radiance.
* **C157** has_nans is exact - proved. m: M_Spectrum; s: in the statement; p: Props_Tight.v: has_nans.
* **C158** Perspective camera: one ray per raster position - proved. m: M_Camera, M_Geometry, M_Sampler, M_Transform; s: S_Camera, S_Geometry; p: Props_Camera.v: perspective_pixel, static, injective.
* **C159** Depth of field - proved. m: M_Camera, M_Sampler, M_Transform; s: S_Camera, S_Geometry; p: Props_Camera.v: perspective_focus, ortho_focus.
* **C160** Orthographic camera: parallel rays - proved. m: M_Camera, M_Sampler, M_Transform; s: S_Camera; p: Props_Camera.v: ortho_pixel.
* **C161** Orthographic camera with a lens - partial. m: M_Camera, M_Geometry, M_Sampler, M_Transform; s: S_Camera; p: Props_Camera.v: ortho_lens_origin_refuted. Full statement false of the code: Violated: the origin is the lens sample alone.. Refuted by C161_ortho_lens_origin_refuted. 
* **C162** Perspective ray differentials - partial. m: M_Camera, M_Sampler, M_Transform; s: S_Camera; p: Props_Camera.v: perspective_differential_partial, offsets_in_camera_space_refuted. Full statement false of the code: Violated for placed cameras: the offset rays stay in camera space.. Refuted by C162_offsets_in_camera_space_refuted. What holds: C162_perspective_differential_partial.
* **C163** Times of perspective ray differentials - partial. m: M_Camera, M_Sampler, M_Transform; s: S_Camera; p: Props_Camera.v: differential_time_refuted. Full statement false of the code: Violated: the sample's raw time.. Refuted by C163_differential_time_refuted. 
* **C164** Orthographic ray differentials - partial. m: M_Camera, M_Sampler, M_Transform; s: S_Camera; p: Props_Camera.v: identity_partial, placed_twice_refuted. Full statement false of the code: Violated for placed cameras: the placement is applied twice.. Refuted by C164_placed_twice_refuted. What holds: C164_identity_partial.
* **C165** Environment camera covers the sphere once - proved. m: M_Camera, M_Sampler; s: S_Geometry; p: Props_Camera.v: unit, covers_sphere, injective.
* **C166** Environment camera rays carry their time - partial. m: M_Camera, M_Sampler, M_Transform; s: S_Camera; p: Props_Camera.v: environment_time_refuted, motion_refuted. Full statement false of the code: Violated: the time is passed as the recursion depth.. Refuted by C166_environment_time_refuted, C166_motion_refuted. 
* **C167** Inherited ray differentials - partial. m: M_Camera, M_Geometry, M_Sampler; s: in the statement; p: Props_Camera.v, Props_Tight2.v: offsets_ignore_sample_refuted, main_ray_partial, offset_positions_partial. Full statement false of the code: Violated: they are those of positions (1,0) and (0,1) for every sample.. Refuted by C167_offsets_ignore_sample_refuted. What holds: C167_main_ray_partial, C167_offset_positions_partial.
* **C168** Pinhole camera rays meet in one point - proved. m: M_Camera, M_Geometry, M_Sampler, M_Transform; s: S_Transform; p: Props_Camera.v, Props_Tight3.v: pinhole, range.
* **C169** Generated rays have unit directions - partial. m: M_Camera, M_Sampler, M_Transform; s: S_Camera, S_Geometry; p: Props_Camera.v: pinhole_unnormalised_refuted, placed_unit_partial. Full statement false of the code: Violated by the pinhole camera.. Refuted by C169_pinhole_unnormalised_refuted. What holds: C169_placed_unit_partial.
* **C170** BVH children are ordered along the split axis - partial. m: M_BVH; s: S_BVH; p: Props_BVHSplit.v: all_but_one_partial, small_partial, stray_refuted. Full statement false of the code: Violated by at most one primitive per node: the last one is never compared with the split position.. Refuted by C170_stray_refuted. What holds: C170_all_but_one_partial, C170_small_partial.
* **C171** clip and is_black - proved. m: M_Utility; s: in the statement; p: Props_Tight2.v: clip, black.
* **C172** Matte surfaces scatter by Lambert or Oren-Nayar - proved. m: M_Material, M_Reflection, M_Shapes; s: S_Geometry, S_Material, S_Reflection; p: Props_Material.v: smooth, rough.
* **C173** Texture values come from the hit point - partial. m: M_Material, M_Reflection, M_Shapes; s: S_Material, S_Reflection; p: Props_Material.v: lookup_partial, footprint_refuted. Full statement false of the code: Violated for the footprint: copying the differential geometry drops it, so every texture sees a zero footprint.. Refuted by C173_footprint_refuted. What holds: C173_lookup_partial.
* **C174** Mirror surfaces reflect - proved. m: M_Material, M_Reflection, M_Shapes; s: S_Geometry, S_Material; p: Props_Material.v: mirror.
* **C175** Glass splits light between reflection and refraction - partial. m: M_Material, M_Reflection, M_Shapes; s: S_Geometry, S_Material, S_Reflection; p: Props_Material.v: split_partial, light_lost_refuted. Full statement false of the code: Violated: the transmitted part uses a Fresnel term that does not complement the reflected one.. Refuted by C175_light_lost_refuted. What holds: C175_split_partial.
* **C176** Coatings reflect like their index - partial. m: M_Material, M_Reflection; s: S_Reflection; p: Props_Material.v: coating_refuted. Full statement false of the code: Violated: the indices are passed the other way round.. Refuted by C176_coating_refuted. 
* **C177** Opacity of uber materials - proved. m: M_Material, M_Reflection, M_Shapes; s: S_Geometry, S_Material, S_Reflection; p: Props_Material.v: translucent, clear, opaque, scaled, diffuse.
* **C178** Every sensible material gives a usable BSDF - proved. m: M_Geometry, M_Material, M_Reflection, M_Shapes; s: S_Geometry, S_Material; p: Props_Material.v: usable.
* **C179** Materials do not emit negative light - proved. m: M_Material, M_Reflection, M_Shapes; s: S_Geometry, S_Material, S_Reflection; p: Props_Material.v: non_negative.
* **C180** Mix materials blend - partial. m: M_Material, M_Reflection, M_Shapes; s: in the statement; p: Props_Material.v: mix_refuted. Full statement false of the code: Violated: get_bsdf always raises TypeError.. Refuted by C180_mix_refuted. 
* **C181** Subsurface coefficients - proved. m: M_Material, M_Shapes; s: in the statement; p: Props_Material.v: coefficients.
* **C182** Subsurface materials can be rendered - partial. m: M_Material, M_Reflection, M_Shapes; s: S_Geometry, S_Material; p: Props_Material.v: surface_refuted, diffuse_refuted, kd_surface_partial. Full statement false of the code: Violated: one of the two calls raises TypeError in each class.. Refuted by C182_surface_refuted, C182_diffuse_refuted. What holds: C182_kd_surface_partial.
* **C183** Bump maps perturb the normal - partial. m: M_Material, M_Shapes; s: in the statement; p: Props_Material.v: bump_refuted. Full statement false of the code: Violated: every such hit raises AttributeError.. Refuted by C183_bump_refuted. 
* **C184** Measured BRDF files - proved. m: M_Material, M_Reflection; s: S_Material; p: Props_Material.v: file, malformed.
* **C185** Measured files are cached - partial. m: M_Material, M_Reflection; s: in the statement; p: Props_Material.v: first_partial, again_refuted. Full statement false of the code: Violated: the cache is keyed by the base name and its use raises.. Refuted by C185_again_refuted. What holds: C185_first_partial.
* **C186** Directions of specular materials - partial. m: M_Material, M_Reflection, M_Shapes; s: S_Geometry, S_Material, S_Reflection; p: Props_Material.v: mirror_partial, clear_partial, direction_refuted. Full statement false of the code: Violated for surfaces not aligned with the world axes: l2w uses one local coordinate per row.. Refuted by C186_direction_refuted. What holds: C186_mirror_partial, C186_clear_partial.
* **C187** Solid-angle densities of shapes - proved. m: M_Geometry, M_Shapes; s: S_Geometry, S_Shapes; p: Props_Orient.v: triangle, triangle_miss, any_shape.
* **C188** Normal derivatives of spheres - partial. m: M_Geometry, M_Shapes, M_Transform; s: S_Shapes; p: Props_Orient.v, Props_Surface.v: sphere_partial, reversed_refuted, weingarten. Full statement false of the code: Violated for reversed orientation: the normal is flipped, its derivatives are not.. Refuted by C188_reversed_refuted. What holds: C188_sphere_partial.
* **C189** Orientation of normals - proved. m: M_Geometry, M_Shapes, M_Transform; s: S_Geometry, S_Shapes; p: Props_Orient.v: sphere, disk.
* **C190** Environment picture - partial. m: M_InfLight, M_Light, M_Transform; s: in the statement; p: Props_InfLight.v: picture_ignored_refuted, plain_colour_partial. Full statement false of the code: Violated: the picture is never used; the light always has its plain colour.. Refuted by C190_picture_ignored_refuted. What holds: C190_plain_colour_partial.
* **C191** Escaping rays see the environment - partial. m: M_InfLight; s: in the statement; p: Props_InfLight.v: escaping_ray_refuted. Full statement false of the code: Violated: it always raises TypeError.. Refuted by C191_escaping_ray_refuted. 
* **C192** Sampling the environment - partial. m: M_InfLight, M_Light, M_Spectrum, M_Transform; s: in the statement; p: Props_InfLight.v: one_direction_refuted, colour_partial. Full statement false of the code: Violated: every draw gives the same direction with density NaN; colour and shadow ray are right.. Refuted by C192_one_direction_refuted. What holds: C192_colour_partial.
* **C193** Density of environment directions - partial. m: M_Geometry, M_InfLight, M_Light, M_Spectrum, M_Transform; s: in the statement; p: Props_InfLight.v: density_refuted, poles_partial. Full statement false of the code: Violated: it is 1 for every direction but the poles.. Refuted by C193_density_refuted. What holds: C193_poles_partial.
* **C194** Environment emission and power - partial. m: M_InfLight, M_Light, M_Spectrum, M_Transform; s: in the statement; p: Props_InfLight.v: emission_refuted. Full statement false of the code: Violated: both raise.. Refuted by C194_emission_refuted. 
* **C195** BVH construction keeps every primitive - proved. m: M_BVH; s: S_BVH; p: Props_BVH.v: no_primitive_lost.
* **C196** Animated transforms outside their interval - proved. m: M_Transform; s: in the statement; p: Props_Transform.v: clamped_before, clamped_after, static_is_constant.
* **C197** Unit quaternions are rotations - proved. m: M_Transform; s: S_Transform; p: Props_Transform.v: unit_quaternion_is_rotation.
* **C198** One-dimensional tables - proved. m: M_MonteCarlo; s: S_MonteCarlo; p: Props_MonteCarlo.v: cdf_table, pdf_integrates, sample_dis.
* **C199** Two-dimensional tables - proved. m: M_MonteCarlo; s: S_MonteCarlo; p: Props_MonteCarlo.v: pdf.
* **C200** Locked film updates are not lost - proved. m: M_Film; s: S_Film, S_FilmThreads; p: Props_Film.v: locked.
* **C201** Crop windows are never empty and samples cover them - proved. m: M_Film; s: S_Film; p: Props_Film.v: nonempty, sample_extent.
* **C202** Triangle areas - proved. m: M_Shapes; s: S_Shapes; p: Props_Shapes.v: area.
* **C203** Equality of boxes - proved. m: M_Geometry; s: in the statement; p: Props_Geometry.v: eq_correct.
* **C204** Written pixels are bytes in order - proved. m: M_Film; s: S_Film; p: Props_Film.v, Props_Tight5.v: bytes, positions.
* **C205** Area sampling of cylinders - proved. m: M_Shapes, M_Transform; s: S_Area, S_Shapes; p: Props_CylSample.v, Props_Shapes.v: uniform, onto, cylinder_sample.
* **C206** Rejection sampling of the disk - proved. m: M_MonteCarlo; s: in the statement; p: Props_MonteCarlo.v: rejection.
* **C207** The nearest surface of a whole scene - partial. m: M_BVH, M_Geometry, M_Primitive; s: S_BVH, S_Scene, S_Shapes; p: Props_Scene.v: nearest_partial, any_partial, mirrored_refuted. Full statement false of the code: Violated: a sphere or disk placed by a mirroring or rotating transform can be missed.. Refuted by C207_mirrored_refuted. What holds: C207_nearest_partial, C207_any_partial.
* **C208** The shadow query and the nearest query agree - proved. m: M_BVH, M_Geometry, M_Primitive; s: in the statement; p: Props_Scene.v: shadow_consistent.
* **C209** The record of a hit - proved. m: M_Geometry, M_Primitive; s: in the statement; p: Props_Scene.v: record.
* **C210** Instancing - partial. m: M_Primitive; s: in the statement; p: Props_Scene.v: geometric_partial, instance_refuted. Full statement false of the code: Violated: TransformedPrimitive can never be instantiated, as it leaves abstract methods undefined.. Refuted by C210_instance_refuted. What holds: C210_geometric_partial.
* **C211** Microfacet distributions are normalised - proved. m: M_Reflection; s: S_Microfacet, S_Reflection; p: Props_Microfacet.v: normalised, exponents.
* **C212** Half vectors are drawn by the reported density - proved. m: M_Reflection; s: S_Microfacet; p: Props_Microfacet.v: blinn, aniso.
* **C213** The Fresnel blend - proved. m: M_Geometry, M_Reflection; s: S_Microfacet, S_Reflection; p: Props_Microfacet.v: schlick, reflectance, mixture.
* **C214** Albedo estimates - proved. m: M_MonteCarlo, M_Reflection, M_Rho, M_Sampler; s: S_Rho; p: Props_Microfacet.v: lambertian, estimate, mirror, surface.
* **C215** Albedo of scaled lobes - partial. m: M_Reflection, M_Rho; s: in the statement; p: Props_Microfacet.v: scaled_refuted. Full statement false of the code: Violated: they always raise AttributeError.. Refuted by C215_scaled_refuted. 
* **C216** Highlights peak at the mirror direction - partial. m: M_Reflection; s: S_Geometry; p: Props_Microfacet.v: blinn_partial, aniso_refuted. Full statement false of the code: Violated: the anisotropic one is zero there and positive everywhere else off the horizon.. Refuted by C216_aniso_refuted. What holds: C216_blinn_partial.
* **C217** Homogeneous division - partial. m: M_Transform; s: in the statement; p: Props_Transform.v: division_partial, near_one_refuted. Full statement false of the code: Violated: the division is skipped if w differs from 1 by up to 1e-5.. Refuted by C217_near_one_refuted. What holds: C217_division_partial.
* **C218** Scene bound is the tight union of everything in the scene - proved. m: M_BVH, M_Geometry, M_Primitive, M_Scene; s: S_Geometry, S_Scene; p: Props_SceneBound.v: bound_least, bound_contains.
* **C219** Queries in a scene with a medium still find the nearest surface - partial. m: M_BVH, M_Geometry, M_Primitive, M_Scene; s: S_BVH, S_Scene, S_Shapes; p: Props_SceneBound.v: nearest_partial, any_partial, medium_changes_hits_refuted. Full statement false of the code: Violated: where a primitive's own bound is wrong, as for a sphere mirrored in x, the object is missed without a medium and found with one; proved under the conditions of C207, with no condition on the medium's box.. Refuted by C219_medium_changes_hits_refuted. What holds: C219_nearest_partial, C219_any_partial.
* **C220** Building a scene leaves the aggregate unchanged - partial. m: M_BVH, M_Geometry, M_Primitive, M_Scene; s: S_Geometry; p: Props_SceneBound.v: no_volume_partial, shared_aggregate_refuted. Full statement false of the code: Violated: with a medium the constructor unions the medium's bound into the box object owned by the tree's root, so a second scene over the same aggregate without a medium reports a bound that contains the first scene's medium.. Refuted by C220_shared_aggregate_refuted. What holds: C220_no_volume_partial.
* **C221** Rendered pixels are averages of what the rays saw - proved. m: M_Film, M_Geometry, M_Render, M_Sampler; s: S_Film, S_Sampler; p: Props_Render.v: pixels_between, uniform.
* **C222** Reported surface areas - proved. m: M_Shapes; s: S_Area, S_Shapes; p: Props_Surface.v: sphere, cylinder, disk, triangle.
* **C223** Surface coordinates and tangents of quadric hits - partial. m: M_Geometry, M_Shapes, M_Transform; s: S_Area, S_Shapes; p: Props_Surface.v: sphere_partial, sphere_v_refuted, disk_partial, disk_hole_refuted. Full statement false of the code: Violated: the v of a sphere hit is multiplied by the polar range instead of divided by it, so it exceeds 1; a disk with a hole reports negative v at its rim.. Refuted by C223_sphere_v_refuted, C223_disk_hole_refuted. What holds: C223_sphere_partial, C223_disk_partial.
* **C224** Triangle hit parameters - proved. m: M_Geometry, M_Shapes; s: S_Shapes; p: Props_Surface.v: interpolation, default_uv.
* **C225** Sampling a sphere from a point - proved. m: M_Geometry, M_Shapes, M_Transform; s: S_Geometry, S_Shapes; p: Props_Surface.v: cone_exact, sample, density, inside.
* **C226** Normals of area samples - proved. m: M_Shapes, M_Transform; s: S_Geometry, S_Shapes; p: Props_Surface.v: sphere, cylinder.
* **C227** Offsets that keep secondary rays off the surface - proved. m: M_Shapes; s: S_Shapes; p: Props_Surface.v: offsets.
* **C228** Directions that miss a sphere have no density - partial. m: M_Geometry, M_Shapes, M_Transform; s: S_Shapes; p: Props_Surface.v: miss_refuted, inside_partial. Full statement false of the code: Violated for points outside: the cone density is returned for every direction.. Refuted by C228_miss_refuted. What holds: C228_inside_partial.
* **C229** Estimating direct light leaves the lights unchanged - partial. m: M_Alias, M_Geometry, M_Integrator, M_Light, M_MonteCarlo, M_Reflection, M_Utility; s: in the statement; p: Props_Alias.v: no_medium_partial, darker_partial, repeat_refuted, fog_refuted. Full statement false of the code: Violated in a medium: the estimate multiplies the light's own radiance array by the transmittance in place, so every visible request darkens the light for all later ones.. Refuted by C229_repeat_refuted, C229_fog_refuted. What holds: C229_no_medium_partial, C229_darker_partial.
* **C230** Rays that leave the scene see only environment light - partial. m: M_Alias, M_Reflection; s: in the statement; p: Props_Alias.v: delta_partial, area_refuted, environment_refuted. Full statement false of the code: Violated: every area light adds its emission to every escaping ray, and an environment light makes the query raise.. Refuted by C230_area_refuted, C230_environment_refuted. What holds: C230_delta_partial.
* **C231** Differences of points are vectors - proved. m: M_Typed; s: in the statement; p: Props_Typed.v: difference, round_trip, refused, face_forward.
* **C232** Sums respect the kinds of their operands - partial. m: M_Typed; s: in the statement; p: Props_Typed.v: sums_partial, sums_refuted. Full statement false of the code: Violated: a vector plus a point is a vector, two points or a point and a number can be added.. Refuted by C232_sums_refuted. What holds: C232_sums_partial.
* **C233** No NaN coordinates - partial. m: M_Typed; s: in the statement; p: Props_Typed.v: constructor, from_arr, point_difference, finite_partial, infinite_refuted. Full statement false of the code: Violated: inherited arithmetic on infinite components creates NaN objects without raising.. Refuted by C233_infinite_refuted. What holds: C233_finite_partial.
* **C234** Equality of points, vectors and normals - proved. m: M_Typed; s: in the statement; p: Props_Typed.v: meaning, equivalence, class_ignored.
* **C235** Creating spectra - proved. m: M_Spectrum, M_Spectrum2; s: in the statement; p: Props_Spectrum2.v: create, default.
* **C236** RGB spectra from three numbers - partial. m: M_Spectrum2; s: in the statement; p: Props_Spectrum2.v: copy_partial, sequence_refuted. Full statement false of the code: Violated: three floats raise TypeError, and three integers are taken for the shape of an uninitialised array.. Refuted by C236_sequence_refuted. What holds: C236_copy_partial.
* **C237** Luminance and XYZ values of sampled spectra - proved. m: M_Spectrum, M_Spectrum2; s: in the statement; p: Props_Spectrum2.v: values, refused, linear, constant, nonneg, rgb.
* **C238** Powers of spectra - proved. m: M_Spectrum2; s: in the statement; p: Props_Spectrum2.v: sqrt, pow.
* **C239** Creating subdivision surfaces from parameters - proved. m: M_LoopObj; s: in the statement; p: Props_LoopObj.v: refused, created.
* **C240** World bound of subdivision surfaces - proved. m: M_LoopObj, M_Shapes, M_Transform; s: S_Geometry, S_Transform; p: Props_LoopObj.v: tight, refined.
* **C241** Refining leaves the surface unchanged - partial. m: M_LoopObj, M_Shapes, M_Transform; s: in the statement; p: Props_LoopObj.v: levels_partial, zero_refuted. Full statement false of the code: Violated: with zero levels refining overwrites the surface's own vertices by their limit positions, so that a second refinement gives other positions.. Refuted by C241_zero_refuted. What holds: C241_levels_partial.
* **C242** Open subdivision surfaces in scenes - proved. m: M_BVH, M_Geometry, M_LoopObj, M_Primitive, M_Shapes; s: S_BVH, S_Scene; p: Props_LoopObj.v: open, scene.
* **C243** Rays made from rays - proved. m: M_Geometry, M_Misc; s: in the statement; p: Props_Misc.v: copies, children, generations, scale.
* **C244** Progress display - proved. m: M_Misc; s: in the statement; p: Props_Misc.v: bar, progress, completion.
* **C245** Indexing of boxes - proved. m: M_Geometry, M_Misc; s: in the statement; p: Props_Misc.v: getitem.
* **C246** Stratified samples under rounding - partial. m: M_Float; s: in the statement; p: Props_Float.v: strata_partial, below_one_refuted. Full statement false of the code: Violated: for every number of strata from two on, the largest draw makes the last sample exactly 1.. Refuted by C246_below_one_refuted. What holds: C246_strata_partial.
* **C247** Image positions under rounding - partial. m: M_Float; s: in the statement; p: Props_Float.v: pixel_partial, next_pixel_refuted. Full statement false of the code: Violated: in every column but the first the largest draw gives the coordinate of the next pixel.. Refuted by C247_next_pixel_refuted. What holds: C247_pixel_partial.
* **C248** Samples reach their own pixel under rounding - proved. m: M_Float; s: in the statement; p: Props_Float.v: reached, in_bounds, own_pixel.
* **C249** Interpolation and sample times under rounding - partial. m: M_Float; s: in the statement; p: Props_Float.v: ends_partial, zero_partial, times_partial, error_partial, range_refuted. Full statement false of the code: Violated: interpolating between 3 and 3 at one fifth gives more than 3; it does stay in range when the end points are not of the same sign, as for a shutter that opens at time 0.. Refuted by C249_range_refuted. What holds: C249_ends_partial, C249_zero_partial, C249_times_partial, C249_error_partial.
* **C250** Image bytes under rounding - partial. m: M_Float; s: in the statement; p: Props_Float.v: bytes_partial, brightest_refuted. Full statement false of the code: Violated: it can become 254.. Refuted by C250_brightest_refuted. What holds: C250_bytes_partial.
* **C251** BVH buckets under rounding - proved. m: M_Float; s: in the statement; p: Props_Float2.v: buckets.
* **C252** Balance weights under rounding - proved. m: M_Float; s: in the statement; p: Props_Float2.v: balance.
* **C253** Power weights under rounding - partial. m: M_Float; s: in the statement; p: Props_Float2.v: power_partial, denominator_partial, vanishing_refuted. Full statement false of the code: Violated: the squares of two tiny densities both vanish and the code divides zero by zero; it cannot happen from 2^-500 on.. Refuted by C253_vanishing_refuted. What holds: C253_power_partial, C253_denominator_partial.
* **C254** One-dimensional tables under rounding - partial. m: M_Float; s: in the statement; p: Props_Float2.v: table_partial, sample_partial, below_one_refuted. Full statement false of the code: Violated: for the table 1, 3 a draw below 1 gives the point 1.. Refuted by C254_below_one_refuted. What holds: C254_table_partial, C254_sample_partial.
* **C255** Boxes are never missed under rounding - partial. m: M_Float; s: in the statement; p: Props_Float2.v: inside_partial, origin_partial, missed_refuted. Full statement false of the code: Violated: a ray that meets a box exactly at parameter 255 is reported to miss it; rays starting in the box, and rays from the coordinate origin that meet it at a float64 parameter, are never missed.. Refuted by C255_missed_refuted. What holds: C255_inside_partial, C255_origin_partial.
* **C256** BVH nodes are never missed under rounding - partial. m: M_Float; s: in the statement; p: Props_Float2.v: inside_partial, missed_refuted. Full statement false of the code: Violated: the ray from the origin along (1, 49, 1) meets the box from (1, 0, 0) to (2, 49, 2) and is rejected; unit rays starting strictly inside a box are always accepted.. Refuted by C256_missed_refuted. What holds: C256_inside_partial.
* **C257** Crop windows under rounding - proved. m: M_Float; s: in the statement; p: Props_Float2.v: crop.
* **C258** Voxels under rounding - proved. m: M_Float; s: in the statement; p: Props_Float2.v: voxels.
* **C259** Primitives of a scene have distinct identifiers - proved. m: M_Primitive; s: in the statement; p: Props_Tight3.v: identifiers.
* **C260** Roughness of plastic, metal and uber materials - proved. m: M_Material, M_Reflection, M_Shapes; s: S_Material; p: Props_Tight3.v: plastic, metal, uber.
* **C261** Transforms that are exact under rounding - proved. m: M_Float2, M_Transform; s: in the statement; p: Props_Float3.v, Props_Float8.v: identity, translate, scale, whole.
* **C262** Normalising vectors under rounding - proved. m: M_Float2; s: in the statement; p: Props_Float4.v: unit, zero.
* **C263** Symmetries of products under rounding - proved. m: M_Float2; s: in the statement; p: Props_Float3.v: symmetries.
* **C264** Pixel sums under rounding - proved. m: M_Float, M_Float2; s: in the statement; p: Props_Float3.v: error, at_least, counts.
* **C265** Weights of a triangle sample under rounding - partial. m: M_Float, M_Float2; s: in the statement; p: Props_Float3.v: weights_partial, outside_refuted. Full statement false of the code: Violated: the third weight can be negative, by at most 2^-51, and the sum is within 2^-51 of 1.. Refuted by C265_outside_refuted. What holds: C265_weights_partial.
* **C266** Cone samples under rounding - proved. m: M_Float, M_Float2; s: in the statement; p: Props_Float3.v: cone.
* **C267** A translation and its inverse under rounding - partial. m: M_Float2; s: in the statement; p: Props_Float3.v: whole_partial, round_trip_refuted. Full statement false of the code: Violated: after a translation by 2^52 the coordinate 1/4 comes back as 0; with whole-number coordinates up to 2^53 it is exact.. Refuted by C267_round_trip_refuted. What holds: C267_whole_partial.
* **C268** Normalising very short vectors - partial. m: M_Float2; s: in the statement; p: Props_Float4.v: short_partial, short_refuted. Full statement false of the code: Violated: if no component exceeds 2^-538 the vector is returned unchanged, because its squared length rounds to 0.. Refuted by C268_short_refuted. What holds: C268_short_partial.
* **C269** Pixel sums and the order of samples - partial. m: M_Float, M_Float2; s: in the statement; p: Props_Float3.v: order_partial, order_refuted. Full statement false of the code: Violated: 2^52, 3/8, 3/8 sums to 2^52 but 3/8, 3/8, 2^52 to 2^52 + 1; the difference is at most twice the bound of C264.. Refuted by C269_order_refuted. What holds: C269_order_partial.
* **C270** What a diffuse scene lit by point lights looks like - proved. m: M_BVH, M_Geometry, M_Material, M_Primitive, M_Reflection, M_World; s: S_BVH, S_Integrator, S_Material, S_Reflection, S_Scene, S_World; p: Props_World.v: lit, bounded.
* **C271** Without light sources everything is black - proved. m: M_Geometry, M_Integrator, M_Primitive, M_Sampler, M_World; s: S_World; p: Props_World.v: dark_whitted, dark_direct, dark_path, world.
* **C272** Radiance is proportional to the lights - partial. m: M_Geometry, M_Integrator, M_Primitive, M_World; s: S_Integrator2, S_Scene, S_World; p: Props_World.v: stronger_partial, limit_refuted. Full statement false of the code: Violated: light below 10^-5 counts as black; a triangle lit so dimly is black but not black with the lamp four times as strong. It holds whenever no light's radiance crosses that limit at a point of a surface which some ray meets.. Refuted by C272_limit_refuted. What holds: C272_stronger_partial.
* **C273** Direct lighting agrees with Whitted's method - proved. m: M_Geometry, M_Integrator, M_Reflection, M_Sampler; s: in the statement; p: Props_World.v: direct_is_whitted.
* **C274** A rendered picture shows what its samples saw - proved. m: M_Film, M_Geometry, M_Render, M_Sampler; s: S_Picture, S_Sampler; p: Props_Picture.v: picture.
* **C275** Picture of a diffuse scene lit by point lights - proved. m: M_BVH, M_Film, M_Geometry, M_Material, M_Primitive, M_Sampler, M_Shapes, M_World2; s: S_BVH, S_Picture, S_Reflection, S_Sampler, S_Scene, S_World; p: Props_Picture.v: scene_picture.
* **C276** A medium does not change what the other aggregates report - partial. m: M_Aggregate, M_Aggregate2, M_BVH, M_Geometry; s: S_Aggregate, S_BVH, S_Geometry; p: Props_Aggregate2.v: simple_partial, simple_any_partial, grid_sound_partial, grid_refuted. Full statement false of the code: Violated: in a grid the enlarged box shifts the voxels rays are looked up in, so a ray that starts in an object's box and hits it is reported to miss once a medium far away is added. Over the exhaustive aggregate every query gives the same flag, range and record; over the grid queries stay safe and report only real hits.. Refuted by C276_grid_refuted. What holds: C276_simple_partial, C276_simple_any_partial, C276_grid_sound_partial.
* **C277** Equality and identity of transforms - proved. m: M_Small, M_Transform; s: S_Transform; p: Props_Small.v: equality, same, identity, inverse.
* **C278** Measured scattering coefficients by name - partial. m: M_Small; s: in the statement; p: Props_Small.v: lookup_partial, order_refuted. Full statement false of the code: Violated: the table, taken from pbrt, lists the reduced scattering coefficient first, so the two are returned in the wrong order, e.g. for Marble. Every known name gives two non-negative spectra, those of its row; every other name gives None twice.. Refuted by C278_order_refuted. What holds: C278_lookup_partial.
* **C279** Lights add up - proved. m: M_Geometry, M_Integrator, M_Material, M_Primitive, M_Reflection, M_Shapes, M_World; s: S_Superpose, S_World; p: Props_Superpose.v: superposition, order, materials, world.
* **C280** A hit moves along with the object - proved. m: M_Geometry, M_Shapes, M_Transform; s: S_Motion, S_Shapes, S_Transform; p: Props_Motion.v: sphere, disk, triangle.
* **C281** A scene moved as a whole looks the same - proved. m: M_Geometry, M_Material, M_Primitive, M_Transform, M_World; s: S_Motion2, S_Scene, S_Shapes, S_World; p: Props_Motion.v: rigid, rendered.
* **C282** An octave of noise fades in smoothly - partial. m: M_Texture; s: in the statement; p: Props_Texture2.v: step_refuted, jump_refuted, step_partial, fade_partial. Full statement false of the code: Violated: smooth_step clips to the bounds without rescaling, so for 0 < lo < hi < 1 it never reaches 0 or 1; turbulence therefore drops by at least 0.216 times the absolute noise where the footprint passes one noise cell, at every point where the noise is not 0. What holds: with the bounds 0 and 1 the step is the usual cubic; between one and two noise cells FBm and turbulence are the noise, resp. its absolute value, times a weight that depends on the logarithm of the footprint only: 0.216 up to 0.3 octaves, 0.784 from 0.7 octaves, the cubic in between.. Refuted by C282_step_refuted, C282_jump_refuted. What holds: C282_step_partial, C282_fade_partial.
* **C283** Radiance through mirrors is bounded and never negative - proved. m: M_Geometry, M_Integrator, M_Reflection; s: S_Bounded, S_Integrator; p: Props_Bounded.v: bounded.
* **C284** Choosing one of n by a random number under rounding - proved. m: M_Float, M_Float3; s: in the statement; p: Props_Float5.v: choice, one, density_entry.
* **C285** Bilinear texture lookups under rounding - partial. m: M_Float, M_Float3; s: in the statement; p: Props_Float5.v: weight_partial, value_partial, centre_partial, constant_refuted. Full statement false of the code: Violated: the last clause; a constant 1 + 3*2^-52 comes out as 1 + 2*2^-52 at (3/8, 5/8) of a 2x2 level.. Refuted by C285_constant_refuted. What holds: C285_weight_partial, C285_value_partial, C285_centre_partial.
* **C286** Adding a light never makes anything darker - proved. m: M_Geometry, M_Integrator, M_Material, M_Reflection, M_Shapes, M_World; s: S_Brighter, S_Reflection, S_Superpose, S_World; p: Props_Brighter.v: brighter, materials, world.
* **C287** A mirror does not amplify light - partial. m: M_Material, M_Reflection, M_Shapes; s: S_Geometry, S_Material, S_Reflection; p: Props_Amplify.v: mirror_partial, glass_partial, amplified_refuted. Full statement false of the code: Violated: for surfaces not aligned with the world axes the direction that l2w returns is not the one the weight was computed for; a perfect mirror tilted by the angle of sine 3/5 multiplies light by more than any given factor for some viewing directions.. Refuted by C287_amplified_refuted. What holds: C287_mirror_partial, C287_glass_partial.
* **C288** Direct lighting and Whitted show the same scene - proved. m: M_BVH, M_Geometry, M_Integrator, M_Material, M_Primitive, M_Reflection, M_Sampler, M_World; s: S_BVH, S_Brighter, S_Integrator, S_Reflection, S_Scene, S_Superpose, S_World; p: Props_Agree.v: agree, world, diffuse.
* **C289** Allowing longer light paths never darkens a picture - proved. m: M_Geometry, M_Integrator, M_Primitive, M_Sampler, M_Shapes, M_World; s: S_Brighter, S_Integrator, S_Reflection, S_Superpose, S_World; p: Props_Deeper.v: path, whitted, world.
* **C290** One-surface paths show the direct light on average - proved. m: M_BVH, M_Geometry, M_Integrator, M_Material, M_Primitive, M_Reflection, M_Sampler, M_Shapes, M_World; s: S_BVH, S_Brighter, S_Integrator2, S_Reflection, S_Scene, S_World; p: Props_PathMean.v: mean, diffuse.
* **C291** The picture depends on what is met, not on how it is listed - proved. m: M_Geometry, M_Material, M_Primitive, M_World; s: S_Order, S_Scene, S_World; p: Props_Order.v: what_is_met, any_order.
* **C292** Picture by direct lighting of a diffuse scene - proved. m: M_BVH, M_Film, M_Geometry, M_Integrator, M_Material, M_Primitive, M_Sampler, M_Shapes, M_World2; s: S_BVH, S_Picture, S_Reflection, S_Sampler, S_Scene, S_Superpose, S_World; p: Props_Picture2.v: direct_picture.
* **C293** Whether a line meets a sphere or a cylinder is decided correctly in float64 - partial. m: M_Float, M_Float4; s: S_Shapes; p: Props_Float6.v: error, sphere_partial, cylinder_partial, far_refuted, cylinder_refuted. Full statement false of the code: Violated: from 2^27 units away a ray through the very centre of a sphere of radius 1/2 computes a discriminant of 0 and misses; a line passing beside a thin cylinder computes a positive one and goes on.. Refuted by C293_far_refuted, C293_cylinder_refuted. What holds: C293_sphere_partial, C293_cylinder_partial.
* **C294** A ray cannot slip between two triangles that share an edge (float64) - partial. m: M_Float4, M_Geometry; s: in the statement; p: Props_Float7.v: whole_partial, range, crack_refuted. Full statement false of the code: Violated: for the two halves of a parallelogram with small whole-number corners there is a ray through their common edge which both reject, since b1 + b2 rounds to 1 + 2^-52.. Refuted by C294_crack_refuted. What holds: C294_whole_partial.
* **C295** A mirror shows the mirrored scene - partial. m: M_Geometry, M_Integrator, M_Material, M_Primitive, M_Reflection, M_Shapes, M_World; s: S_Geometry, S_Material, S_Mirror, S_Reflection, S_Superpose; p: Props_Mirror.v: mirror_partial, limit, world_partial, direction_refuted. Full statement false of the code: Violated: an upright mirror, whose frame is not aligned, returns black although the ray thrown back returns white.. Refuted by C295_direction_refuted. What holds: C295_mirror_partial, C295_world_partial.
* **C296** Glass shows what it mirrors and what is behind it - partial. m: M_Geometry, M_Integrator, M_Material, M_Reflection, M_Shapes; s: S_Geometry, S_Material, S_Mirror, S_Reflection, S_Superpose; p: Props_Glass.v: glass_partial, behind_refuted. Full statement false of the code: Violated: the transmitted part is missing: a pane of clear glass in front of a white direction straight behind it looks black.. Refuted by C296_behind_refuted. What holds: C296_glass_partial.
* **C297** Applying and composing transforms in float64 is accurate - proved. m: M_Float2, M_Float5, M_Transform; s: S_Transform; p: Props_Float9.v: point, vector, normal, product, round_trip.
* **C298** Points along rays in float64 are accurate, in object space and in world space - proved. m: M_Float2, M_Float6, M_Geometry, M_Transform; s: S_Transform; p: Props_Float10.v: point, transformed, world.
* **C299** Scenes that look the same give pixel-identical pictures - proved. m: M_Film, M_Geometry, M_Material, M_Primitive, M_Render, M_Sampler, M_World2; s: S_Order, S_Picture, S_Reflection, S_Sampler, S_Scene, S_World; p: Props_SamePicture.v: same_reports, same_picture.
* **C300** Direct lighting shows mirrors and glass as Whitted does, whatever the lights - partial. m: M_Geometry, M_Integrator, M_Material, M_Reflection, M_Sampler, M_Shapes; s: S_Geometry, S_Material, S_Mirror, S_Reflection, S_Superpose; p: Props_Shiny.v: mirror_partial, glass_partial, direction_refuted. Full statement false of the code: Violated: in general: an upright mirror with normal +x shows another direction than the mirrored one, so that the mirror looks black where the ray thrown back sees white.. Refuted by C300_direction_refuted. What holds: C300_mirror_partial, C300_glass_partial.
* **C301** Direct lighting and Whitted give pixel-identical pictures - proved. m: M_Camera, M_Film, M_Geometry, M_Integrator, M_Material, M_Render, M_Renderer, M_Sampler, M_World2; s: S_Brighter, S_Picture, S_Reflection, S_SamePicture, S_Sampler, S_Superpose, S_World; p: Props_SameDirect.v: same_samples, same_picture, cameras.
* **C302** The picture in the light of two groups of lamps is the sum of the two pictures - proved. m: M_Film, M_Geometry, M_Primitive, M_Render, M_Renderer, M_Sampler, M_World2; s: S_Brighter, S_Film, S_Picture, S_Reflection, S_Sampler, S_Superpose, S_World; p: Props_SumPicture.v: sum, world.
* **C303** Lamps c times as strong make a picture c times as bright - partial. m: M_Film, M_Geometry, M_Primitive, M_Render, M_Renderer, M_Sampler, M_World, M_World2; s: S_Brighter, S_Film, S_Integrator2, S_Picture, S_Reflection, S_Sampler, S_Superpose, S_World; p: Props_ScaledPicture.v: scaled, world_partial. What holds: C303_world_partial.
* **C304** More lamps never darken a picture - proved. m: M_Film, M_Geometry, M_Primitive, M_Reflection, M_Render, M_Renderer, M_Sampler, M_World2; s: S_Brighter, S_Film, S_Picture, S_Reflection, S_Sampler, S_Superpose, S_World; p: Props_MoreLightPicture.v: more, world.
* **C305** A higher recursion limit never darkens a picture - proved. m: M_Film, M_Geometry, M_Primitive, M_Reflection, M_Sampler, M_World2; s: S_Brighter, S_Film, S_Picture, S_Reflection, S_Sampler, S_Superpose, S_World; p: Props_DeeperPicture.v: world.
* **C306** A picture is as bright as what its samples saw - proved. m: M_Film, M_Geometry, M_Primitive, M_Reflection, M_Render, M_Renderer, M_Sampler, M_World2; s: S_Film, S_Material, S_Picture, S_Reflection, S_Sampler, S_Scene, S_World; p: Props_PictureRange.v: range, dark, lit.
* **C307** Without light every integrator makes a black picture - proved. m: M_Film, M_Geometry, M_Integrator, M_Primitive, M_Sampler, M_World2, M_World3; s: S_Film, S_Picture, S_Sampler; p: Props_PathPicture.v: dark_direct, dark_path.
