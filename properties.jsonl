{"id": "C01", "title": "Bounding-box union is a least upper bound", "statement": "Folding any list of points and boxes into a bounding box yields a box that contains every one of them and is contained in every other box that does; the result does not depend on the order or on repetitions, and starting from the default (empty) box changes nothing.", "quantifier": "all finite lists of points/boxes, all permutations of the list, all candidate boxes", "why_tests_cant": "The claim ranges over all lists and all orders of folding; Real-valued, unbounded input space: a test can only sample it.", "anchors": ["pytracer/geometry/__init__.py: BBox.__init__, BBox.union, BBox.Union, BBox.inside"]}
{"id": "C02", "title": "Box containment and overlap tests are exact", "statement": "inside(p) is True exactly for the points of the closed box; overlaps(b) is True exactly when two (non-empty) boxes share a point; expanding by delta>=0 keeps every point; surface area and volume of non-empty boxes are non-negative and monotone under enlargement; the reported maximum axis has an extent no smaller than the others.", "quantifier": "all boxes, all points, all non-negative deltas", "why_tests_cant": "Every ray, placement and coefficient; a test marches a few rays.", "anchors": ["pytracer/geometry/__init__.py: BBox.inside, BBox.overlaps, BBox.expand, BBox.surface_area, BBox.volume, BBox.maximum_extent"]}
{"id": "C03", "title": "Copying a box preserves it", "statement": "BBox.from_bbox(b) denotes the same set of points as b, and b != b is never True.", "quantifier": "all boxes obtainable from the constructors and union, including the empty box", "why_tests_cant": "A universally quantified copy/equality law; tests only copy a few boxes.", "anchors": ["pytracer/geometry/__init__.py: BBox.from_bbox, BBox.__init__, BBox.__ne__"]}
{"id": "C04", "title": "Ray/box slab test is exact", "statement": "BBox.intersect_p(r) reports a hit exactly when some parameter t in [mint,maxt] puts r(t) inside the box, and the two parameters it returns delimit exactly the set of such t - also for directions with zero components and origins lying on a face plane.", "quantifier": "all boxes, all rays, all parametric ranges, including zero direction components", "why_tests_cant": "Includes the IEEE infinities/NaNs produced by 0-division on a measure-zero set of inputs that random tests never hit.", "anchors": ["pytracer/geometry/__init__.py: BBox.intersect_p"]}
{"id": "C05", "title": "Box parametrisation and bounding sphere", "statement": "lerp and offset are mutually inverse on boxes with non-zero extents, lerp of parameters in [0,1] stays in the box, and the bounding sphere contains every point of the box and is no larger than any sphere around its two corners; for a box whose corners are exchanged its radius is 0.", "quantifier": "all boxes, all points, all parameters in [0,1]^3", "why_tests_cant": "Every vector, box and ray, including degenerate ones of measure zero which random tests do not draw.", "anchors": ["pytracer/geometry/__init__.py: BBox.lerp, BBox.offset, BBox.bounding_sphere", "pytracer/utility/utility.py: lerp"]}
{"id": "C06", "title": "Direction utilities: normalisation, frames, facing, spherical coordinates", "statement": "normalize yields a unit vector parallel to a non-zero input and leaves the zero vector alone; coordinate_system of a unit vector is an orthonormal triple, of any non-zero vector v the triple (v, b, v x b) with b a unit vector perpendicular to v, and of the zero vector the standard frame; face_forward returns +-n with non-negative dot product; converting a unit vector to (theta, phi) and back gives the same vector, with theta in [0,pi] and phi in (0,2pi].", "quantifier": "all vectors / all unit vectors", "why_tests_cant": "Every vector, box and ray, including degenerate ones of measure zero which random tests do not draw.", "anchors": ["pytracer/geometry/utility.py: normalize, coordinate_system, face_forward, spherical_direction, spherical_theta, spherical_phi"]}
{"id": "C07", "title": "BVH construction is total and loses no primitive", "statement": "For every list of primitives, building the hierarchy terminates without an exception and its reordered primitive list is a permutation of the refined input; the leaves partition that list into consecutive ranges, and the node array has exactly as many nodes as the tree. Of the names for the split method, 'middle' alone selects the middle split and 'equal' alone is refused; every other name selects the surface area heuristic.", "quantifier": "all primitive lists, all world bounds, both split methods, all leaf sizes", "why_tests_cant": "Needs all lists of boxes, including ties, duplicates and degenerate extents; partition code misbehaves only for particular orders.", "anchors": ["pytracer/aggregate/accelerator/bvh.py: BVH.__init__, BVH._recursive_build, BVH._partition, BVH._bucket_partition, BVH._insertion_sort"]}
{"id": "C08", "title": "BVH node bounds enclose their subtrees", "statement": "In the built hierarchy the bounds stored at every node contain the bounds of every primitive below it, and the bounds of the root equal the union of all primitive bounds.", "quantifier": "all built hierarchies, all nodes", "why_tests_cant": "Inductive invariant over trees of any size.", "anchors": ["pytracer/aggregate/accelerator/bvh.py: BVH._recursive_build, _BVHNode.init_inter, _BVHNode.init_leaf, BVH.world_bound"]}
{"id": "C09", "title": "Flattened BVH represents the tree", "statement": "The linear node array is a pre-order layout of the tree: the first child of an interior node is the next entry, the second is at the stored offset, every stored index is in range, and no entry is left uninitialised or written twice.", "quantifier": "all trees", "why_tests_cant": "Inductive invariant over trees of any size and shape.", "anchors": ["pytracer/aggregate/accelerator/bvh.py: BVH._flatten_tree"]}
{"id": "C10", "title": "BVH traversal agrees with testing every primitive", "statement": "Intersecting a ray with the hierarchy finds a hit exactly when some primitive is hit, and then reports the nearest one and shortens the ray to it; the traversal terminates and never indexes outside its stack or node array.", "quantifier": "all hierarchies, rays and primitive sets", "why_tests_cant": "Quantifies over all trees, rays and visiting orders; the fixed-size stack is only exceeded by deep trees that no test builds.", "anchors": ["pytracer/aggregate/accelerator/bvh.py: BVH.intersect, BVH.intersect_p"]}
{"id": "C11", "title": "BVH box rejection is conservative", "statement": "The specialised ray/box test used during traversal never rejects a box containing a point of the ray with parameter strictly between mint and maxt, whatever the sign (or zero-ness) of the direction components.", "quantifier": "all boxes, all rays including zero and negative-zero direction components", "why_tests_cant": "Failing inputs (NaN from 0*inf, negative zero) form a null set.", "anchors": ["pytracer/aggregate/accelerator/bvh.py: BVH._intersect_p"]}
{"id": "C12", "title": "Transforms carry their true inverse", "statement": "For every transform built from identity, translate, scale (non-zero factors), rotate, look_at, orthographic, composition and inverse, applying the transform and then its inverse to a point, vector, normal or ray gives back the argument. A transform built from a bare matrix stores its inverse, and construction fails exactly on singular matrices.", "quantifier": "all finite compositions of constructors with all parameters", "why_tests_cant": "Inductive over arbitrary compositions, real parameters.", "anchors": ["pytracer/transform/__init__.py: Transform.translate, Transform.scale, Transform.rotate, Transform.rotate_x, Transform.rotate_y, Transform.rotate_z, Transform.look_at, Transform.inverse, Transform.__mul__"]}
{"id": "C13", "title": "Composition of transforms is application in sequence", "statement": "(A*B)(x) = A(B(x)) for points, vectors and normals, for affine transforms; translations do not move vectors; handedness swapping is multiplicative.", "quantifier": "all affine transforms and all arguments", "why_tests_cant": "Every composition of transforms and every argument; a test multiplies a few matrices.", "anchors": ["pytracer/transform/__init__.py: Transform.__mul__, Transform.__call__, Transform.swaps_handedness"]}
{"id": "C14", "title": "Normals stay perpendicular to transformed surfaces", "statement": "If a normal is perpendicular to a tangent vector, the transformed normal is perpendicular to the transformed vector, also under non-uniform scale.", "quantifier": "all affine invertible transforms, all normal/tangent pairs", "why_tests_cant": "Every composition of transforms and every argument; a test multiplies a few matrices.", "anchors": ["pytracer/transform/__init__.py: Transform.__call__"]}
{"id": "C15", "title": "Transforming a bounding box bounds the transformed contents", "statement": "For every point p of box b, T(p) lies in T(b).", "quantifier": "all affine transforms, all boxes, all points of the box", "why_tests_cant": "Fails only for some rotations/shears; needs a universally quantified containment.", "anchors": ["pytracer/transform/__init__.py: Transform.__call__", "pytracer/shape/__init__.py: Shape.world_bound"]}
{"id": "C16", "title": "look_at places and orients the camera", "statement": "look_at(pos, look, up), used by the cameras as camera-to-world, maps the camera-space origin to pos and camera-space +z to the unit direction from pos to look.", "quantifier": "all positions and look-at targets with up not parallel to the viewing direction", "why_tests_cant": "Every composition of transforms and every argument; a test multiplies a few matrices.", "anchors": ["pytracer/transform/__init__.py: Transform.look_at"]}
{"id": "C17", "title": "Animated transforms interpolate between their end points", "statement": "Before the start time and after the end time an animated transform equals its first/last transform; a non-animated one is constant in time; motion bounds contain the moved box at every time.", "quantifier": "all pairs of transforms, all times", "why_tests_cant": "All times; tests check a handful.", "anchors": ["pytracer/transform/__init__.py: AnimatedTransform.interpolate, AnimatedTransform.motion_bounds"]}
{"id": "C18", "title": "Quaternion rotations are rigid", "statement": "The transform of any unit quaternion is a rotation (orthogonal matrix of determinant 1); slerp of two unit quaternions is a unit quaternion and hits its end points; converting a rotation matrix to a quaternion and back is the identity. Proved of the conversion: a half turn about an axis that is neither horizontal (z = 0) nor vertical comes back unchanged, by a unit quaternion. (Violated: a quarter turn about z comes back changed, and a half turn about x becomes the zero quaternion, which converts back to the identity.)", "quantifier": "all unit quaternions, all rotation matrices, all parameters", "why_tests_cant": "Every composition of transforms and every argument; a test multiplies a few matrices.", "anchors": ["pytracer/transform/quat.py: Quaternion.to_transform, Quaternion.from_transform, slerp"]}
{"id": "C19", "title": "Sampling routines stay in their domain", "statement": "For all u1,u2 in [0,1): uniform sphere and hemisphere samples are unit vectors (hemisphere: z>=0), disk samples have radius <= 1 (concentric mapping: for every input), triangle barycentrics are non-negative with sum <= 1, cone samples are unit vectors with cosine >= the cone's, phase-function samples are unit vectors.", "quantifier": "all pairs of uniform variates", "why_tests_cant": "Boundary variates are hit with probability zero by random tests.", "anchors": ["pytracer/montecarlo/utility.py: uniform_sample_sphere, uniform_sample_hemisphere, uniform_sample_disk, concentric_sample_disk, uniform_sample_triangle, uniform_sample_cone, sample_hg"]}
{"id": "C20", "title": "Cosine-weighted hemisphere sampling matches its pdf", "statement": "cosine_sample_hemisphere transforms uniform variates so that the cosine of the sample is distributed with density 2z (i.e. z^2 is uniform), the law claimed by cosine_hemisphere_pdf.", "quantifier": "all pairs of uniform variates", "why_tests_cant": "A distributional law; a statistical test gives only confidence.", "anchors": ["pytracer/montecarlo/utility.py: cosine_sample_hemisphere, cosine_hemisphere_pdf"]}
{"id": "C21", "title": "MIS heuristics form a partition of unity", "statement": "Balance and power heuristics lie in [0,1] and the two weights for a pair of strategies sum to 1 (whenever at least one pdf is positive).", "quantifier": "all sample counts and pdfs", "why_tests_cant": "A law over a continuum of random numbers: a test draws finitely many and sees frequencies, not the law.", "anchors": ["pytracer/montecarlo/utility.py: balance_heuristic, power_heuristic"]}
{"id": "C22", "title": "Piecewise-constant 1D distributions are exact", "statement": "For every non-negative function table with positive sum the cumulative table starts at 0, is non-decreasing and ends at 1; sampling maps [0,1) into [0,1), the sampled point's cumulative probability equals the variate (inverse-CDF law), the reported pdf is the normalised function value of the cell the point lies in, and the pdf integrates to one.", "quantifier": "all tables of any length, all variates", "why_tests_cant": "All table lengths and all variates including those equal to a cumulative entry.", "anchors": ["pytracer/montecarlo/distribution.py: Distribution1D.__init__, Distribution1D.sample_cont, Distribution1D.sample_dis"]}
{"id": "C23", "title": "Piecewise-constant 2D distributions are exact", "statement": "Distribution2D sampling returns a point of [0,1)^2 whose pdf equals pdf(u,v) at that point.", "quantifier": "all tables, all variates", "why_tests_cant": "All table sizes and all variates.", "anchors": ["pytracer/montecarlo/distribution.py: Distribution2D.__init__, Distribution2D.sample_cont, Distribution2D.pdf"]}
{"id": "C24", "title": "The stratified sampler covers the image exactly once", "statement": "Repeatedly asking a stratified sampler for samples yields exactly one batch per pixel of its window, in raster order, each batch containing xSamples*ySamples samples whose image positions lie in that pixel, and afterwards reports exhaustion for ever.", "quantifier": "all non-empty windows, all sampling rates, all random streams, any number of calls", "why_tests_cant": "Requires all window sizes, all random streams and the whole call history.", "anchors": ["pytracer/sampler/sampler/stratified.py: StratifiedSampler.generate, StratifiedSampler.__init__", "pytracer/sampler/sampler/__init__.py: Sampler"]}
{"id": "C25", "title": "Stratification: one sample per stratum", "statement": "Stratified 1D/2D sample generation puts exactly one value in each stratum of [0,1) (jittered or not), and latin-hypercube sampling puts exactly one value in each stratum of every dimension for every random stream and every shuffle.", "quantifier": "all sample counts, dimensions and random streams", "why_tests_cant": "All random streams.", "anchors": ["pytracer/sampler/utility.py: stratified_sample_1d, stratified_sample_2d, latin_hypercube_1d, latin_hypercube_2d"]}
{"id": "C26", "title": "Tiling the image is a partition", "statement": "Splitting a sampler into sub-samplers assigns every pixel of the window to exactly one sub-sampler.", "quantifier": "all windows, all numbers of tasks", "why_tests_cant": "All window offsets and counts; failures need particular remainders or crop windows.", "anchors": ["pytracer/sampler/sampler/__init__.py: Sampler.compute_subwindow", "pytracer/sampler/sampler/stratified.py: StratifiedSampler.get_subsampler"]}
{"id": "C27", "title": "Film accumulation only touches the filter footprint and never leaves the image", "statement": "Adding a sample never writes outside the pixel array, uses only filter-table entries in range, and leaves unchanged every pixel whose centre is farther than the filter width from the sample.", "quantifier": "all film/crop sizes, all filters, all sample positions", "why_tests_cant": "All positions, including image borders and beyond.", "anchors": ["pytracer/film/film.py: ImageFilm.add_sample"]}
{"id": "C28", "title": "Film accumulation is independent of the order of samples", "statement": "The accumulated image depends only on the multiset of samples added, not on the order (exact arithmetic).", "quantifier": "all finite sample sequences and permutations", "why_tests_cant": "All permutations.", "anchors": ["pytracer/film/film.py: ImageFilm.add_sample, ImageFilm.splat"]}
{"id": "C29", "title": "Concurrent film updates are not lost", "statement": "When several worker threads add samples to one film, every interleaving yields the image a sequential run would produce.", "quantifier": "all numbers of threads, all samples, all interleavings of the threads' steps", "why_tests_cant": "All schedules: a test observes only a few interleavings.", "anchors": ["pytracer/film/film.py: ImageFilm.add_sample, ImageFilm.splat", "pytracer/renderer/renderer.py: SamplerRenderer.render"]}
{"id": "C30", "title": "Film reconstruction is a weighted average", "statement": "The written value of a pixel is the filter-weighted average of the radiances of the samples covering it, clamped at 0; in particular equal radiance everywhere is reproduced exactly, and averages stay between min and max for non-negative filters.", "quantifier": "all sample sets, all non-negative filters", "why_tests_cant": "All sample multisets.", "anchors": ["pytracer/film/film.py: ImageFilm.write_image, ImageFilm.add_sample"]}
{"id": "C31", "title": "Crop windows select the requested fraction of the image", "statement": "A crop window [x0,x1]x[y0,y1] makes the film cover exactly the pixels ceil(x0*xres)..ceil(x1*xres)-1 by ceil(y0*yres)..ceil(y1*yres)-1 (at least one each), and samples needed for these pixels lie in the reported sample extent.", "quantifier": "all resolutions and crop windows", "why_tests_cant": "All resolutions and crops; the failing ones need xres != yres.", "anchors": ["pytracer/film/film.py: ImageFilm.__init__, ImageFilm.get_sample_extent, ImageFilm.get_pixel_extent"]}
{"id": "C32", "title": "Reconstruction filters are bounded symmetric kernels", "statement": "Every filter is even in x and y; box, triangle and Gaussian are non-negative everywhere and triangle/Gaussian vanish at and beyond the width. Mitchell weights of samples spaced by half a width sum to one. The windowed sinc vanishes beyond its width and at the non-zero multiples of width/tau, and lies in [0,1], close to 1 near the centre, in its central lobe.", "quantifier": "all filter parameters and offsets", "why_tests_cant": "Every filter parameter and offset; a test evaluates a few points.", "anchors": ["pytracer/filter/filter.py"]}
{"id": "C33", "title": "A plain list of primitives reports the nearest hit", "statement": "Intersecting a ray with the exhaustive aggregate reports a hit iff some primitive is hit within the ray's range and the intersection record describes the nearest.", "quantifier": "all primitive lists and rays", "why_tests_cant": "All orders of primitives along the ray.", "anchors": ["pytracer/aggregate/aggregate.py: SimpleAggregate.intersect, SimpleAggregate.intersect_p"]}
{"id": "C34", "title": "Full refinement collects exactly the leaves", "statement": "full_refine appends each intersectable descendant exactly once and terminates for every finite refinement hierarchy.", "quantifier": "all finite refinement trees", "why_tests_cant": "All trees.", "anchors": ["pytracer/aggregate/primitive.py: Primitive.full_refine"]}
{"id": "C35", "title": "Uniform grid registers every primitive in every voxel it overlaps", "statement": "The voxel resolution is between 1 and 64 per axis, every position maps to a valid voxel index, and every primitive is listed in each voxel its bounds overlap.", "quantifier": "all primitive sets", "why_tests_cant": "All extents and counts.", "anchors": ["pytracer/aggregate/aggregate.py: GridAccel.__init__, GridAccel.pos2voxel, GridAccel.voxel2pos, GridAccel.offset"]}
{"id": "C36", "title": "Ray/triangle intersection is sound and complete", "statement": "For a ray not parallel to the face's plane, the triangle test succeeds exactly when the ray meets the triangle within its parameter range, and the reported parameter and point are the intersection; the shadow test returns the same verdict (including exceptions); the face's bound is the smallest box around the triangle.", "quantifier": "all well-indexed meshes (any vertices, transforms, attributes and alpha texture for soundness), all faces, all rays", "why_tests_cant": "Every shape, placement and ray; edges, poles, seams and tangent rays have measure zero and random tests do not hit them.", "anchors": ["pytracer/shape/triangle.py: Triangle.intersect, Triangle.intersect_p, Triangle.world_bound, Triangle.object_bound"]}
{"id": "C37", "title": "Triangle area sampling yields points of the triangle", "statement": "Sampling a mesh face returns a point of that face with a unit normal perpendicular to it, and its area is half the parallelogram's.", "quantifier": "all meshes, faces and variates", "why_tests_cant": "All index buffers.", "anchors": ["pytracer/shape/triangle.py: Triangle.sample"]}
{"id": "C38", "title": "Ray/sphere intersection is sound and nearest", "statement": "A reported sphere hit lies on the (partial) sphere and in the parametric range, no earlier point of the ray in range lies on the surface, a ray that meets the sphere with object-space discriminant above the code's threshold is reported, and the shadow test agrees.", "quantifier": "all radii, partial-sphere parameters and rays", "why_tests_cant": "Every shape, placement and ray; edges, poles, seams and tangent rays have measure zero and random tests do not hit them.", "anchors": ["pytracer/shape/sphere.py: Sphere.intersect, Sphere.intersect_p"]}
{"id": "C39", "title": "Disk and cylinder shadow tests are exact", "statement": "The shadow test of a (partial) disk or cylinder succeeds exactly when some point of the ray in its parameter range lies on the surface, for rays above the code's parallelism threshold (disk) or properly crossing the infinite cylinder.", "quantifier": "all disk/cylinder parameters and rays", "why_tests_cant": "Every shape, placement and ray; edges, poles, seams and tangent rays have measure zero and random tests do not hit them.", "anchors": ["pytracer/shape/disk.py: Disk.intersect, Disk.intersect_p, Disk.sample", "pytracer/shape/cylinder.py: Cylinder.intersect, Cylinder.intersect_p"]}
{"id": "C40", "title": "Loop subdivision preserves the topology of the control mesh", "statement": "For every triangulated surface (consistently oriented, each vertex one fan, with or without border), construction and every refinement level succeed and yield a triangulated surface again: each level replaces each triangle by four through exactly one new vertex per edge, so faces are multiplied by 4 and V - E + F never changes.", "quantifier": "all triangulated surfaces, all refinement depths", "why_tests_cant": "All meshes and depths.", "anchors": ["pytracer/shape/loopsubdiv.py: LoopSubdiv.refine", "pytracer/shape/loopsubdiv.py: LoopSubdiv.__init__"]}
{"id": "C41", "title": "BSDF shading frames are orthonormal", "statement": "For every surface patch whose tangents are not parallel, the BSDF built from it uses three mutually orthogonal unit axes whose third is the shading normal; converting world directions to that frame preserves every length and angle, and the third local coordinate is the cosine with the normal. Adding lobes never changes the frame.", "quantifier": "all differential geometries with non-parallel tangents, all lobe lists, all pairs of directions", "why_tests_cant": "Every pair of directions and every parameter; grazing, polar and total-reflection directions have measure zero.", "anchors": ["pytracer/reflection/bsdf.py: BSDF.w2l, BSDF.l2w"]}
{"id": "C42", "title": "BSDF component selection is consistent", "statement": "num_components counts exactly the lobes whose type bits are contained in the request; for every variate in [0,1) sampling picks the floor(u*n)-th of them, divides the density by n and reports its type; with no match it returns nothing; evaluation sums exactly the matching reflective (transmissive) lobes for directions on the same (opposite) side of the geometric normal; the density is the average over the matching lobes.", "quantifier": "all lobe lists, flags, directions and variates", "why_tests_cant": "All flag combinations and lobe lists.", "anchors": ["pytracer/reflection/bsdf.py: BSDF.n_components, BSDF.sample_f, BSDF.f, BSDF.pdf", "pytracer/reflection/bdf/bdf.py: BDFType, BDF.match_flag"]}
{"id": "C43", "title": "Reflectance models are reciprocal", "statement": "f(wo,wi)=f(wi,wo) for Lambertian, Oren-Nayar, microfacet (both distributions, all Fresnel terms), Fresnel-blend and measured lobes, their transmission adapters, and any BSDF built from them.", "quantifier": "all pairs of unit directions off the tangent plane, all parameters, all lobe lists", "why_tests_cant": "Every pair of directions and every parameter; grazing, polar and total-reflection directions have measure zero.", "anchors": ["pytracer/reflection/bdf/bdf.py: Lambertian, BRDF2BTDF", "pytracer/reflection/bdf/orennayar.py: OrenNayar", "pytracer/reflection/bdf/torrance.py: Microfacet, Blinn, Anisotropic", "pytracer/reflection/bdf/fresnelblend.py: FresnelBlend", "pytracer/reflection/bdf/measured.py: IrIsotropicBRDF, ReHalfangleBRDF", "pytracer/reflection/bsdf.py: BSDF.f"]}
{"id": "C44", "title": "Fresnel reflectance is a fraction", "statement": "Conductor reflectance, and dielectric reflectance seen from the thinner medium, lie in [0,1] for every cosine; total internal reflection gives exactly 1.", "quantifier": "all indices of refraction and absorption, all cosines", "why_tests_cant": "Every pair of directions and every parameter; grazing, polar and total-reflection directions have measure zero.", "anchors": ["pytracer/reflection/fresnel.py: FresnelDielectric, FresnelConductor", "pytracer/reflection/utility.py: fr_diel, fr_cond"]}
{"id": "C45", "title": "Specular sampling stays on the mirror / refraction geometry", "statement": "Specular reflection returns the mirror direction with density 1; specular transmission returns a unit direction strictly on the other side, with tangential part antiparallel to the incoming one, or nothing exactly at total internal reflection.", "quantifier": "all unit directions, all index pairs", "why_tests_cant": "Every pair of directions and every parameter; grazing, polar and total-reflection directions have measure zero.", "anchors": ["pytracer/reflection/bdf/bdf.py: SpecularReflection.sample_f, SpecularTransmission.sample_f"]}
{"id": "C46", "title": "Lobe sampling agrees with its density and value", "statement": "For every diffuse, microfacet and Fresnel-blend lobe, a sampled direction is a unit vector, its reported density equals the lobe density at the sampled pair, its value equals f there, and samples on the wrong side carry no energy; a Lambertian one-sample estimate f cos/pdf is exactly the reflectance.", "quantifier": "all such lobes, unit outgoing directions and variates in [0,1]^2", "why_tests_cant": "Every pair of directions and every parameter; grazing, polar and total-reflection directions have measure zero.", "anchors": ["pytracer/reflection/bdf/bdf.py: BDF.sample_f, BDF.pdf, Lambertian", "pytracer/reflection/bdf/torrance.py: Microfacet, Blinn, Anisotropic", "pytracer/reflection/bdf/fresnelblend.py: FresnelBlend"]}
{"id": "C47", "title": "RGB/XYZ conversion is linear and invertible within tolerance; spectra interpolate and clamp per coefficient", "statement": "Converting RGB to XYZ and back differs from the colour by at most 1e-6 times its magnitude; both conversions are linear; luminance y() is the Y component, is 1 for white and lies between 0 and the largest channel; interpolating two spectra stays between them and hits both ends; clip makes every coefficient non-negative and changes no non-negative spectrum; is_black holds exactly when all coefficients are below the tolerance.", "quantifier": "all colours, all spectra of any length, all interpolation parameters in [0,1]", "why_tests_cant": "Every spectrum and wavelength interval; the wrong ones end on a table entry, which random tests do not hit.", "anchors": ["pytracer/spectral/spectrum.py: xyz2rgb, rgb2xyz, RGBSpectrum"]}
{"id": "C48", "title": "Spectral resampling averages the curve", "statement": "Averaging a piecewise-linear spectrum over [l0,l1] leaves its inputs unmodified and, when l1 is not itself an interior sample wavelength, returns the area under the curve (ends extended by constants) divided by l1-l0, hence a value between the smallest and the largest sample.", "quantifier": "all sorted wavelength tables of any length, all intervals", "why_tests_cant": "All tables and intervals, including end points coinciding with samples.", "anchors": ["pytracer/spectral/spectrum.py: SampledSpectrum.average_spectrum_samples"]}
{"id": "C49", "title": "Attribute and transform stacks restore the graphics state", "statement": "After attribute_begin ... attribute_end (or transform_begin ... transform_end) with any balanced calls in between, the current transforms, the stacks and the graphics state are what they were before.", "quantifier": "all call histories before, all well-nested call sequences between the pair", "why_tests_cant": "All histories of API calls.", "anchors": ["pytracer/interface/api.py: attribute_begin, attribute_end, transform_begin, transform_end, trans_translate"]}
{"id": "C50", "title": "One initialisation per session, and options kept as set", "statement": "After any history of calls, system_init succeeds exactly when the session is not initialised and otherwise raises and changes nothing; option setters before initialisation raise and change nothing, afterwards they keep the last value of their kind and leave the other kinds alone, and the transformation times are the last ones set; so the options after any history are those its calls set, one after another, from the defaults; system_clean always ends the session and is idempotent.", "quantifier": "all call histories", "why_tests_cant": "All histories.", "anchors": ["pytracer/interface/api.py: system_init, system_clean, set_pixel_filter, set_film, set_camera, set_sampler, set_transformation_time", "pytracer/interface/option.py"]}
{"id": "C51", "title": "Parameter sets are first-in-first-out per type", "statement": "For every history of pushes and enumerations, the values pushed for a parameter type are returned in push order, independently of other types, each once, until exhausted; has_more says whether any is left; unknown types raise and change nothing.", "quantifier": "all push/fetch histories", "why_tests_cant": "All histories.", "anchors": ["pytracer/interface/parameter.py: Param.push_back, enum, fetch, has_more"]}
{"id": "C52", "title": "Path tracing terminates within the depth bound", "statement": "Radiance estimation along one camera ray terminates and casts at most max_depth further rays, whatever the scene, materials and random numbers; the recursive integrators (Whitted, direct lighting) terminate with at most 2^m - 1 surface interactions, m = max(1, max_depth - depth of the ray).", "quantifier": "all scenes, materials, random streams, non-negative depths", "why_tests_cant": "All scenes and random streams.", "anchors": ["pytracer/integrator/surface/path.py:PathIntegrator.li", "pytracer/integrator/surface/whitted.py:WhittedIntegrator.li", "pytracer/integrator/surface/direct.py:DirectLightingIntegrator.li"]}
{"id": "C53", "title": "Only sane radiance reaches the film", "statement": "Whatever the integrator returns, the radiance handed to the film is either black or the integrator's value, has no NaN component, no infinite luminance and no luminance below the negative tolerance; unless it holds infinities of opposite sign it is finite. (Refuted in full: opposite infinities give a NaN luminance and pass.)", "quantifier": "all integrator results, including NaN and infinities", "why_tests_cant": "All integrator outputs including NaN/inf.", "anchors": ["pytracer/renderer/renderer.py:SamplerRendererTask.__call__"]}
{"id": "C54", "title": "Shadow rays test exactly the open segment between the two points", "statement": "For any two distinct points, the visibility test built for them shoots a ray whose tested parameter range consists of exactly the points p1 + s(p2-p1) with eps1/|p2-p1| <= s <= 1-eps2; parameter 0 is p1 and |p2-p1| is p2; with positive tolerances every tested point lies strictly between the two points; the ray carries the given time.", "quantifier": "all pairs of distinct points, tolerances and times", "why_tests_cant": "Every position, direction and parameter of the light; the boundaries of cones and poles have measure zero.", "anchors": ["pytracer/light/utility.py:VisibilityTester.set_segment"]}
{"id": "C55", "title": "Point light obeys the inverse-square law", "statement": "For every shading point other than the light's position, a point light's sample is its intensity divided by the squared distance, with a unit direction that leads exactly to the light, probability 1, and a visibility test over the segment between the two.", "quantifier": "all light-to-world transforms, intensities, shading points, tolerances, times", "why_tests_cant": "Every position, direction and parameter of the light; the boundaries of cones and poles have measure zero.", "anchors": ["pytracer/light/light.py:PointLight.sample_l"]}
{"id": "C56", "title": "Texel access is in range for every wrap mode", "statement": "Looking up any integer texel coordinate never fails. With repeat the image has its own period in each direction, with clamp the nearest edge texel is returned, with black the texel inside the image and 0 outside.", "quantifier": "all image sizes, levels and integer coordinates", "why_tests_cant": "All integers.", "anchors": ["pytracer/texture/utility.py: MIPMap.texel"]}
{"id": "C57", "title": "Image pyramids and filters are averages", "statement": "For an image whose sides are powers of two the map can be built, and every lookup (by width, and by footprint when trilinear) succeeds with a value between the minimum and maximum of the image (black wrap: of the image and 0); constant images look up to the constant. A trilinear lookup over a footprint is the lookup by width, the width being twice the largest derivative.", "quantifier": "all images, coordinates and widths", "why_tests_cant": "Every point and filter width; cell borders, wrap-around and degenerate footprints have measure zero.", "anchors": ["pytracer/texture/utility.py: MIPMap.__init__, MIPMap.__triangle, MIPMap.look_up"]}
{"id": "C58", "title": "Constant, scale, mix, bilinear and UV textures", "statement": "Constant and scale textures give the constant and the product. Mix and bilinear textures match their inputs at the ends and corners and stay within their range for amounts in [0,1]. The UV texture shows the fractional parts of the coordinates.", "quantifier": "all texture coordinates and amounts in [0,1]", "why_tests_cant": "Every point and filter width; cell borders, wrap-around and degenerate footprints have measure zero.", "anchors": ["pytracer/texture/texture/__init__.py: ConstantTexture, ScaleTexture, MixTexture, BilerpTexture, UVTexture"]}
{"id": "C59", "title": "Phase functions are positive, symmetric and normalised", "statement": "The isotropic, Rayleigh, hazy and murky Mie and Henyey-Greenstein (|g|<1) phase functions are positive for unit directions, symmetric, and integrate to 1 over the sphere of directions; Henyey-Greenstein with g>0 favours the directions closer to the given one.", "quantifier": "all unit directions, frames and asymmetry parameters |g|<1", "why_tests_cant": "Every ray, placement and coefficient; a test marches a few rays.", "anchors": ["pytracer/volume/utility.py: phase_isotrophic, phase_rayleigh, phase_mie_hazy, phase_mie_murky, phase_hg"]}
{"id": "C60", "title": "Optical thickness of a homogeneous medium", "statement": "For a homogeneous medium placed without a transform, tau(ray) is extinction times the length of the part of the ray inside the box (0 if there is none); it splits additively at every point of the ray and is non-negative for non-negative coefficients.", "quantifier": "all media, rays, parameter ranges", "why_tests_cant": "Every ray, placement and coefficient; a test marches a few rays.", "anchors": ["pytracer/volume/volume.py: HomogeneousVolumeDensity.tau, intersect_p"]}
{"id": "C61", "title": "Integer/float helpers", "statement": "is_pow_2 accepts exactly the powers of two and 0; next_pow_2 is the least power of two not below its argument and fixes powers of two; ftoi/ctoi/rtoi are floor, ceiling and a nearest integer; the tolerance tests are exact absolute-value tests and never contradictory; lerp stays in range, hits the ends and is monotone.", "quantifier": "all integers / reals", "why_tests_cant": "All integers.", "anchors": ["pytracer/utility/utility.py: is_pow_2, next_pow_2, ftoi, ctoi, rtoi, lerp, eq_unity, ne_unity, is_zero, not_zero, is_black"]}
{"id": "C62", "title": "Transforming a ray differential transforms all three rays", "statement": "T(rd) has its main ray and both offset rays (rxOrigin, rxDirection, ryOrigin, ryDirection) transformed by T.", "quantifier": "all affine transforms and ray differentials", "why_tests_cant": "Real-valued, unbounded input space; offsets are only visible in texture filtering.", "anchors": ["pytracer/transform/__init__.py: Transform.__call__", "pytracer/geometry/__init__.py: RayDifferential"]}
{"id": "C63", "title": "Samplers have the distribution their pdf claims", "statement": "For every variate pair, the sphere/hemisphere/disk/concentric-disk/triangle/cone/Henyey-Greenstein samplers satisfy the inverse-CDF relation of the density they document (z uniform, squared radius uniform, cosine uniform on the cone, HG cumulative distribution of the cosine equals the variate).", "quantifier": "all uniform variates, all cone angles, all |g|<1", "why_tests_cant": "A distributional law for all variates; statistical tests give only confidence.", "anchors": ["pytracer/montecarlo/utility.py: uniform_sample_sphere, uniform_sample_hemisphere, uniform_sample_disk, concentric_sample_disk, uniform_sample_triangle, uniform_sample_cone, sample_hg"]}
{"id": "C64", "title": "Sample requests get their own slots", "statement": "Whatever sequence of 1D and 2D sample requests integrators make on a Sample, every request is given an index of its own within its kind, the slot at that index records the requested size for ever after, and every duplicate of the sample has exactly the same slots.", "quantifier": "all interleavings of 1D/2D requests and all duplicate counts", "why_tests_cant": "All request histories.", "anchors": ["pytracer/sampler/sample.py: Sample.add_1d, Sample.add_2d, Sample.duplicate"]}
{"id": "C65", "title": "Image output keeps every value in byte range and order", "statement": "Writing an image with non-negative values yields bytes in 0..255, never reverses the order of two pixels in a channel and maps the brightest value of a channel to 255; a cropped render is pasted into the existing image at its offset; colours keep their hue. (Violated: writing a crop raises ValueError, or, for a crop of a single pixel, changes nothing; channels are scaled separately.)", "quantifier": "all non-negative images, all crop offsets and sizes", "why_tests_cant": "All images and all crop geometries.", "anchors": ["pytracer/utility/imageio.py: write_image", "pytracer/film/film.py: ImageFilm.write_image"]}
{"id": "C66", "title": "Walking the uniform grid finds the hits", "statement": "Intersecting a ray with the uniform grid terminates, never indexes outside the voxel array, reports only real hits and reports a hit whenever some primitive is hit.", "quantifier": "all primitive sets and rays", "why_tests_cant": "All grids and all ray directions, including axis-parallel ones.", "anchors": ["pytracer/aggregate/aggregate.py: GridAccel.intersect, GridAccel.intersect_p"]}
{"id": "C67", "title": "Lazy voxel refinement is thread-safe", "statement": "However many threads query a voxel concurrently, no query uses a primitive that still needs refinement, every query tests all (refined) primitives in order, every primitive is refined at most once and no schedule deadlocks.", "quantifier": "all schedules of all numbers of threads, all voxel contents", "why_tests_cant": "All interleavings.", "anchors": ["pytracer/aggregate/aggregate.py: Voxel.intersect, Voxel.intersect_p"]}
{"id": "C68", "title": "Disk and cylinder full tests agree with their shadow tests", "statement": "The full intersection test of a disk or cylinder reports a hit with its geometry exactly when the shadow test succeeds.", "quantifier": "all disks, cylinders and rays", "why_tests_cant": "Every shape, placement and ray; edges, poles, seams and tangent rays have measure zero and random tests do not hit them.", "anchors": ["pytracer/shape/disk.py: Disk.intersect", "pytracer/shape/cylinder.py: Cylinder.intersect"]}
{"id": "C69", "title": "Per-vertex attributes belong to the face's vertices", "statement": "The (u,v) coordinates and shading normals used at a face are those given for the vertices the face names.", "quantifier": "all meshes with attributes", "why_tests_cant": "All index buffers and attribute tables.", "anchors": ["pytracer/shape/triangle.py: Triangle.get_uvs, Triangle.get_shading_geometry"]}
{"id": "C70", "title": "Area sampling of quadrics stays on the surface", "statement": "Sampling a cylinder, disk or sphere by area returns a point of the (partial) surface and its normal.", "quantifier": "all parameters and variates in [0,1]", "why_tests_cant": "Every shape, placement and ray; edges, poles, seams and tangent rays have measure zero and random tests do not hit them.", "anchors": ["pytracer/shape/sphere.py: Sphere.sample", "pytracer/shape/disk.py: Disk.sample", "pytracer/shape/cylinder.py: Cylinder.sample"]}
{"id": "C71", "title": "Surface normals, shading frames and ray differentials are consistent", "statement": "The normal reported at a sphere or triangle hit has unit length and is perpendicular to every tangent direction of the surface (also after transforms); triangle tangents reproduce the corners' parameter differences; an interpolated shading frame is orthonormal around the interpolated normal; screen-space differentials are the tangent-plane hits of the offset rays expressed in the tangents.", "quantifier": "all hits, transforms and ray differentials with non-degenerate geometry", "why_tests_cant": "Every vector, box and ray, including degenerate ones of measure zero which random tests do not draw.", "anchors": ["pytracer/geometry/diffgeom.py: DifferentialGeometry", "pytracer/shape/sphere.py: Sphere.intersect", "pytracer/shape/triangle.py: Triangle.intersect, Triangle.get_shading_geometry"]}
{"id": "C72", "title": "Mesh construction, bounds and refinement", "statement": "Creating a mesh succeeds exactly for index lists of length divisible by three that name no vertex beyond the last and attribute tables of matching size; refining yields one triangle per index triple, each once; the mesh bound is the smallest box around the transformed vertices; flat coordinate lists are read three by three.", "quantifier": "all index, vertex and attribute lists", "why_tests_cant": "All list lengths and contents.", "anchors": ["pytracer/shape/triangle.py: create_triangle_mesh, TriangleMesh.refine, TriangleMesh.world_bound"]}
{"id": "C73", "title": "Surface parameters lie in the unit square", "statement": "The (u,v) reported at a hit of a sphere or disk lies in [0,1]^2.", "quantifier": "all hits", "why_tests_cant": "Every shape, placement and ray; edges, poles, seams and tangent rays have measure zero and random tests do not hit them.", "anchors": ["pytracer/shape/sphere.py: Sphere.intersect", "pytracer/shape/disk.py: Disk.intersect"]}
{"id": "C74", "title": "Invalid vertex indices are rejected", "statement": "Creating a mesh whose index list names a vertex that does not exist raises an error.", "quantifier": "all index lists", "why_tests_cant": "All index values.", "anchors": ["pytracer/shape/triangle.py: create_triangle_mesh"]}
{"id": "C75", "title": "Quadric bounds and shape identifiers", "statement": "The object bound of a sphere, cylinder or disk contains the whole surface; shapes created in any number have pairwise distinct identifiers, numbered consecutively in creation order from the class-wide counter, and so do primitives.", "quantifier": "all parameters and surface points; all creation counts", "why_tests_cant": "Every shape, placement and ray; edges, poles, seams and tangent rays have measure zero and random tests do not hit them.", "anchors": ["pytracer/shape/__init__.py: Shape.__init__", "pytracer/aggregate/primitive.py: Primitive.__init__", "pytracer/shape/sphere.py: Sphere.object_bound", "pytracer/shape/disk.py: Disk.object_bound", "pytracer/shape/cylinder.py: Cylinder.object_bound"]}
{"id": "C76", "title": "Local/world conversion round-trips", "statement": "Converting a direction to the BSDF frame and back returns the same direction.", "quantifier": "all shading frames and directions", "why_tests_cant": "Every pair of directions and every parameter; grazing, polar and total-reflection directions have measure zero.", "anchors": ["pytracer/reflection/bsdf.py: BSDF.w2l, BSDF.l2w"]}
{"id": "C77", "title": "BSDF sampling agrees with BSDF evaluation", "statement": "The density and value returned by BSDF.sample_f are those BSDF.pdf and BSDF.f report for the sampled pair.", "quantifier": "all BSDFs, directions and variates", "why_tests_cant": "Every pair of directions and every parameter; grazing, polar and total-reflection directions have measure zero.", "anchors": ["pytracer/reflection/bsdf.py: BSDF.sample_f, BSDF.f, BSDF.pdf"]}
{"id": "C78", "title": "Dielectric Fresnel reflectance is correct for every index pair", "statement": "The dielectric reflectance is a fraction, and equals the Fresnel formula, for every pair of indices.", "quantifier": "all index pairs and cosines", "why_tests_cant": "Every pair of directions and every parameter; grazing, polar and total-reflection directions have measure zero.", "anchors": ["pytracer/reflection/fresnel.py: FresnelDielectric", "pytracer/reflection/utility.py: fr_diel"]}
{"id": "C79", "title": "Specular transmission obeys Snell's law", "statement": "The transmitted direction satisfies eta_i sin(theta_i) = eta_t sin(theta_t) with the indices of the media actually crossed, and light entering a denser medium is never totally reflected.", "quantifier": "all unit directions, all index pairs", "why_tests_cant": "Every pair of directions and every parameter; grazing, polar and total-reflection directions have measure zero.", "anchors": ["pytracer/reflection/bdf/bdf.py: SpecularTransmission.sample_f"]}
{"id": "C80", "title": "Lobe adapters are transparent", "statement": "The transmission adapter is the wrapped lobe mirrored to the other side (value, sampling and density), and the scaling adapter multiplies the wrapped lobe by the given spectrum.", "quantifier": "all wrapped lobes, directions, variates", "why_tests_cant": "Every pair of directions and every parameter; grazing, polar and total-reflection directions have measure zero.", "anchors": ["pytracer/reflection/bdf/bdf.py: BRDF2BTDF, ScaledBDF"]}
{"id": "C81", "title": "Reflectance and densities are non-negative", "statement": "Every lobe with non-negative parameters has non-negative value for direction pairs on its side, and non-negative density; geometric attenuation lies in [0,1]; Oren-Nayar with zero roughness is Lambertian.", "quantifier": "all lobes, parameters and unit directions", "why_tests_cant": "Every pair of directions and every parameter; grazing, polar and total-reflection directions have measure zero.", "anchors": ["pytracer/reflection/bdf/bdf.py: Lambertian", "pytracer/reflection/bdf/orennayar.py: OrenNayar", "pytracer/reflection/bdf/torrance.py: Microfacet, Blinn, Anisotropic", "pytracer/reflection/bdf/fresnelblend.py: FresnelBlend"]}
{"id": "C82", "title": "Measured BRDF lookups are safe and bounded", "statement": "Table lookups never index outside the table; irregular-sample lookups end after at most 16 radius doublings, are symmetric in the two directions, and return a value within the range of the samples.", "quantifier": "all tables, sample sets, k-d tree answers and directions", "why_tests_cant": "All tables and tree answers; a test covers a few.", "anchors": ["pytracer/reflection/bdf/measured.py: IrIsotropicBRDF, ReHalfangleBRDF", "pytracer/reflection/utility.py: brdf_remap"]}
{"id": "C83", "title": "Measured table cells are all reachable", "statement": "The half-angle table lookup depends on the directions: for each cell there is a pair of directions that reads it.", "quantifier": "all tables and directions", "why_tests_cant": "Over all direction pairs.", "anchors": ["pytracer/reflection/bdf/measured.py: ReHalfangleBRDF"]}
{"id": "C84", "title": "Microfacet lobes are non-negative everywhere", "statement": "A microfacet lobe evaluated for any pair of unit directions is not negative.", "quantifier": "all unit direction pairs", "why_tests_cant": "Every pair of directions and every parameter; grazing, polar and total-reflection directions have measure zero.", "anchors": ["pytracer/reflection/bdf/torrance.py: Microfacet"]}
{"id": "C85", "title": "Spectral averages are right for every interval", "statement": "The average over [l0,l1] is the mean of the curve there also when l1 is one of the sample wavelengths; a constant curve averages to the constant.", "quantifier": "all sorted tables and intervals", "why_tests_cant": "Every spectrum and wavelength interval; the wrong ones end on a table entry, which random tests do not hit.", "anchors": ["pytracer/spectral/spectrum.py: SampledSpectrum.average_spectrum_samples"]}
{"id": "C86", "title": "Resampling uses the 30 bins between 400 and 700 nm", "statement": "Coefficient i of a spectrum built from samples, and of the built-in matching curves, is the mean of the curve over [400+10i, 410+10i].", "quantifier": "all sample tables, all bins", "why_tests_cant": "Every spectrum and wavelength interval; the wrong ones end on a table entry, which random tests do not hit.", "anchors": ["pytracer/spectral/spectrum.py: SampledSpectrum.from_sampled, SampledSpectrum.init"]}
{"id": "C87", "title": "Spectra from RGB combine the right basis curves", "statement": "from_rgb returns (clamped) white for the smallest channel, the secondary colour for the middle one and the primary of the largest channel for the rest.", "quantifier": "all RGB triples, all basis curves", "why_tests_cant": "Every spectrum and wavelength interval; the wrong ones end on a table entry, which random tests do not hit.", "anchors": ["pytracer/spectral/spectrum.py: SampledSpectrum.from_rgb"]}
{"id": "C88", "title": "round_pow_2 rounds to the nearest power of two", "statement": "round_pow_2(x) is a power of two and no other power of two is closer to x.", "quantifier": "all positive integers", "why_tests_cant": "All integers.", "anchors": ["pytracer/utility/utility.py: round_pow_2"]}
{"id": "C89", "title": "Unmatched block ends are ignored", "statement": "attribute_end or transform_end without a matching begin reports an error and leaves the state unchanged.", "quantifier": "all call histories", "why_tests_cant": "Must hold for every history of calls; a test runs a few.", "anchors": ["pytracer/interface/api.py: attribute_end, transform_end"]}
{"id": "C90", "title": "Named coordinate systems are snapshots", "statement": "add_coordinate_system(name) records the current transforms: set_coordinate_system(name) later restores them, whatever transformations were made in between, and an unknown name is rejected.", "quantifier": "all call histories", "why_tests_cant": "Must hold for every history of calls; a test runs a few.", "anchors": ["pytracer/interface/api.py: add_coordinate_system, set_coordinate_system"]}
{"id": "C91", "title": "The current transformation is the product of the calls in order", "statement": "From any reachable state, after trans_identity/world_begin/trans_set (or from current transforms x, y) a sequence of translate, rotate, scale, look_at and concat calls leaves x*t1*...*tn, y*t1*...*tn as current transforms.", "quantifier": "all call histories, all sequences of transform calls", "why_tests_cant": "Must hold for every history of calls; a test runs a few.", "anchors": ["pytracer/interface/api.py: trans_identity, trans_translate, trans_rotate, trans_scale, trans_look_at, trans_concat, trans_set, world_begin"]}
{"id": "C92", "title": "set_camera captures the camera transform", "statement": "set_camera records the inverses of the current transforms as camera-to-world, and no later call changes what was recorded unless it re-initialises, sets the camera again, or makes the system named \"camera\" current.", "quantifier": "all call histories before and after", "why_tests_cant": "Must hold for every history of calls; a test runs a few.", "anchors": ["pytracer/interface/api.py: set_camera"]}
{"id": "C93", "title": "Calls before initialisation are rejected", "statement": "Every API call made before system_init raises and leaves the state unchanged.", "quantifier": "all calls", "why_tests_cant": "Must hold for every history of calls; a test runs a few.", "anchors": ["pytracer/interface/api.py: check_system_inited, trans_identity, world_begin"]}
{"id": "C94", "title": "system_clean resets the session", "statement": "After system_clean and a new system_init the state is that of a fresh session.", "quantifier": "all call histories", "why_tests_cant": "Must hold for every history of calls; a test runs a few.", "anchors": ["pytracer/interface/api.py: system_clean, system_init"]}
{"id": "C95", "title": "The interface package can be imported", "statement": "Importing pytracer.interface succeeds.", "quantifier": "the module's definitions, for any set of names bound at run time that excludes the type-checking-only imports", "why_tests_cant": "The failure happens before any test of the package can run.", "anchors": ["pytracer/interface/api.py: system_init", "pytracer/interface/__init__.py"]}
{"id": "C96", "title": "Spot light falloff is a monotone profile in [0,1]", "statement": "For any spot light with 0 <= falloff start < total width <= 180 degrees, the falloff of every direction lies in [0,1], is 1 inside the inner cone, 0 outside the outer cone, and never increases with the angle from the axis.", "quantifier": "all transforms, cone widths and directions", "why_tests_cant": "Every position, direction and parameter of the light; the boundaries of cones and poles have measure zero.", "anchors": ["pytracer/light/light.py:SpotLight.__falloff"]}
{"id": "C97", "title": "Spot and goniophotometric lights attenuate by profile and distance", "statement": "A spot or goniophotometric light's sample is its intensity times its angular profile divided by the squared distance (refuted: profile divides, distance is ignored); its direction and visibility segment lead to the light.", "quantifier": "all transforms, intensities, cones, images, shading points", "why_tests_cant": "Every position, direction and parameter of the light; the boundaries of cones and poles have measure zero.", "anchors": ["pytracer/light/light.py:SpotLight.sample_l", "pytracer/light/light.py:GonioPhotometricLight.sample_l"]}
{"id": "C98", "title": "Shape sets contain every leaf shape once and weight by area", "statement": "A shape set built from any nested composite shape contains exactly its intersectable leaves, each once; sampling chooses a leaf with probability proportional to its area; the reported density is the area-weighted mixture of the shapes' densities, hence between their extremes.", "quantifier": "all composite shapes, area lists, random numbers", "why_tests_cant": "Every position, direction and parameter of the light; the boundaries of cones and poles have measure zero.", "anchors": ["pytracer/light/utility.py:ShapeSet"]}
{"id": "C99", "title": "Diffuse area lights are one-sided and sampled consistently", "statement": "A diffuse area light emits its constant radiance on the side of its normal and nothing on the other; its samples have a unit direction leading exactly to the sampled surface point, the shape set's density, a segment visibility test, and radiance decided by the side on which the shading point lies.", "quantifier": "all emission spectra, surface samples, shading points", "why_tests_cant": "Every position, direction and parameter of the light; the boundaries of cones and poles have measure zero.", "anchors": ["pytracer/light/light.py:DiffuseAreaLight.l", "pytracer/light/light.py:DiffuseAreaLight.sample_l"]}
{"id": "C100", "title": "Every light reports its power and can emit rays", "statement": "Every light kind can report its total power and sample an emitted ray (refuted: every one raises).", "quantifier": "all light kinds", "why_tests_cant": "Every position, direction and parameter of the light; the boundaries of cones and poles have measure zero.", "anchors": ["pytracer/light/light.py:Light.power", "pytracer/light/light.py:Light.sample_r", "pytracer/integrator/utility.py:compute_light_sampling_cdf"]}
{"id": "C101", "title": "Images are read as power-of-two RGB", "statement": "Reading any image yields an RGB array with power-of-two sides (refuted: other sizes are returned unchanged, grey images raise).", "quantifier": "all picture sizes and channel counts", "why_tests_cant": "Every argument, including boundary values of measure zero.", "anchors": ["pytracer/utility/imageio.py:read_image"]}
{"id": "C102", "title": "Distant and projection lights are usable; sample counts are at least one", "statement": "Distant lights illuminate along their direction and projection lights can be constructed (refuted), and every light's sample count is at least one.", "quantifier": "all transforms, images, sample counts", "why_tests_cant": "Every position, direction and parameter of the light; the boundaries of cones and poles have measure zero.", "anchors": ["pytracer/light/light.py:DistantLight", "pytracer/light/light.py:ProjectionLight", "pytracer/light/light.py:Light.__init__"]}
{"id": "C103", "title": "Every generated sample reaches the film exactly once", "statement": "A render task over any pixel window hands the film, for every pixel in raster order, exactly xSamples*ySamples samples located in that pixel, each once and with sanitised radiance, and it terminates, whatever camera, scene and integrator answer (as long as they do not raise).", "quantifier": "all pixel windows, sample counts, cameras, scenes, integrators, random streams", "why_tests_cant": "All scenes, integrators and random streams; a test renders a handful of scenes.", "anchors": ["pytracer/renderer/renderer.py:SamplerRendererTask.__call__", "pytracer/sampler/sampler/stratified.py:StratifiedSampler.generate"]}
{"id": "C104", "title": "Path radiance is never negative", "statement": "In every scene whose emission, scattering, transmittance and light samples are non-negative, the path integrator's result has no negative component.", "quantifier": "all such scenes, random streams, depths", "why_tests_cant": "All scenes, integrators and random streams; a test renders a handful of scenes.", "anchors": ["pytracer/integrator/surface/path.py:PathIntegrator.li", "pytracer/integrator/utility.py:estimate_direct"]}
{"id": "C105", "title": "Path radiance obeys superposition of light sources", "statement": "If a scene contains the light sources of two scenes that are otherwise the same, then along every path and for every random stream its radiance is the sum of the two scenes' radiances, provided the direct-light estimates add up.", "quantifier": "all scenes, random streams, depths", "why_tests_cant": "All scenes, integrators and random streams; a test renders a handful of scenes.", "anchors": ["pytracer/integrator/surface/path.py:PathIntegrator.li"]}
{"id": "C106", "title": "Direct lighting from delta lights is the exact product, lights are chosen uniformly, samples are averaged", "statement": "For a delta light the direct estimate is f*Li*T*|cos|/pdf when the light is visible and black when it is occluded; the one-light strategy chooses light i exactly for random numbers in [i/n,(i+1)/n); the all-lights strategy adds one independent estimate per requested sample.", "quantifier": "all lights, BSDFs, shading points, random numbers", "why_tests_cant": "All scenes, integrators and random streams; a test renders a handful of scenes.", "anchors": ["pytracer/integrator/utility.py:estimate_direct", "pytracer/integrator/utility.py:uniform_sample_one_light", "pytracer/integrator/utility.py:uniform_sample_all_lights"]}
{"id": "C107", "title": "Area-light estimates combine light and BSDF sampling without bias", "statement": "For non-delta lights the direct estimate combines both sampling strategies with weights adding to one (refuted: the BSDF half never contributes, so the estimate is too small by its weight).", "quantifier": "all area lights, BSDFs, random numbers", "why_tests_cant": "All scenes, integrators and random streams; a test renders a handful of scenes.", "anchors": ["pytracer/integrator/utility.py:estimate_direct"]}
{"id": "C108", "title": "Integrators only read sample arrays they have requested", "statement": "After an integrator has requested its samples, every offset it keeps refers to an array with enough elements, so every later read of a sample filled as requested succeeds.", "quantifier": "all earlier requests, all light sample counts", "why_tests_cant": "All scenes, integrators and random streams; a test renders a handful of scenes.", "anchors": ["pytracer/integrator/surface/path.py:PathIntegrator.request_samples", "pytracer/integrator/surface/direct.py:DirectLightingIntegrator.request_samples", "pytracer/sampler/sample.py:Sample"]}
{"id": "C109", "title": "The one-light strategy of direct lighting is usable", "statement": "Requesting samples with the one-light strategy succeeds (refuted: it raises on every sample).", "quantifier": "all samples", "why_tests_cant": "All scenes, integrators and random streams; a test renders a handful of scenes.", "anchors": ["pytracer/integrator/surface/direct.py:DirectLightingIntegrator.request_samples"]}
{"id": "C110", "title": "Specular reflection and transmission add the recursive radiance", "statement": "At a specular surface the recursive integrators add f |cos| / pdf times the radiance along the reflected and refracted rays (holds for reflection; refuted for transmission, whose contribution is always black).", "quantifier": "all scenes, surfaces, random numbers", "why_tests_cant": "All scenes, integrators and random streams; a test renders a handful of scenes.", "anchors": ["pytracer/integrator/utility.py:specular_reflect", "pytracer/integrator/utility.py:specular_transmit"]}
{"id": "C111", "title": "Emission is not counted twice", "statement": "Emission met after a non-specular bounce is not added again to the direct-light estimate (refuted).", "quantifier": "all scenes and paths", "why_tests_cant": "All scenes, integrators and random streams; a test renders a handful of scenes.", "anchors": ["pytracer/integrator/surface/path.py:PathIntegrator.li"]}
{"id": "C112", "title": "Reflected ray differentials are true derivatives", "statement": "The offset rays of a specular reflection are the first-order change of the mirrored direction when direction and normal move by their per-pixel offsets.", "quantifier": "all directions, normals and offsets", "why_tests_cant": "Every scene, material, light and random stream; a test renders a handful of scenes and compares within noise.", "anchors": ["pytracer/integrator/utility.py:specular_reflect"]}
{"id": "C113", "title": "Transmitted ray differentials are true derivatives", "statement": "The offset rays of a specular transmission are the first-order change of the refracted direction (refuted: for flat surfaces the code uses exactly the negative).", "quantifier": "all refracting directions, offsets and indices", "why_tests_cant": "Every scene, material, light and random stream; a test renders a handful of scenes and compares within noise.", "anchors": ["pytracer/integrator/utility.py:specular_transmit"]}
{"id": "C114", "title": "Face and vertex references describe the mesh", "statement": "After construction and after every refinement level the neighbour references, start faces, border and regularity flags are exactly those determined by the index triples; a vertex without triangle is refused.", "quantifier": "all triangulated surfaces, all depths", "why_tests_cant": "All meshes and depths; a test subdivides a few meshes a few times.", "anchors": ["pytracer/shape/loopsubdiv.py: LoopSubdiv.__init__", "pytracer/shape/loopsubdiv.py: LoopSubdiv.refine", "pytracer/shape/loopsubdiv.py: LoopSubdiv.SDVertex.valence", "pytracer/shape/loopsubdiv.py: LoopSubdiv.SDVertex.one_ring"]}
{"id": "C115", "title": "Refined positions follow Loop's rules", "statement": "At every level old interior vertices move by Loop's one-ring rule for their degree, border vertices by 3/4,1/8,1/8 along the border, new vertices on inner edges are 3/8,3/8,1/8,1/8 of ends and opposite corners, on border edges the midpoint; the final step applies the one-ring rule with gamma and 3/5,1/5,1/5 on the border.", "quantifier": "all triangulated surfaces, all depths, all vertices and edges", "why_tests_cant": "All meshes and depths; a test subdivides a few meshes a few times.", "anchors": ["pytracer/shape/loopsubdiv.py: LoopSubdiv.refine", "pytracer/shape/loopsubdiv.py: LoopSubdiv.weight_one_ring", "pytracer/shape/loopsubdiv.py: LoopSubdiv.weight_boundary", "pytracer/shape/loopsubdiv.py: LoopSubdiv.beta", "pytracer/shape/loopsubdiv.py: LoopSubdiv.gamma"]}
{"id": "C116", "title": "Refinement keeps valences and only adds regular vertices", "statement": "Old vertices keep their degree and their border status; every new vertex has degree 6, or 4 on the border, and is on the border exactly if its edge was.", "quantifier": "all triangulated surfaces, all depths", "why_tests_cant": "All meshes and depths; a test subdivides a few meshes a few times.", "anchors": ["pytracer/shape/loopsubdiv.py: LoopSubdiv.refine"]}
{"id": "C117", "title": "Refined and limit positions stay in the control hull and bound", "statement": "Every position at every level and every limit position lies in the convex hull of the control points, hence in object_bound().", "quantifier": "all triangulated surfaces, control points, depths", "why_tests_cant": "All meshes and depths; a test subdivides a few meshes a few times.", "anchors": ["pytracer/shape/loopsubdiv.py: LoopSubdiv.refine", "pytracer/shape/loopsubdiv.py: LoopSubdiv.object_bound"]}
{"id": "C118", "title": "Subdivision commutes with affine maps", "statement": "Applying any affine map to the control points applies it to every refined and limit position and changes no triangle.", "quantifier": "all affine maps, surfaces, depths", "why_tests_cant": "All meshes and depths; a test subdivides a few meshes a few times.", "anchors": ["pytracer/shape/loopsubdiv.py: LoopSubdiv.refine"]}
{"id": "C119", "title": "Limit positions do not depend on the number of levels", "statement": "The limit position of a control vertex is the same however many levels are refined before the limit rule (refuted at every vertex of every surface: gamma uses 8+beta for 8*beta, the border mask 1/5 for 1/6).", "quantifier": "all surfaces, control points, vertices", "why_tests_cant": "All meshes and depths; a test subdivides a few meshes a few times.", "anchors": ["pytracer/shape/loopsubdiv.py: LoopSubdiv.gamma", "pytracer/shape/loopsubdiv.py: LoopSubdiv.refine"]}
{"id": "C120", "title": "Refining yields a triangle mesh with normals", "statement": "refine() returns the refined triangles with limit positions and one normal per vertex (holds if vertex 0 lies on a border; refuted otherwise: every closed mesh raises).", "quantifier": "all surfaces, depths", "why_tests_cant": "All meshes and depths; a test subdivides a few meshes a few times.", "anchors": ["pytracer/shape/loopsubdiv.py: LoopSubdiv.refine"]}
{"id": "C121", "title": "Schlick phase function is a phase function", "statement": "phase_schlick depends on the angle, is positive and integrates to 1 (refuted: a missing parenthesis cancels the angle, the integral is 1-k^2 and g=0.97 gives negative values).", "quantifier": "all g, directions", "why_tests_cant": "Every ray, placement and coefficient; a test marches a few rays.", "anchors": ["pytracer/volume/utility.py: phase_schlick"]}
{"id": "C122", "title": "Placing a medium moves where it attenuates", "statement": "intersect_p and tau of a medium respect its placement (refuted: the transformed ray is computed and not used).", "quantifier": "all transforms, media, rays", "why_tests_cant": "Every ray, placement and coefficient; a test marches a few rays.", "anchors": ["pytracer/volume/volume.py: HomogeneousVolumeDensity.intersect_p"]}
{"id": "C123", "title": "Coefficients hold exactly inside the placed medium", "statement": "sigma_a, sigma_s and lve return the given spectra at the points of the placed box and zero elsewhere; sigma_t = sigma_a + sigma_s; for density regions each is density times the given spectrum.", "quantifier": "all placements built from the transform constructors, all points", "why_tests_cant": "Every ray, placement and coefficient; a test marches a few rays.", "anchors": ["pytracer/volume/volume.py: HomogeneousVolumeDensity.sigma_a, sigma_s, sigma_t, lve", "pytracer/volume/volume.py: DensityRegion.sigma_a, sigma_s, sigma_t, lve"]}
{"id": "C124", "title": "World bound contains the medium", "statement": "Every point inside the placed medium lies in world_bound() (true for non-negative linear parts, refuted otherwise).", "quantifier": "all placements, all points", "why_tests_cant": "Every ray, placement and coefficient; a test marches a few rays.", "anchors": ["pytracer/volume/volume.py: HomogeneousVolumeDensity.world_bound"]}
{"id": "C125", "title": "Ray marching terminates and converges", "statement": "tau of a density region stops for every positive step when the ray meets it in a finite interval, returns step times the sum of extinction at the offset samples, is within one step of the exact value for constant extinction, and converges to the integral with error proportional to the step; with a non-positive step or an infinite interval it never stops.", "quantifier": "all density regions, rays, steps, offsets", "why_tests_cant": "Termination and limits quantify over all steps and lengths.", "anchors": ["pytracer/volume/volume.py: DensityRegion.tau"]}
{"id": "C126", "title": "Exponential media", "statement": "The density is non-negative, zero outside the box, a at the lower corner and decays by exp(-b s) along the up vector; placed without a transform the marched thickness converges to the integral of the extinction along the part of the ray inside.", "quantifier": "all exponential media, points, rays, steps", "why_tests_cant": "Every ray, placement and coefficient; a test marches a few rays.", "anchors": ["pytracer/volume/volume.py: ExponentialDensity"]}
{"id": "C127", "title": "A medium scatters with its own asymmetry", "statement": "p() of a medium is Henyey-Greenstein with the medium's g inside and 0 outside (refuted: the time is passed as g; times above 1 give negative values).", "quantifier": "all media, points, directions, times", "why_tests_cant": "Every ray, placement and coefficient; a test marches a few rays.", "anchors": ["pytracer/volume/volume.py: HomogeneousVolumeDensity.p", "pytracer/volume/volume.py: DensityRegion.p"]}
{"id": "C128", "title": "Aggregates of media", "statement": "Coefficients and optical thickness are the sums over the members, the bound contains every member's bound (and so every point of every member placed by a transform for which the member's own bound is right, see C124), and the reported interval is the smallest containing all members' intervals, reported as a hit exactly when some member is hit.", "quantifier": "all lists of regions, points, rays", "why_tests_cant": "Every ray, placement and coefficient; a test marches a few rays.", "anchors": ["pytracer/volume/volume.py: AggregateVolume"]}
{"id": "C129", "title": "Aggregate emission and phase", "statement": "lve() of an aggregate is the sum of its members' emission and p() a normalised phase function (refuted: TypeError for every non-empty aggregate; phases are summed unweighted).", "quantifier": "all lists of media, points, directions", "why_tests_cant": "Every ray, placement and coefficient; a test marches a few rays.", "anchors": ["pytracer/volume/volume.py: AggregateVolume.lve, p"]}
{"id": "C130", "title": "Grid media can be constructed", "statement": "VolumeGridDensity(...) constructs a medium (refuted: always TypeError).", "quantifier": "all boxes and arrays", "why_tests_cant": "Every ray, placement and coefficient; a test marches a few rays.", "anchors": ["pytracer/volume/volume.py: VolumeGridDensity.__init__"]}
{"id": "C131", "title": "Whitted direct light is a sum over the lights", "statement": "Without a medium, the local light of the Whitted integrator is exactly the sum over the lights of f Li |cos| / pdf for unoccluded, non-black samples (0 otherwise), each light using three fresh random numbers; it is non-negative when lights and surfaces are.", "quantifier": "all scenes, surfaces, lights, random numbers", "why_tests_cant": "Quantifies over all scenes, light lists and random streams.", "anchors": ["pytracer/integrator/surface/whitted.py: WhittedIntegrator.li"]}
{"id": "C132", "title": "Sampling all lights averages each light's estimates", "statement": "Direct lighting from all lights is the sum over the lights of the mean of as many estimates as the light has samples, estimate j of light i being made from the stored numbers at position j of the arrays requested for that light; for point-like lights an estimate is f Li |cos| / pdf or 0 when occluded.", "quantifier": "all scenes, samples, offsets", "why_tests_cant": "Quantifies over all scenes, light lists and sample contents.", "anchors": ["pytracer/integrator/utility.py: uniform_sample_all_lights, estimate_direct", "pytracer/integrator/surface/direct.py: DirectLightingIntegrator.li"]}
{"id": "C133", "title": "Sampling one light is an unbiased choice", "statement": "Sampling one light returns (number of lights) times the estimate of the selected light; every number in [0,1] selects an existing light; the expectation over the number is the sum over all lights; with no lights the result is black.", "quantifier": "all light lists, all selecting numbers", "why_tests_cant": "An expectation over a continuous random number.", "anchors": ["pytracer/integrator/utility.py: uniform_sample_one_light"]}
{"id": "C134", "title": "Path tracing adds up throughput-weighted light", "statement": "Without a medium, path tracing returns L exactly if L is the sum over the path's vertices of throughput times (emission + direct light) plus throughput times background if it escapes, with throughput multiplied by f |cos| / pdf at each vertex, stored numbers used at the first three vertices, roulette from the fifth on, and the path ending when absorbed, dropped, at the depth limit or on escape.", "quantifier": "all scenes, paths of any length, random streams", "why_tests_cant": "Paths have unbounded length and depend on an arbitrary random stream.", "anchors": ["pytracer/integrator/surface/path.py: PathIntegrator.li"]}
{"id": "C135", "title": "Russian roulette is unbiased", "statement": "Whenever the throughput's luminance is positive, the expected throughput after roulette equals the throughput before, and a path survives with probability at most one half.", "quantifier": "all throughputs", "why_tests_cant": "An expectation over a continuous random number.", "anchors": ["pytracer/integrator/surface/path.py: PathIntegrator.li"]}
{"id": "C136", "title": "Recursive ray tracing", "statement": "A ray with another time than its sample is refused; a ray that leaves the scene carries the lights' background (attenuated by the medium); at the depth limit a surface gives emission plus local light; below it, also specular reflection and transmission, whose rays start at the surface point, one level deeper, at the same time, with the surface's epsilon.", "quantifier": "all scenes, rays, depths", "why_tests_cant": "Quantifies over all scenes and recursion depths.", "anchors": ["pytracer/renderer/renderer.py: SamplerRenderer.li", "pytracer/integrator/utility.py: specular_reflect, specular_transmit", "pytracer/integrator/surface/whitted.py: WhittedIntegrator.li", "pytracer/integrator/surface/direct.py: DirectLightingIntegrator.li"]}
{"id": "C137", "title": "Checkerboards follow cell parity", "statement": "In the unit cell (i,j) a 2D checkerboard shows its first texture if i+j is even and its second otherwise; with closed-form antialiasing the same holds whenever the filter footprint is inside the cell; the solid checkerboard does so with i+j+k.", "quantifier": "all coordinates, mappings, textures and footprints", "why_tests_cant": "Every point and filter width; cell borders, wrap-around and degenerate footprints have measure zero.", "anchors": ["pytracer/texture/texture/__init__.py: Chekcerboard2DTexture, Checkboard3DTexture"]}
{"id": "C138", "title": "Closed-form antialiasing averages the two textures", "statement": "Where the footprint crosses cells, an antialiased checkerboard is the area-weighted average of its two textures. (The code does not: two equal textures give 1, a thin footprint gives NaN. The per-axis odd fraction it computes is right.)", "quantifier": "all footprints crossing a cell border", "why_tests_cant": "Every point and filter width; cell borders, wrap-around and degenerate footprints have measure zero.", "anchors": ["pytracer/texture/texture/__init__.py: Chekcerboard2DTexture.__call__"]}
{"id": "C139", "title": "Pyramid levels hold block means", "statement": "Texel (p,q) of level i of a square power-of-two image is the mean of block (p,q) of 2^i x 2^i texels. (Holds for even i; odd levels are transposed.)", "quantifier": "all square power-of-two images, levels and texels", "why_tests_cant": "Every point and filter width; cell borders, wrap-around and degenerate footprints have measure zero.", "anchors": ["pytracer/texture/utility.py: MIPMap.__init__"]}
{"id": "C140", "title": "Exactness, tiling and mean of lookups", "statement": "A narrow lookup at a texel centre returns that texel; with repeat, moving by whole images changes nothing; the widest lookup of a square image returns the mean of the image (repeat, clamp).", "quantifier": "all power-of-two images, texels, positions and widths", "why_tests_cant": "Every point and filter width; cell borders, wrap-around and degenerate footprints have measure zero.", "anchors": ["pytracer/texture/utility.py: MIPMap.look_up, MIPMap.__triangle, MIPMap.texel"]}
{"id": "C141", "title": "Widest lookup with black wrap", "statement": "With black wrap the widest lookup of an image returns its mean. (The code returns a quarter of it.)", "quantifier": "all square power-of-two images and positions", "why_tests_cant": "Every point and filter width; cell borders, wrap-around and degenerate footprints have measure zero.", "anchors": ["pytracer/texture/utility.py: MIPMap.look_up, MIPMap.__triangle"]}
{"id": "C142", "title": "Elliptical lookups", "statement": "A non-trilinear map can be looked up with any pair of footprint axes. (Violated: whenever the shorter axis, or the longer one divided by the largest allowed eccentricity if that is more, lies strictly between 0 and 2, the lookup raises AttributeError. A footprint with an axis of zero length is interpolated on the finest level, exact at texel centres, and one of 2 or more returns the mean of a square image.)", "quantifier": "all images, positions and footprints", "why_tests_cant": "Every point and filter width; cell borders, wrap-around and degenerate footprints have measure zero.", "anchors": ["pytracer/texture/utility.py: MIPMap.look_up, MIPMap.__EWA"]}
{"id": "C143", "title": "Image textures", "statement": "An image texture loads any image, falls back to a default if the file cannot be read, caches by file and parameters, and can be evaluated. (Evaluation always raises; unreadable files and non-square images raise; the cache ignores the storage type. Square RGB images load with the parameters asked for, stay cached, and are not confused with maps cached for other files or parameters.)", "quantifier": "all images, files, parameters and coordinates", "why_tests_cant": "Every point and filter width; cell borders, wrap-around and degenerate footprints have measure zero.", "anchors": ["pytracer/texture/texture/image.py: ImageTexture, ImageTexture.get_texture, TexInfo"]}
{"id": "C144", "title": "Resampling of square images", "statement": "The four resampling weights sum to one for every pair of resolutions. Every square image becomes a map of the next power of two, without failure, and non-negative constants stay constant.", "quantifier": "all resolutions and square images", "why_tests_cant": "Every point and filter width; cell borders, wrap-around and degenerate footprints have measure zero.", "anchors": ["pytracer/texture/utility.py: MIPMap.__init__, MIPMap.resample"]}
{"id": "C145", "title": "Resampling of other images", "statement": "Images of any shape can be used. (The code raises IndexError for non-square images unless both sides are powers of two.)", "quantifier": "all image shapes", "why_tests_cant": "Every point and filter width; cell borders, wrap-around and degenerate footprints have measure zero.", "anchors": ["pytracer/texture/utility.py: MIPMap.__init__"]}
{"id": "C146", "title": "Noise is total, bounded and periodic", "statement": "Noise is defined at every point, has absolute value at most 2 and period 256 along each axis.", "quantifier": "all points", "why_tests_cant": "Every point and filter width; cell borders, wrap-around and degenerate footprints have measure zero.", "anchors": ["pytracer/texture/utility.py: noise, _grad", "pytracer/data/noise.py: NOISE_PERM"]}
{"id": "C147", "title": "Noise is zero on the lattice and continuous", "statement": "Gradient noise vanishes at integer points and is continuous. (The code: it is 0 or -1 there, and jumps.)", "quantifier": "all points", "why_tests_cant": "Every point and filter width; cell borders, wrap-around and degenerate footprints have measure zero.", "anchors": ["pytracer/texture/utility.py: noise, _grad"]}
{"id": "C148", "title": "Turbulence, wrinkled and smooth step", "statement": "Turbulence (and the wrinkled texture) is defined, non-negative and bounded for roughness in [0,1); smooth_step is monotone with values in [0,1] for bounds within [0,1].", "quantifier": "all points, differentials, octave counts and roughnesses in [0,1)", "why_tests_cant": "Every point and filter width; cell borders, wrap-around and degenerate footprints have measure zero.", "anchors": ["pytracer/texture/utility.py: turbulence, smooth_step", "pytracer/texture/texture/__init__.py: WrinkledTexture"]}
{"id": "C149", "title": "FBm, windy and marble", "statement": "FBm, windy and marble textures are defined for all points. (Violated: FBm raises whenever at least one octave is requested and neither footprint vector is longer than a noise cell, so always without differentials; windy textures raise unless a footprint vector is longer than ten noise cells, and marble textures raise in every case. Over a longer footprint FBm is the noise at the point faded by a weight between 0 and 1, and a windy texture is the absolute faded noise at a tenth of the point times the faded noise at the point.)", "quantifier": "all points, differentials and octave counts", "why_tests_cant": "Every point and filter width; cell borders, wrap-around and degenerate footprints have measure zero.", "anchors": ["pytracer/texture/utility.py: FBm", "pytracer/texture/texture/__init__.py: FBmTexture, WindyTexture, MarbleTexture"]}
{"id": "C150", "title": "UV, planar and 3D mappings report exact differentials", "statement": "The UV mapping returns (su u + du, sv v + dv) and the planar mapping the shifted coordinates along its two axes. Moving along the x or y differentials by e moves the UV or planar coordinates, or the mapped point of an affine 3D mapping, by exactly e times the reported differentials.", "quantifier": "all mappings, points, differentials and real e", "why_tests_cant": "Every point and filter width; cell borders, wrap-around and degenerate footprints have measure zero.", "anchors": ["pytracer/texture/texturemap/__init__.py: UVMapping2D, PlannarMapping2D, IdentityMapping3D"]}
{"id": "C151", "title": "Spherical texture coordinates", "statement": "Spherical mapping gives both coordinates in [0,1]: a point which the mapping's transform takes to polar angle a (strictly between 0 and pi) and azimuth b in (0, 2 pi] has s = a/pi and t = b/(2 pi); on the axis s is 0 or 1.", "quantifier": "all transforms and points", "why_tests_cant": "Every point and filter width; cell borders, wrap-around and degenerate footprints have measure zero.", "anchors": ["pytracer/texture/texturemap/__init__.py: SphericalMapping2D"]}
{"id": "C152", "title": "Spherical and cylindrical differentials", "statement": "Spherical and cylindrical mappings report the change of their coordinates over the footprint. (The y differential of t is wrong; cylindrical mapping always raises; x differentials are the forward differences.)", "quantifier": "all points and differentials", "why_tests_cant": "Every point and filter width; cell borders, wrap-around and degenerate footprints have measure zero.", "anchors": ["pytracer/texture/texturemap/__init__.py: SphericalMapping2D, CylindricalMapping2D"]}
{"id": "C153", "title": "Dots textures can be evaluated", "statement": "A dots texture shows its inside texture in dots and its outside texture elsewhere. (The code always raises TypeError.)", "quantifier": "all coordinates", "why_tests_cant": "Every point and filter width; cell borders, wrap-around and degenerate footprints have measure zero.", "anchors": ["pytracer/texture/texture/__init__.py: DotsTexture"]}
{"id": "C154", "title": "Normals at border vertices of subdivision surfaces", "statement": "A border vertex whose n>=3 neighbours form a regular half fan with axes a and b gets a normal along b x a, for every n; a corner gets twice the cross product of its edges: the same side.", "quantifier": "all meshes, border vertices and valences", "why_tests_cant": "Control meshes of every size and connectivity; the failing ones (borders, extraordinary vertices) are rare among the few a test would try.", "anchors": ["pytracer/shape/loopsubdiv.py: LoopSubdiv.refine (lines 401-430)"]}
{"id": "C155", "title": "Normals at interior vertices of subdivision surfaces", "statement": "An interior vertex whose neighbours form a regular fan with axes a and b has tangents n/2 a and n/2 b. (The code adds the tangents of the vertex treated before.)", "quantifier": "all meshes, interior vertices and valences >= 3", "why_tests_cant": "Control meshes of every size and connectivity; the failing ones (borders, extraordinary vertices) are rare among the few a test would try.", "anchors": ["pytracer/shape/loopsubdiv.py: LoopSubdiv.refine (lines 401-430)"]}
{"id": "C156", "title": "What a sample contributes", "statement": "Every sample handed to the film carries: black if its camera ray hits nothing or has no weight; white in object-id mode; otherwise the sanitised product of weight and the integrator's radiance along the camera ray, whose differentials have been brought closer by the square root of the samples per pixel.", "quantifier": "all cameras, scenes, integrators, samplers, random streams and histories", "why_tests_cant": "Ranges over all components and histories.", "anchors": ["pytracer/renderer/renderer.py: SamplerRendererTask.__call__ (lines 156-198)", "pytracer/geometry/__init__.py: RayDifferential.scale_differential"]}
{"id": "C157", "title": "has_nans is exact", "statement": "has_nans of a spectrum is true exactly when some coefficient is NaN.", "quantifier": "all coefficient lists", "why_tests_cant": "Every spectrum and wavelength interval; the wrong ones end on a table entry, which random tests do not hit.", "anchors": ["pytracer/spectral/spectrum.py: CoefficientSpectrum.has_nans"]}
{"id": "C158", "title": "Perspective camera: one ray per raster position", "statement": "Without a lens, the ray of raster position (X,Y) leaves the camera's position in the unit direction towards (T sx, T sy, 1), where (sx,sy) is the position's place in the screen window (upper-left origin) and T the tangent of half the field of view, at the sample's time within the shutter interval, placed by the camera transform at that time. Different positions give different directions.", "quantifier": "all windows, resolutions, fields of view in (0,180), transforms and samples", "why_tests_cant": "Every raster position, lens sample and time; a test generates a few rays.", "anchors": ["pytracer/camera/projective.py: PerspectiveCamera.__init__, generate_ray", "pytracer/transform/__init__.py: Transform.perspective, AnimatedTransform.__call__"]}
{"id": "C159", "title": "Depth of field", "statement": "With a lens of positive radius every generated ray starts in the lens disk, has a unit direction and passes, whatever the lens sample, through its pixel's point on the plane of focus.", "quantifier": "all windows, lenses, focal distances, transforms and samples, perspective and orthographic", "why_tests_cant": "Every raster position, lens sample and time; a test generates a few rays.", "anchors": ["pytracer/camera/projective.py: PerspectiveCamera.generate_ray, OrthoCamera.generate_ray"]}
{"id": "C160", "title": "Orthographic camera: parallel rays", "statement": "Without a lens, the ray of raster position (X,Y) starts at the position's place in the screen window, in direction +z, at the sample's time within the shutter interval.", "quantifier": "all windows, resolutions, transforms and samples", "why_tests_cant": "Every raster position, lens sample and time; a test generates a few rays.", "anchors": ["pytracer/camera/projective.py: OrthoCamera.generate_ray"]}
{"id": "C161", "title": "Orthographic camera with a lens", "statement": "The origin of a ray is the pixel's point offset by the lens sample. (Violated: the origin is the lens sample alone.)", "quantifier": "all cameras with a lens and samples", "why_tests_cant": "Every raster position, lens sample and time; a test generates a few rays.", "anchors": ["pytracer/camera/projective.py: OrthoCamera.generate_ray (lines 96-107)"]}
{"id": "C162", "title": "Perspective ray differentials", "statement": "generate_ray_differential reports the ray of generate_ray and, as offset rays, those of the raster positions one to the right and one below. (Violated for placed cameras: the offset rays stay in camera space.)", "quantifier": "all cameras and samples", "why_tests_cant": "Every raster position, lens sample and time; a test generates a few rays.", "anchors": ["pytracer/camera/projective.py: PerspectiveCamera.generate_ray_differential", "pytracer/transform/__init__.py: Transform.__call__"]}
{"id": "C163", "title": "Times of perspective ray differentials", "statement": "The ray of generate_ray_differential carries the same time as generate_ray's. (Violated: the sample's raw time.)", "quantifier": "all cameras and samples", "why_tests_cant": "Every raster position, lens sample and time; a test generates a few rays.", "anchors": ["pytracer/camera/projective.py: PerspectiveCamera.generate_ray_differential (line 229)"]}
{"id": "C164", "title": "Orthographic ray differentials", "statement": "generate_ray_differential reports the ray of generate_ray and, as offset rays, those of the neighbouring raster positions. (Violated for placed cameras: the placement is applied twice.)", "quantifier": "all cameras and samples", "why_tests_cant": "Every raster position, lens sample and time; a test generates a few rays.", "anchors": ["pytracer/camera/projective.py: OrthoCamera.generate_ray_differential"]}
{"id": "C165", "title": "Environment camera covers the sphere once", "statement": "Directions are unit vectors; every unit direction is seen from some raster position; interior positions see different directions.", "quantifier": "all resolutions and samples", "why_tests_cant": "Every raster position, lens sample and time; a test generates a few rays.", "anchors": ["pytracer/camera/environment.py: EnvironmentCamera.generate_ray"]}
{"id": "C166", "title": "Environment camera rays carry their time", "statement": "The ray of a sample carries the sample's time within the shutter interval. (Violated: the time is passed as the recursion depth.)", "quantifier": "all cameras and samples", "why_tests_cant": "Every raster position, lens sample and time; a test generates a few rays.", "anchors": ["pytracer/camera/environment.py: EnvironmentCamera.generate_ray (line 41-42)"]}
{"id": "C167", "title": "Inherited ray differentials", "statement": "The base-class generate_ray_differential reports the offset rays of the sample's neighbouring raster positions. (Violated: they are those of positions (1,0) and (0,1) for every sample.) Its main ray and weight are generate_ray's; the weight is 0 if a neighbour has none.", "quantifier": "all cameras and samples", "why_tests_cant": "Every raster position, lens sample and time; a test generates a few rays.", "anchors": ["pytracer/camera/camera.py: Camera.generate_ray_differential", "pytracer/sampler/sample.py: Sample.duplicate"]}
{"id": "C168", "title": "Pinhole camera rays meet in one point", "statement": "All rays of a pinhole camera pass through the image of (0,0,focal) at parameter 1; each starts at the image of its film point, at parameter 0, and has no end.", "quantifier": "all affine placements, focal lengths and samples", "why_tests_cant": "Every raster position, lens sample and time; a test generates a few rays.", "anchors": ["pytracer/camera/projective.py: PinholeCamera.generate_ray"]}
{"id": "C169", "title": "Generated rays have unit directions", "statement": "Camera rays have unit directions under rigid placements. (Violated by the pinhole camera.)", "quantifier": "all cameras and samples", "why_tests_cant": "Every raster position, lens sample and time; a test generates a few rays.", "anchors": ["pytracer/camera/projective.py: PinholeCamera.generate_ray, PerspectiveCamera.generate_ray", "pytracer/camera/environment.py: EnvironmentCamera.generate_ray"]}
{"id": "C170", "title": "BVH children are ordered along the split axis", "statement": "Along the split axis of a node, the centres of the primitives below the first child do not lie behind those below the second. (Violated by at most one primitive per node: the last one is never compared with the split position.)", "quantifier": "all primitive lists, split methods and nodes", "why_tests_cant": "Ranges over all primitive lists and all nodes of the resulting tree.", "anchors": ["pytracer/aggregate/accelerator/bvh.py: _partition, _bucket_partition, _insertion_sort, _recursive_build"]}
{"id": "C171", "title": "clip and is_black", "statement": "clip of a number with default bounds is the nearest non-negative number; a spectrum is black exactly when every coefficient is below 1e-5 in magnitude.", "quantifier": "all numbers and spectra", "why_tests_cant": "Every argument, including boundary values of measure zero.", "anchors": ["pytracer/utility/utility.py: clip, is_black"]}
{"id": "C172", "title": "Matte surfaces scatter by Lambert or Oren-Nayar", "statement": "The BSDF of a matte material at a hit, evaluated for two directions on the same side, is Kd/pi when the roughness texture is 0 there, and otherwise the Oren-Nayar value for that roughness, written with dot products of the directions and the normal.", "quantifier": "all textures, hits and pairs of directions", "why_tests_cant": "Every surface point, texture value and pair of directions; a test evaluates a few.", "anchors": ["pytracer/material/material.py: MatteMaterial.get_bsdf", "pytracer/reflection/bdf/bdf.py: Lambertian", "pytracer/reflection/bdf/orennayar.py: OrenNayar"]}
{"id": "C173", "title": "Texture values come from the hit point", "statement": "A material evaluates its textures at the hit: position, parametric coordinates, and the ray's filter footprint. (Violated for the footprint: copying the differential geometry drops it, so every texture sees a zero footprint.)", "quantifier": "all textures and hits", "why_tests_cant": "Every surface point, texture value and pair of directions; a test evaluates a few.", "anchors": ["pytracer/material/material.py: MatteMaterial.get_bsdf", "pytracer/geometry/diffgeom.py: DifferentialGeometry.copy"]}
{"id": "C174", "title": "Mirror surfaces reflect", "statement": "The BSDF of a mirror material is 0 for every pair of directions; sampling it returns, for every random number, the mirror lobe with probability 1 and a weight that times the cosine is exactly Kr at the hit; a black mirror yields no sample. (The direction is C186.)", "quantifier": "all textures, hits, directions and random numbers", "why_tests_cant": "Every surface point, texture value and pair of directions; a test evaluates a few.", "anchors": ["pytracer/material/material.py: MirrorMaterial.get_bsdf", "pytracer/reflection/bdf/bdf.py: SpecularReflection"]}
{"id": "C175", "title": "Glass splits light between reflection and refraction", "statement": "Reflected and transmitted weights of a glass surface are Kr F and Kt (1-F) times the radiance factor, the directions those of the mirror law and Snell's law; with Kr=Kt=1 no light is lost. (Violated: the transmitted part uses a Fresnel term that does not complement the reflected one.)", "quantifier": "all textures, hits and directions", "why_tests_cant": "Every surface point, texture value and pair of directions; a test evaluates a few.", "anchors": ["pytracer/material/material.py: GlassMaterial.get_bsdf", "pytracer/reflection/bdf/bdf.py: SpecularReflection, SpecularTransmission"]}
{"id": "C176", "title": "Coatings reflect like their index", "statement": "The coating of a plastic or uber material entered from outside reflects with the Fresnel coefficient for going from air (1) into the coating (eta). (Violated: the indices are passed the other way round.)", "quantifier": "all hits and directions", "why_tests_cant": "Every surface point, texture value and pair of directions; a test evaluates a few.", "anchors": ["pytracer/material/material.py: PlasticMaterial.get_bsdf, UberMaterial.get_bsdf"]}
{"id": "C177", "title": "Opacity of uber materials", "statement": "An uber surface with opacity o passes the fraction 1-o through in its first lobe and evaluates like the opaque surface whose textures are multiplied by o; opacity 1 gives no pass-through, opacity 0 nothing else. (The direction is C186.)", "quantifier": "all textures, hits and directions", "why_tests_cant": "Every surface point, texture value and pair of directions; a test evaluates a few.", "anchors": ["pytracer/material/material.py: UberMaterial.get_bsdf"]}
{"id": "C178", "title": "Every sensible material gives a usable BSDF", "statement": "At a regular hit every material with sensible texture values builds a BSDF whose frame is orthonormal, whose evaluation never raises, is reciprocal, and whose density is non-negative.", "quantifier": "all materials, hits, directions, flags", "why_tests_cant": "Every surface point, texture value and pair of directions; a test evaluates a few.", "anchors": ["pytracer/material/material.py: all get_bsdf methods", "pytracer/reflection/bsdf.py: BSDF"]}
{"id": "C179", "title": "Materials do not emit negative light", "statement": "The BSDF value of every material with non-negative textures is non-negative in every channel.", "quantifier": "all materials, hits, directions, flags", "why_tests_cant": "Every surface point, texture value and pair of directions; a test evaluates a few.", "anchors": ["pytracer/material/material.py: all get_bsdf methods"]}
{"id": "C180", "title": "Mix materials blend", "statement": "A mix material scatters as the weighted sum of its two materials. (Violated: get_bsdf always raises TypeError.)", "quantifier": "all pairs of materials, weights and hits", "why_tests_cant": "Every surface point, texture value and pair of directions; a test evaluates a few.", "anchors": ["pytracer/material/material.py: MixMaterial.get_bsdf"]}
{"id": "C181", "title": "Subsurface coefficients", "statement": "A subsurface material reports at each hit its absorption and reduced scattering textures times its scale, and its index texture.", "quantifier": "all textures, scales and hits", "why_tests_cant": "Every surface point, texture value and pair of directions; a test evaluates a few.", "anchors": ["pytracer/material/material.py: SubsurfaceMaterial.get_bssrdf"]}
{"id": "C182", "title": "Subsurface materials can be rendered", "statement": "Subsurface materials provide both a surface BSDF and scattering coefficients. (Violated: one of the two calls raises TypeError in each class.)", "quantifier": "all textures and hits", "why_tests_cant": "Every surface point, texture value and pair of directions; a test evaluates a few.", "anchors": ["pytracer/material/material.py: SubsurfaceMaterial.get_bsdf, KdSubsurfaceMaterial.get_bssrdf"]}
{"id": "C183", "title": "Bump maps perturb the normal", "statement": "A material with a bump map shades with the perturbed frame. (Violated: every such hit raises AttributeError.)", "quantifier": "all materials, displacement textures and hits", "why_tests_cant": "Every surface point, texture value and pair of directions; a test evaluates a few.", "anchors": ["pytracer/material/material.py: Material.bump"]}
{"id": "C184", "title": "Measured BRDF files", "statement": "Reading a .brdf file yields exactly its samples, each with the wavelengths of the header, in order; a file whose values do not fill whole samples raises RuntimeError.", "quantifier": "all wavelength lists, sample lists, line layouts", "why_tests_cant": "Every surface point, texture value and pair of directions; a test evaluates a few.", "anchors": ["pytracer/material/material.py: MeasuredMaterial.__init__"]}
{"id": "C185", "title": "Measured files are cached", "statement": "Loading the same measured file again gives the same material without changing the data. (Violated: the cache is keyed by the base name and its use raises.)", "quantifier": "all file systems, cache states and file names", "why_tests_cant": "Every surface point, texture value and pair of directions; a test evaluates a few.", "anchors": ["pytracer/material/material.py: MeasuredMaterial.__init__"]}
{"id": "C186", "title": "Directions of specular materials", "statement": "A mirror's sampled direction is the mirror image of the outgoing one about the surface normal; the undeviated part of a translucent uber surface goes straight through. (Violated for surfaces not aligned with the world axes: l2w uses one local coordinate per row.)", "quantifier": "all hits, directions and random numbers", "why_tests_cant": "Every surface point, texture value and pair of directions; a test evaluates a few.", "anchors": ["pytracer/material/material.py: MirrorMaterial.get_bsdf, UberMaterial.get_bsdf", "pytracer/reflection/bsdf.py: BSDF.l2w"]}
{"id": "C187", "title": "Solid-angle densities of shapes", "statement": "pdf_p(p, wi) is 0 when the ray from p along wi misses the shape; when it hits a triangle at distance t, density times |cos| times area equals t^2 (the area density converted to solid angle), and the same holds for any shape in terms of its intersection test and area.", "quantifier": "all meshes, faces, points and unit directions", "why_tests_cant": "Every shape, placement and ray; edges, poles, seams and tangent rays have measure zero and random tests do not hit them.", "anchors": ["pytracer/shape/__init__.py: Shape.pdf_p", "pytracer/shape/triangle.py: Triangle.intersect, area"]}
{"id": "C188", "title": "Normal derivatives of spheres", "statement": "The reported derivatives of the normal are those of the reported normal: (p-c)/r changes by dpdu/r and dpdv/r. (Violated for reversed orientation: the normal is flipped, its derivatives are not.)", "quantifier": "all spheres, length-preserving placements and rays hitting off the axis", "why_tests_cant": "Every shape, placement and ray; edges, poles, seams and tangent rays have measure zero and random tests do not hit them.", "anchors": ["pytracer/shape/sphere.py: Sphere.intersect", "pytracer/geometry/diffgeom.py: DifferentialGeometry.__init__"]}
{"id": "C189", "title": "Orientation of normals", "statement": "The normal at a hit points away from the sphere's centre and to the +z side of a disk, or to the other side if the shape was created with reversed orientation, under every placement including mirroring ones.", "quantifier": "all spheres and disks, placements and rays", "why_tests_cant": "Every shape, placement and ray; edges, poles, seams and tangent rays have measure zero and random tests do not hit them.", "anchors": ["pytracer/shape/sphere.py: Sphere.intersect", "pytracer/shape/disk.py: Disk.intersect", "pytracer/geometry/diffgeom.py: DifferentialGeometry.__init__", "pytracer/transform/__init__.py: swaps_handedness"]}
{"id": "C190", "title": "Environment picture", "statement": "An InfiniteAreaLight given a picture file shows that picture. (Violated: the picture is never used; the light always has its plain colour.)", "quantifier": "all colours, placements and picture files", "why_tests_cant": "Every position, direction and parameter of the light; the boundaries of cones and poles have measure zero.", "anchors": ["pytracer/light/light.py: InfiniteAreaLight.__init__", "pytracer/utility/imageio.py: read_image"]}
{"id": "C191", "title": "Escaping rays see the environment", "statement": "le(ray) of an InfiniteAreaLight returns the colour of the environment in the ray's direction. (Violated: it always raises TypeError.)", "quantifier": "all rays", "why_tests_cant": "Every position, direction and parameter of the light; the boundaries of cones and poles have measure zero.", "anchors": ["pytracer/light/light.py: InfiniteAreaLight.le"]}
{"id": "C192", "title": "Sampling the environment", "statement": "sample_l draws directions over the whole sphere with their density, the environment's colour and an unbounded shadow ray. (Violated: every draw gives the same direction with density NaN; colour and shadow ray are right.)", "quantifier": "all lights that are not black, points and random numbers in [0,1]", "why_tests_cant": "Every position, direction and parameter of the light; the boundaries of cones and poles have measure zero.", "anchors": ["pytracer/light/light.py: InfiniteAreaLight.sample_l", "pytracer/montecarlo/distribution.py: Distribution2D.sample_cont"]}
{"id": "C193", "title": "Density of environment directions", "statement": "pdf(p, w) is the solid-angle density with which sample_l draws w; it integrates to one over the sphere. (Violated: it is 1 for every direction but the poles.)", "quantifier": "all lights that are not black and directions", "why_tests_cant": "Every position, direction and parameter of the light; the boundaries of cones and poles have measure zero.", "anchors": ["pytracer/light/light.py: InfiniteAreaLight.pdf"]}
{"id": "C194", "title": "Environment emission and power", "statement": "power and sample_r of an InfiniteAreaLight can be used. (Violated: both raise.)", "quantifier": "all lights that are not black and random numbers in [0,1]", "why_tests_cant": "Every position, direction and parameter of the light; the boundaries of cones and poles have measure zero.", "anchors": ["pytracer/light/light.py: InfiniteAreaLight.power", "pytracer/light/light.py: InfiniteAreaLight.sample_r"]}
{"id": "C195", "title": "BVH construction keeps every primitive", "statement": "Whenever a BVH is built, by any split method, its stored primitive list is a permutation of the primitives given, and its leaves cover that list exactly once, in order.", "quantifier": "all split methods, leaf sizes and lists of bounds", "why_tests_cant": "Lists of boxes of every length and arrangement; construction and traversal go wrong only for particular ties, depths or rays.", "anchors": ["pytracer/aggregate/accelerator/bvh.py: BVH.__init__, _recursive_build"]}
{"id": "C196", "title": "Animated transforms outside their interval", "statement": "An AnimatedTransform acts as its first transform before the start time and as its second after the end time, and as the common transform at all times if both are equal, on points, vectors and rays.", "quantifier": "all pairs of transforms, intervals, times, points, vectors and rays", "why_tests_cant": "Every composition of transforms and every argument; a test multiplies a few matrices.", "anchors": ["pytracer/transform/__init__.py: AnimatedTransform.__init__, __call__, interpolate"]}
{"id": "C197", "title": "Unit quaternions are rotations", "statement": "The transform of a unit quaternion preserves dot products, has determinant one, and its inverse undoes it.", "quantifier": "all unit quaternions, vectors and points", "why_tests_cant": "Every composition of transforms and every argument; a test multiplies a few matrices.", "anchors": ["pytracer/transform/quat.py: Quaternion.to_transform"]}
{"id": "C198", "title": "One-dimensional tables", "statement": "A Distribution1D's cumulative table starts at 0, ends at 1, is non-decreasing and equals the normalised mass; its density integrates to one; discrete sampling returns the index whose cumulative interval holds the random number, with the interval's length as probability.", "quantifier": "all non-negative tables with positive total and random numbers in (0,1]", "why_tests_cant": "A law over a continuum of random numbers: a test draws finitely many and sees frequencies, not the law.", "anchors": ["pytracer/montecarlo/distribution.py: Distribution1D"]}
{"id": "C199", "title": "Two-dimensional tables", "statement": "Distribution2D.pdf(u, v) is the table's entry at the cell holding (u, v) divided by the table's mean.", "quantifier": "all non-negative rectangular tables with positive total and points of the unit square", "why_tests_cant": "A law over a continuum of random numbers: a test draws finitely many and sees frequencies, not the law.", "anchors": ["pytracer/montecarlo/distribution.py: Distribution2D.pdf"]}
{"id": "C200", "title": "Locked film updates are not lost", "statement": "With a reconstruction filter wider than half a pixel in some direction, for every schedule of any number of threads adding samples and splats, the final film equals adding the operations one after another.", "quantifier": "all films with such filters, numbers of threads, operations and interleavings", "why_tests_cant": "Every interleaving of any number of threads: a test run exercises one schedule and lost updates need particular ones.", "anchors": ["pytracer/film/film.py: ImageFilm.add_sample, ImageFilm.splat"]}
{"id": "C201", "title": "Crop windows are never empty and samples cover them", "statement": "Every film has at least one row and column of pixels, whatever the crop window, and the sample extent contains every integer position from which a sample reaches some pixel of the film.", "quantifier": "all resolutions, filters, crop windows and sample positions", "why_tests_cant": "Every sequence of samples, positions and window; off-by-one pixels show only for positions on particular borders.", "anchors": ["pytracer/film/film.py: ImageFilm.__init__, get_pixel_extent, get_sample_extent"]}
{"id": "C202", "title": "Triangle areas", "statement": "area() of a mesh triangle is half the length of the cross product of its edges in world space.", "quantifier": "all meshes, faces and placements", "why_tests_cant": "Every shape, placement and ray; edges, poles, seams and tangent rays have measure zero and random tests do not hit them.", "anchors": ["pytracer/shape/triangle.py: Triangle.area"]}
{"id": "C203", "title": "Equality of boxes", "statement": "Two boxes compare equal exactly if their corners agree.", "quantifier": "all pairs of finite boxes", "why_tests_cant": "Every vector, box and ray, including degenerate ones of measure zero which random tests do not draw.", "anchors": ["pytracer/geometry/__init__.py: BBox.__eq__"]}
{"id": "C204", "title": "Written pixels are bytes in order", "statement": "Writing a non-negative image stores values 0..255, never reverses the order of two values of the same channel, and maps the largest value of each channel which is not all zero to 255.", "quantifier": "all non-negative images", "why_tests_cant": "Every argument, including boundary values of measure zero.", "anchors": ["pytracer/utility/imageio.py: write_image"]}
{"id": "C205", "title": "Area sampling of cylinders", "statement": "Cylinder.sample returns points of the cylinder (radius, height range and angle range), placed in the world; every point of a cylinder with positive height and angle range is sampled, and uniformly: the points given by the first share b of the one random number and the first share a of the other are a patch whose area is a*b times area().", "quantifier": "all cylinders and random numbers in [0,1]", "why_tests_cant": "Every shape, placement and ray; edges, poles, seams and tangent rays have measure zero and random tests do not hit them.", "anchors": ["pytracer/shape/cylinder.py: Cylinder.sample"]}
{"id": "C206", "title": "Rejection sampling of the disk", "statement": "rejection_sample_disk returns only points of the unit disk, and returns as soon as a drawn pair is inside it.", "quantifier": "all random sequences", "why_tests_cant": "A law over a continuum of random numbers: a test draws finitely many and sees frequencies, not the law.", "anchors": ["pytracer/montecarlo/utility.py: rejection_sample_disk"]}
{"id": "C207", "title": "The nearest surface of a whole scene", "statement": "A scene built from triangle meshes, spheres and disks by their raw constructor arguments, put into a BVH, answers Scene.intersect with the nearest surface point of all objects within the ray's range, with a record describing it (position, primitive, offset, shortened ray), and Scene.intersect_p with whether there is any. (Violated: a sphere or disk placed by a mirroring or rotating transform can be missed.)", "quantifier": "all lists of meshes, spheres and disks, leaf sizes and rays", "why_tests_cant": "Every scene and ray; a test builds a few scenes.", "anchors": ["pytracer/scene/scene.py: Scene.intersect, Scene.intersect_p", "pytracer/aggregate/accelerator/bvh.py: BVH", "pytracer/aggregate/primitive.py: GeometricPrimitive, full_refine"]}
{"id": "C208", "title": "The shadow query and the nearest query agree", "statement": "Whenever Scene.intersect returns, Scene.intersect_p of the same ray returns the same answer; a miss leaves the ray and the record unchanged.", "quantifier": "all scenes (also malformed node arrays), rays and records", "why_tests_cant": "Every scene and ray; a test builds a few scenes.", "anchors": ["pytracer/scene/scene.py: Scene.intersect, Scene.intersect_p", "pytracer/aggregate/accelerator/bvh.py: BVH", "pytracer/aggregate/primitive.py: GeometricPrimitive, full_refine"]}
{"id": "C209", "title": "The record of a hit", "statement": "A hit of a primitive records the geometry of the hit, the primitive, its ids, its placement transforms and the offset, shortens the ray to the hit, and emits the area light's radiance on the side of the normal and black elsewhere; a miss changes nothing.", "quantifier": "all primitives, rays and directions", "why_tests_cant": "Every set of primitives and every ray; a wrong voxel or record shows only for particular positions.", "anchors": ["pytracer/aggregate/primitive.py: GeometricPrimitive.intersect", "pytracer/aggregate/intersection.py: Intersection.le"]}
{"id": "C210", "title": "Instancing", "statement": "A primitive can be placed in the scene again through a TransformedPrimitive. (Violated: TransformedPrimitive can never be instantiated, as it leaves abstract methods undefined.)", "quantifier": "all primitives and animated placements", "why_tests_cant": "Every set of primitives and every ray; a wrong voxel or record shows only for particular positions.", "anchors": ["pytracer/aggregate/primitive.py: TransformedPrimitive, GeometricPrimitive"]}
{"id": "C211", "title": "Microfacet distributions are normalised", "statement": "The projected area of the microfacets of a Blinn or anisotropic distribution, the integral of D(w) cos(theta) over the hemisphere, is one; exponents above 10000 are cut to 10000.", "quantifier": "all exponents above -1", "why_tests_cant": "Every pair of directions and every parameter; grazing, polar and total-reflection directions have measure zero.", "anchors": ["pytracer/reflection/bdf/torrance.py: Blinn.D", "pytracer/reflection/bdf/torrance.py: Anisotropic.D"]}
{"id": "C212", "title": "Half vectors are drawn by the reported density", "statement": "sample_f of both microfacet distributions inverts the cumulative distributions (azimuth, then height given the azimuth) of the half-vector density, turns the half vector to the side of wo, reflects wo about it and reports the density divided by 4 wo.wh.", "quantifier": "all exponents above -1, outgoing directions and random numbers in (0,1) except 1/4 and 3/4", "why_tests_cant": "Every pair of directions and every parameter; grazing, polar and total-reflection directions have measure zero.", "anchors": ["pytracer/reflection/bdf/torrance.py: Blinn.sample_f", "pytracer/reflection/bdf/torrance.py: Anisotropic.sample_f"]}
{"id": "C213", "title": "The Fresnel blend", "statement": "The specular part of FresnelBlend runs from the given reflectance at normal incidence monotonically to white at grazing angles and scales the microfacet distribution; the diffuse part has hemispherical albedo Rd (1-Rs) (1-(1-|cos|/2)^5); sampling is an even mixture of cosine and microfacet sampling, and pdf is the mean of their densities.", "quantifier": "all colours, distributions, directions and random numbers", "why_tests_cant": "Every pair of directions and every parameter; grazing, polar and total-reflection directions have measure zero.", "anchors": ["pytracer/reflection/bdf/fresnelblend.py: FresnelBlend.schlick", "pytracer/reflection/bdf/fresnelblend.py: FresnelBlend.f", "pytracer/reflection/bdf/fresnelblend.py: FresnelBlend.sample_f", "pytracer/reflection/bdf/fresnelblend.py: FresnelBlend.pdf"]}
{"id": "C214", "title": "Albedo estimates", "statement": "rho_hd and rho_hh of a lobe give the colour of a Lambertian lobe, the Fresnel reflectance of a mirror, and for every other lobe but a scaled one the mean of f |cos| / pdf over the directions drawn (weighted by twice the outgoing cosine for rho_hh); a BSDF sums its matching lobes.", "quantifier": "all lobes, directions and sample lists", "why_tests_cant": "Every pair of directions and every parameter; grazing, polar and total-reflection directions have measure zero.", "anchors": ["pytracer/reflection/bdf/bdf.py: BDF.rho_hd", "pytracer/reflection/bdf/bdf.py: BDF.rho_hh", "pytracer/reflection/bsdf.py: BSDF.rho_hd", "pytracer/reflection/bsdf.py: BSDF.rho_hh"]}
{"id": "C215", "title": "Albedo of scaled lobes", "statement": "rho_hd and rho_hh of a scaled lobe, or of a surface with one, give the scaled albedo. (Violated: they always raise AttributeError.)", "quantifier": "all scaled lobes and surfaces starting with one", "why_tests_cant": "Every pair of directions and every parameter; grazing, polar and total-reflection directions have measure zero.", "anchors": ["pytracer/reflection/bdf/bdf.py: ScaledBDF.rho_hd", "pytracer/reflection/bdf/bdf.py: ScaledBDF.rho_hh"]}
{"id": "C216", "title": "Highlights peak at the mirror direction", "statement": "A microfacet distribution with non-negative exponents is largest at the surface normal. (Violated: the anisotropic one is zero there and positive everywhere else off the horizon.)", "quantifier": "all exponents and unit half vectors", "why_tests_cant": "Every pair of directions and every parameter; grazing, polar and total-reflection directions have measure zero.", "anchors": ["pytracer/reflection/bdf/torrance.py: Blinn.D", "pytracer/reflection/bdf/torrance.py: Anisotropic.D"]}
{"id": "C217", "title": "Homogeneous division", "statement": "A Transform maps a point to its homogeneous image divided by w. (Violated: the division is skipped if w differs from 1 by up to 1e-5.)", "quantifier": "all transforms and points", "why_tests_cant": "Every composition of transforms and every argument; a test multiplies a few matrices.", "anchors": ["pytracer/transform/__init__.py: Transform.__call__", "pytracer/utility/utility.py: ne_unity"]}
{"id": "C218", "title": "Scene bound is the tight union of everything in the scene", "statement": "Scene.world_bound() is the least axis-aligned box that encloses the world bounds of all (fully refined) primitives of the aggregate and, when there is a participating medium, its world bound; in particular it contains every surface point of every object and every point of the medium's bound.", "quantifier": "every scene over a BVH (any number of triangle meshes, spheres and disks, or none), with or without a medium, every surface point", "why_tests_cant": "Every scene and ray; a test builds a few scenes.", "anchors": ["pytracer/scene/scene.py:Scene.__init__, Scene.world_bound", "pytracer/aggregate/accelerator/bvh.py:BVH.world_bound", "pytracer/geometry/__init__.py:BBox.union"]}
{"id": "C219", "title": "Queries in a scene with a medium still find the nearest surface", "statement": "Building a Scene with a participating medium does not change what ray queries report: Scene.intersect returns the nearest surface point over all objects with a record describing it, and Scene.intersect_p reports a hit iff some surface lies in the ray's interval, although the constructor enlarges the bounding box of the tree's root. (Violated: where a primitive's own bound is wrong, as for a sphere mirrored in x, the object is missed without a medium and found with one; proved under the conditions of C207, with no condition on the medium's box.)", "quantifier": "every scene of meshes, spheres and disks, every box-shaped medium bound, every ray satisfying the stated conditions, every tree shape of height at most 64", "why_tests_cant": "Every scene and ray; a test builds a few scenes.", "anchors": ["pytracer/scene/scene.py:Scene", "pytracer/aggregate/accelerator/bvh.py:BVH.intersect, BVH.intersect_p, BVH.world_bound"]}
{"id": "C220", "title": "Building a scene leaves the aggregate unchanged", "statement": "Constructing a Scene does not modify the aggregate it is given, so two scenes can share one aggregate. (Violated: with a medium the constructor unions the medium's bound into the box object owned by the tree's root, so a second scene over the same aggregate without a medium reports a bound that contains the first scene's medium.)", "quantifier": "every aggregate and every medium; every sequence of scenes built over one aggregate", "why_tests_cant": "Every scene and ray; a test builds a few scenes.", "anchors": ["pytracer/scene/scene.py:Scene.__init__", "pytracer/aggregate/accelerator/bvh.py:BVH.world_bound"]}
{"id": "C221", "title": "Rendered pixels are averages of what the rays saw", "statement": "Rendering over the film's own sample extent with a unit-weight camera, intersection tests and an integrator that do not raise, and a filter that is nonnegative, positive in its interior and at least half a pixel wide, finishes and yields an image in which every pixel of the film is (up to 1e-6 relative, the rounding of the XYZ round trip) a weighted average of the returned radiances: if every ray's radiance lies between lo and hi (both nonnegative, a missed ray counting as black) so does every pixel, and if every ray returns radiance L every pixel is L.", "quantifier": "every image size and crop window, sampling density, jitter choice and random draws, radiance function with state, filter, splat scale", "why_tests_cant": "A test renders a few pictures of one scene; the bound must hold for every scene, film, filter and sequence of random draws.", "anchors": ["pytracer/renderer/renderer.py:SamplerRenderer.render", "pytracer/renderer/renderer.py:SamplerRendererTask", "pytracer/film/film.py:ImageFilm", "pytracer/sampler/sampler/stratified.py: StratifiedSampler"]}
{"id": "C222", "title": "Reported surface areas", "statement": "area() of a (partial) sphere, cylinder, disk or triangle is the area, as a surface integral, of exactly the surface that its intersection test sees in object space.", "quantifier": "every radius, z range, sweep angle, hole and triple of corners", "why_tests_cant": "Areas are integrals over a continuum of shapes; a test compares a few closed forms.", "anchors": ["pytracer/shape/sphere.py:Sphere.area", "pytracer/shape/cylinder.py:Cylinder.area", "pytracer/shape/disk.py:Disk.area", "pytracer/shape/triangle.py:Triangle.area"]}
{"id": "C223", "title": "Surface coordinates and tangents of quadric hits", "statement": "At a hit the reported (u,v) lie in the unit square and are the surface parameters of the hit point, and dp/du, dp/dv are the derivatives of the surface parametrisation there. (Violated: the v of a sphere hit is multiplied by the polar range instead of divided by it, so it exceeds 1; a disk with a hole reports negative v at its rim.)", "quantifier": "every sphere, disk, placement and ray", "why_tests_cant": "The relation is between a derivative and a returned value at every hit point.", "anchors": ["pytracer/shape/sphere.py:Sphere.intersect", "pytracer/shape/disk.py:Disk.intersect"]}
{"id": "C224", "title": "Triangle hit parameters", "statement": "A triangle hit reports the (u,v) interpolated between its corners' coordinates with the barycentric weights of the hit point; without coordinates the corners are (0,0), (1,0), (1,1).", "quantifier": "every mesh, face, ray", "why_tests_cant": "Every shape, placement and ray; edges, poles, seams and tangent rays have measure zero and random tests do not hit them.", "anchors": ["pytracer/shape/triangle.py:Triangle.intersect", "pytracer/shape/triangle.py:Triangle.get_uvs"]}
{"id": "C225", "title": "Sampling a sphere from a point", "statement": "Seen from a point outside, the cone of directions sampled is exactly the set of directions that point into the sphere; the sampled direction's cosine is uniform in the cone, the sampled point lies on the surface where the ray meets it (or is the ray's closest point when it only grazes), the normal points away from the centre (towards it when reversed), and the density is the reciprocal of the cone's solid angle; from within, area sampling and its density are used.", "quantifier": "every sphere, placement, reference point and variate pair", "why_tests_cant": "Every shape, placement and ray; edges, poles, seams and tangent rays have measure zero and random tests do not hit them.", "anchors": ["pytracer/shape/sphere.py:Sphere.sample_p", "pytracer/shape/sphere.py:Sphere.pdf_p"]}
{"id": "C226", "title": "Normals of area samples", "statement": "The normal returned with an area sample of a sphere or cylinder has unit length, is perpendicular to the surface's tangents at the sampled object-space point also after the transform, and points away from the axis or centre, or towards it when the orientation is reversed.", "quantifier": "every sphere, cylinder, placement and variate pair", "why_tests_cant": "Every shape, placement and ray; edges, poles, seams and tangent rays have measure zero and random tests do not hit them.", "anchors": ["pytracer/shape/sphere.py:Sphere.sample", "pytracer/shape/cylinder.py:Cylinder.sample"]}
{"id": "C227", "title": "Offsets that keep secondary rays off the surface", "statement": "The ray offset reported with a hit is 1e-5 times the hit parameter for spheres and disks and 1e-3 times for triangles.", "quantifier": "every shape, placement and ray", "why_tests_cant": "Every shape, placement and ray; edges, poles, seams and tangent rays have measure zero and random tests do not hit them.", "anchors": ["pytracer/shape/sphere.py:Sphere.intersect", "pytracer/shape/disk.py:Disk.intersect", "pytracer/shape/triangle.py:Triangle.intersect"]}
{"id": "C228", "title": "Directions that miss a sphere have no density", "statement": "The density with which a sphere is sampled towards a direction is zero if the direction misses the sphere. (Violated for points outside: the cone density is returned for every direction.)", "quantifier": "every sphere, placement, point, direction", "why_tests_cant": "Every shape, placement and ray; edges, poles, seams and tangent rays have measure zero and random tests do not hit them.", "anchors": ["pytracer/shape/sphere.py:Sphere.pdf_p"]}
{"id": "C229", "title": "Estimating direct light leaves the lights unchanged", "statement": "After any history of direct-light requests an area light still emits what it did at the start, and each request is answered as a fresh light would answer it. (Violated in a medium: the estimate multiplies the light's own radiance array by the transmittance in place, so every visible request darkens the light for all later ones.)", "quantifier": "every scene, area light, medium, and sequence of requests", "why_tests_cant": "The effect is one of history: a test of single estimates cannot see it.", "anchors": ["pytracer/integrator/utility.py:estimate_direct", "pytracer/light/light.py:DiffuseAreaLight.l", "pytracer/light/light.py:DiffuseAreaLight.sample_l"]}
{"id": "C230", "title": "Rays that leave the scene see only environment light", "statement": "A ray that hits nothing brings the radiance of the environment lights along it and nothing else; with delta lights only, it brings none. (Violated: every area light adds its emission to every escaping ray, and an environment light makes the query raise.)", "quantifier": "every list of lights and ray", "why_tests_cant": "Every scene, film and random stream; a test renders a handful of small images.", "anchors": ["pytracer/renderer/renderer.py:SamplerRenderer.li", "pytracer/light/light.py:DiffuseAreaLight.le", "pytracer/light/light.py:Light.le"]}
{"id": "C231", "title": "Differences of points are vectors", "statement": "The difference of two points is a vector that added to the second gives the first; a point minus a vector is the point from which the vector leads back; taking a number or a normal from a point and decreasing a point in place raise TypeError; face_forward accepts a normal and a vector only and returns the normal or its negation, whichever does not point away.", "quantifier": "all finite coordinates; refusals for all values", "why_tests_cant": "Every vector, box and ray, including degenerate ones of measure zero which random tests do not draw.", "anchors": ["pytracer/geometry/__init__.py:Point.__sub__", "pytracer/geometry/__init__.py:Point.__isub__", "pytracer/geometry/utility.py:face_forward"]}
{"id": "C232", "title": "Sums respect the kinds of their operands", "statement": "A point plus a vector is a point, a vector plus a vector a vector, scaling and negation keep the kind; meaningless sums are refused. (Violated: a vector plus a point is a vector, two points or a point and a number can be added.)", "quantifier": "all values", "why_tests_cant": "Every vector, box and ray, including degenerate ones of measure zero which random tests do not draw.", "anchors": ["pytracer/geometry/__init__.py:Vector", "pytracer/geometry/__init__.py:Point", "pytracer/geometry/__init__.py:Normal"]}
{"id": "C233", "title": "No NaN coordinates", "statement": "Constructors and from_arr refuse NaN (and arrays not of length three), subtraction from a point never yields NaN, and arithmetic on finite objects stays free of NaN. Objects in general never hold NaN. (Violated: inherited arithmetic on infinite components creates NaN objects without raising.)", "quantifier": "all IEEE values", "why_tests_cant": "Every vector, box and ray, including degenerate ones of measure zero which random tests do not draw.", "anchors": ["pytracer/geometry/__init__.py:Vector.__init__", "pytracer/geometry/__init__.py:Point.__init__", "pytracer/geometry/__init__.py:Normal.__init__", "pytracer/geometry/__init__.py:Point.__sub__"]}
{"id": "C234", "title": "Equality of points, vectors and normals", "statement": "== holds exactly if all components are equal and none is NaN (whatever the classes), != is its negation, and == is an equivalence on NaN-free objects.", "quantifier": "all IEEE values and classes", "why_tests_cant": "Every vector, box and ray, including degenerate ones of measure zero which random tests do not draw.", "anchors": ["pytracer/geometry/__init__.py:Vector.__eq__", "pytracer/geometry/__init__.py:Vector.__ne__", "pytracer/geometry/__init__.py:Point.__eq__", "pytracer/geometry/__init__.py:Point.__ne__"]}
{"id": "C235", "title": "Creating spectra", "statement": "Creating a coefficient spectrum from a spectrum or a flat sequence of numbers copies its coefficients in order; anything else (scalars, nested sequences) raises TypeError; a sampled spectrum created without arguments has thirty coefficients, all zero, and is black.", "quantifier": "every list of coefficients", "why_tests_cant": "Every spectrum and wavelength interval; the wrong ones end on a table entry, which random tests do not hit.", "anchors": ["pytracer/spectral/spectrum.py:CoefficientSpectrum.create", "pytracer/spectral/spectrum.py:SampledSpectrum.__init__"]}
{"id": "C236", "title": "RGB spectra from three numbers", "statement": "Creating an RGB spectrum from a spectrum with three coefficients copies them and refuses other lengths; creating one from a sequence of three numbers holds these numbers. (Violated: three floats raise TypeError, and three integers are taken for the shape of an uninitialised array.)", "quantifier": "every sequence of three numbers", "why_tests_cant": "Every spectrum and wavelength interval; the wrong ones end on a table entry, which random tests do not hit.", "anchors": ["pytracer/spectral/spectrum.py:RGBSpectrum.create"]}
{"id": "C237", "title": "Luminance and XYZ values of sampled spectra", "statement": "The XYZ values of a sampled spectrum are its sums weighted with the three matching curves, times ten nanometres over the integral of the Y curve; the luminance is the Y value, is linear, nonnegative for nonnegative spectra, and that of the RGB colour computed from it agrees up to the rounding of the conversion matrix; before the class is initialised, or for a wrong number of coefficients, the queries raise.", "quantifier": "every matching curve table and coefficient list", "why_tests_cant": "Every spectrum and wavelength interval; the wrong ones end on a table entry, which random tests do not hit.", "anchors": ["pytracer/spectral/spectrum.py:SampledSpectrum.y", "pytracer/spectral/spectrum.py:SampledSpectrum.to_xyz", "pytracer/spectral/spectrum.py:SampledSpectrum.to_rgb"]}
{"id": "C238", "title": "Powers of spectra", "statement": "The square root of a nonnegative spectrum is the nonnegative spectrum whose square it is, powers act coefficient by coefficient, and exponents add under multiplication.", "quantifier": "every list of coefficients and natural exponents", "why_tests_cant": "Every spectrum and wavelength interval; the wrong ones end on a table entry, which random tests do not hit.", "anchors": ["pytracer/spectral/spectrum.py:CoefficientSpectrum.sqrt", "pytracer/spectral/spectrum.py:CoefficientSpectrum.pow"]}
{"id": "C239", "title": "Creating subdivision surfaces from parameters", "statement": "Creating a subdivision surface from a parameter set gives nothing when the indices or positions are missing or their number is not divisible by three, raises IndexError when an index names no vertex, and otherwise gives the surface whose triangle f joins the vertices indices[3f], indices[3f+1], indices[3f+2], whose vertex i lies at P[3i], P[3i+1], P[3i+2], with three levels unless another number is given.", "quantifier": "every parameter set describing a surface", "why_tests_cant": "Control meshes of every size and connectivity; the failing ones (borders, extraordinary vertices) are rare among the few a test would try.", "anchors": ["pytracer/shape/loopsubdiv.py: create_loop_subdiv", "pytracer/shape/loopsubdiv.py: LoopSubdiv.__init__"]}
{"id": "C240", "title": "World bound of subdivision surfaces", "statement": "The world bound of a subdivision surface is the smallest box around its placed control vertices; when the placement is affine it also contains every vertex of every refinement level and of the limit surface handed to the renderer.", "quantifier": "every surface, placement and number of levels", "why_tests_cant": "Control meshes of every size and connectivity; the failing ones (borders, extraordinary vertices) are rare among the few a test would try.", "anchors": ["pytracer/shape/loopsubdiv.py: LoopSubdiv.world_bound"]}
{"id": "C241", "title": "Refining leaves the surface unchanged", "statement": "Refining a subdivision surface does not change the surface: however often it is refined, each refinement gives the same mesh and the bounds stay the same. (Violated: with zero levels refining overwrites the surface's own vertices by their limit positions, so that a second refinement gives other positions.)", "quantifier": "every surface, number of levels and number of refinements", "why_tests_cant": "Control meshes of every size and connectivity; the failing ones (borders, extraordinary vertices) are rare among the few a test would try.", "anchors": ["pytracer/shape/loopsubdiv.py: LoopSubdiv.refine"]}
{"id": "C242", "title": "Open subdivision surfaces in scenes", "statement": "An open subdivision surface whose vertex 0 lies on a border is rendered as the triangles of its last level at their limit positions, with its own placement, material and light. In a scene of meshes, spheres, disks and such surfaces, put into a BVH whose depth fits the traversal stack, a ray that runs in no x-face of a bound and whose zero direction components are positive gets from Scene.intersect the nearest surface point of all objects in its range, and from Scene.intersect_p whether there is any.", "quantifier": "every list of such objects, every leaf size of at most four and every ray", "why_tests_cant": "Control meshes of every size and connectivity; the failing ones (borders, extraordinary vertices) are rare among the few a test would try.", "anchors": ["pytracer/shape/loopsubdiv.py: LoopSubdiv.refine", "pytracer/aggregate/primitive.py: Primitive.full_refine, GeometricPrimitive.refine", "pytracer/aggregate/accelerator/bvh.py: BVH"]}
{"id": "C243", "title": "Rays made from rays", "statement": "A ray or ray differential made from another is a copy; a child ray has its parent's time, a depth one larger, and its own origin, direction and range, so that the depth counts the generations since the camera; scaling a ray differential multiplies its offsets from the main ray, leaves the main ray alone, and scalings compose.", "quantifier": "every ray, differential, chain of children and factor", "why_tests_cant": "Every vector, box and ray, including degenerate ones of measure zero which random tests do not draw.", "anchors": ["pytracer/geometry/__init__.py: Ray.from_parent, Ray.from_ray, RayDifferential.from_parent, RayDifferential.from_ray, RayDifferential.scale_differential"]}
{"id": "C244", "title": "Progress display", "statement": "For an iteration between zero and a positive total the bar has the requested length, its filled part comes first and is the done proportion rounded down, never shrinks as the iteration advances, and is full only at completion, where a second full bar is printed; a total of zero raises ZeroDivisionError.", "quantifier": "every iteration, total and length", "why_tests_cant": "Every argument, including boundary values of measure zero.", "anchors": ["pytracer/utility/utility.py: progress_reporter"]}
{"id": "C245", "title": "Indexing of boxes", "statement": "Indexing a box by 0 gives its lower corner, by 1 its upper one, and any other integer raises KeyError.", "quantifier": "every box and integer", "why_tests_cant": "Every vector, box and ray, including degenerate ones of measure zero which random tests do not draw.", "anchors": ["pytracer/geometry/__init__.py: BBox.__getitem__"]}
{"id": "C246", "title": "Stratified samples under rounding", "statement": "In float64 arithmetic every stratified sample lies between the rounded ends of its stratum, the samples are in order, and all are in [0,1). (Violated: for every number of strata from two on, the largest draw makes the last sample exactly 1.)", "quantifier": "every number of strata, stratum and float64 draw in [0,1)", "why_tests_cant": "Rounding errors appear for a few of the 2^64 floating-point inputs only; a test is unlikely to draw them and cannot draw all.", "anchors": ["pytracer/sampler/utility.py: stratified_sample_1d, stratified_sample_2d, latin_hypercube_1d, latin_hypercube_2d"]}
{"id": "C247", "title": "Image positions under rounding", "statement": "In float64 arithmetic the image position of a sample drawn for a pixel lies in that pixel, at or above its coordinate and below the next one. (Violated: in every column but the first the largest draw gives the coordinate of the next pixel.)", "quantifier": "every pixel, stratum and float64 draw", "why_tests_cant": "Rounding errors appear for a few of the 2^64 floating-point inputs only; a test is unlikely to draw them and cannot draw all.", "anchors": ["pytracer/sampler/sampler/stratified.py: StratifiedSampler.generate"]}
{"id": "C248", "title": "Samples reach their own pixel under rounding", "statement": "In float64 arithmetic the pixels a sample updates are on the film and the filter entries it uses are in the table; a sample drawn for a pixel of the film always reaches that pixel if the filter is at least half a pixel wide.", "quantifier": "every sample position, film and filter width", "why_tests_cant": "Rounding errors appear for a few of the 2^64 floating-point inputs only; a test is unlikely to draw them and cannot draw all.", "anchors": ["pytracer/film/film.py: ImageFilm.add_sample"]}
{"id": "C249", "title": "Interpolation and sample times under rounding", "statement": "In float64 arithmetic interpolating hits both end points, is within 2^-50 relative error of the exact value, and stays between the end points, so that sample times stay within the shutter interval. (Violated: interpolating between 3 and 3 at one fifth gives more than 3; it does stay in range when the end points are not of the same sign, as for a shutter that opens at time 0.)", "quantifier": "every pair of float64 end points and parameter in [0,1]", "why_tests_cant": "Rounding errors appear for a few of the 2^64 floating-point inputs only; a test is unlikely to draw them and cannot draw all.", "anchors": ["pytracer/utility/utility.py: lerp", "pytracer/sampler/sampler/stratified.py: StratifiedSampler.generate"]}
{"id": "C250", "title": "Image bytes under rounding", "statement": "In float64 arithmetic no value of a nonnegative image wraps around when written as a byte, the order of values in a channel is kept, zero stays zero, and the brightest value of a channel becomes 255. (Violated: it can become 254.)", "quantifier": "every nonnegative float64 channel with a positive maximum", "why_tests_cant": "Rounding errors appear for a few of the 2^64 floating-point inputs only; a test is unlikely to draw them and cannot draw all.", "anchors": ["pytracer/utility/imageio.py: write_image"]}
{"id": "C251", "title": "BVH buckets under rounding", "statement": "In float64 arithmetic the bucket of a centroid is always one of the n buckets, so that the assertion in the builder never fails; buckets follow the order of the centroids; the least centroid falls into the first and the greatest into the last bucket, so that every split between buckets leaves a primitive on either side.", "quantifier": "every number of buckets and all float64 centroids", "why_tests_cant": "Rounding errors appear for a few of the 2^64 floating-point inputs only; a test is unlikely to draw them and cannot draw all.", "anchors": ["pytracer/aggregate/accelerator/bvh.py: BVH._bucket_partition, BVH._recursive_build"]}
{"id": "C252", "title": "Balance weights under rounding", "statement": "In float64 arithmetic the balance heuristic's weight is in [0,1] whenever a product of count and density is positive, is 1 for the only strategy, and the two weights add up to 1 within 2^-50.", "quantifier": "all nonnegative counts and densities", "why_tests_cant": "Rounding errors appear for a few of the 2^64 floating-point inputs only; a test is unlikely to draw them and cannot draw all.", "anchors": ["pytracer/montecarlo/utility.py: balance_heuristic"]}
{"id": "C253", "title": "Power weights under rounding", "statement": "In float64 arithmetic the power heuristic's weight is defined and in [0,1] whenever a density is positive, and 1 for the only strategy. (Violated: the squares of two tiny densities both vanish and the code divides zero by zero; it cannot happen from 2^-500 on.)", "quantifier": "all nonnegative counts and densities", "why_tests_cant": "Rounding errors appear for a few of the 2^64 floating-point inputs only; a test is unlikely to draw them and cannot draw all.", "anchors": ["pytracer/montecarlo/utility.py: power_heuristic"]}
{"id": "C254", "title": "One-dimensional tables under rounding", "statement": "In float64 arithmetic the cumulative table of a Distribution1D starts at 0, never decreases and ends at exactly 1; a draw above 0 selects an entry with a positive value whose cumulative interval holds the draw, without dividing by zero, and a point between the rounded ends of its cell, in [0,1), with a nonnegative density. (Violated: for the table 1, 3 a draw below 1 gives the point 1.)", "quantifier": "every nonnegative table with a positive rounded sum and every float64 draw", "why_tests_cant": "Rounding errors appear for a few of the 2^64 floating-point inputs only; a test is unlikely to draw them and cannot draw all.", "anchors": ["pytracer/montecarlo/distribution.py: Distribution1D.__init__, Distribution1D.sample_cont, Distribution1D.sample_dis"]}
{"id": "C255", "title": "Boxes are never missed under rounding", "statement": "In float64 arithmetic BBox.intersect_p reports a hit for every ray that meets the box within its range. (Violated: a ray that meets a box exactly at parameter 255 is reported to miss it; rays starting in the box, and rays from the coordinate origin that meet it at a float64 parameter, are never missed.)", "quantifier": "every box and ray without zero direction components", "why_tests_cant": "Rounding errors appear for a few of the 2^64 floating-point inputs only; a test is unlikely to draw them and cannot draw all.", "anchors": ["pytracer/geometry/__init__.py: BBox.intersect_p"]}
{"id": "C256", "title": "BVH nodes are never missed under rounding", "statement": "In float64 arithmetic the box test of the BVH accepts every ray that meets the box within its range, so that the BVH skips no primitive. (Violated: the ray from the origin along (1, 49, 1) meets the box from (1, 0, 0) to (2, 49, 2) and is rejected; unit rays starting strictly inside a box are always accepted.)", "quantifier": "every box and ray without zero direction components", "why_tests_cant": "Rounding errors appear for a few of the 2^64 floating-point inputs only; a test is unlikely to draw them and cannot draw all.", "anchors": ["pytracer/aggregate/accelerator/bvh.py: BVH._intersect_p"]}
{"id": "C257", "title": "Crop windows under rounding", "statement": "In float64 arithmetic the crop window from 0 to 1 is the whole film, every window starts on the film, at the exact first column or the one before it, and of two windows sharing an edge the second begins right after the last column of the first, unless the first contains no column and is widened to one.", "quantifier": "every resolution and all crop windows", "why_tests_cant": "Rounding errors appear for a few of the 2^64 floating-point inputs only; a test is unlikely to draw them and cannot draw all.", "anchors": ["pytracer/film/film.py: ImageFilm.__init__"]}
{"id": "C258", "title": "Voxels under rounding", "statement": "In float64 arithmetic the voxel of a position is one of the grid's, and a point between the corners of a primitive's bound lies between the voxels of these corners, among which the primitive was stored.", "quantifier": "every grid, bound and point", "why_tests_cant": "Rounding errors appear for a few of the 2^64 floating-point inputs only; a test is unlikely to draw them and cannot draw all.", "anchors": ["pytracer/aggregate/aggregate.py: GridAccel.pos2voxel"]}
{"id": "C259", "title": "Primitives of a scene have distinct identifiers", "statement": "When the shapes of a scene, each created with its own shape and primitive number, are broken up into the primitives the renderer intersects, every resulting primitive carries a shape number and a primitive number that no other one has, and all of them are below the next number to be handed out. In particular the triangles of two meshes never share a number, nor does a triangle with a sphere.", "quantifier": "every list of spheres, disks and triangle meshes and every state of the two counters above the numbers already used", "why_tests_cant": "Every scene and refinement order; identifiers collide only in particular combinations.", "anchors": ["pytracer/aggregate/primitive.py: GeometricPrimitive.refine, Primitive.full_refine", "pytracer/shape/triangle.py: TriangleMesh.refine", "pytracer/shape/__init__.py: Shape.__init__"]}
{"id": "C260", "title": "Roughness of plastic, metal and uber materials", "statement": "A material with roughness r > 0 has a glossy lobe whose microfacet density is (e + 2) / 2 pi times the e-th power of the cosine of the half vector, where e is 1/r, or 10000 if that is smaller; plastic has exactly one diffuse lobe of colour Kd and this lobe with colour Ks and index 1.5, metal exactly this lobe with the conductor's eta and k, and the uber material contains it with colour opacity times Ks unless that is black.", "quantifier": "all textures, hit points and positive roughness values", "why_tests_cant": "Every surface point, texture value and pair of directions; a test evaluates a few.", "anchors": ["pytracer/material/material.py: PlasticMaterial.get_bsdf, MetalMaterial.get_bsdf, UberMaterial.get_bsdf", "pytracer/reflection/bdf/torrance.py: Blinn"]}
{"id": "C261", "title": "Transforms that are exact under rounding", "statement": "In float64 arithmetic the identity transform returns every point and vector bit for bit; a translation does so with vectors and gives the float64 point nearest to the exact one; scaling by powers of two not below one is exact; a matrix of whole numbers up to 2^24 (projective ones included) takes a point with such coordinates to the float64 point nearest to the exact image and a vector to its exact image.", "quantifier": "all points and vectors with float64 coordinates", "why_tests_cant": "Rounding errors appear for a few of the 2^64 floating-point inputs only; a test is unlikely to draw them and cannot draw all.", "anchors": ["pytracer/transform/__init__.py: Transform.__call__, Transform.translate, Transform.scale"]}
{"id": "C262", "title": "Normalising vectors under rounding", "statement": "In float64 arithmetic a vector with at least one component of size 2^-500 or more is brought to length 1 up to 2^-47, each component being within 2^-49 of the exact one; the zero vector is returned unchanged. (Overflow is not modelled.)", "quantifier": "all float64 vectors of that size", "why_tests_cant": "Rounding errors appear for a few of the 2^64 floating-point inputs only; a test is unlikely to draw them and cannot draw all.", "anchors": ["pytracer/geometry/__init__.py: Vector.normalize, Vector.length", "pytracer/geometry/utility.py: normalize"]}
{"id": "C263", "title": "Symmetries of products under rounding", "statement": "In float64 arithmetic the dot product is symmetric and changes sign with an argument, the cross product changes sign exactly when its arguments are swapped and is zero for a vector with itself, and a vector and its negative have the same, non-negative length, whose square is the dot product with itself.", "quantifier": "all float64 vectors", "why_tests_cant": "Rounding errors appear for a few of the 2^64 floating-point inputs only; a test is unlikely to draw them and cannot draw all.", "anchors": ["pytracer/geometry/__init__.py: Vector.dot, Vector.cross, Vector.sq_length, Vector.length", "pytracer/geometry/utility.py: normalize"]}
{"id": "C264", "title": "Pixel sums under rounding", "statement": "In float64 arithmetic the total of n contributions to a pixel differs from the exact sum by at most ((1 + 2^-53)^n - 1) times the sum of their sizes; of non-negative contributions it is at least each of them; whole-number contributions (the weights of a box filter) are counted exactly up to 2^53.", "quantifier": "all finite sequences of float64 contributions", "why_tests_cant": "Rounding errors appear for a few of the 2^64 floating-point inputs only; a test is unlikely to draw them and cannot draw all.", "anchors": ["pytracer/film/film.py: ImageFilm.add_sample"]}
{"id": "C265", "title": "Weights of a triangle sample under rounding", "statement": "In float64 arithmetic the three weights of a sampled triangle point are between 0 and 1 and sum to 1. (Violated: the third weight can be negative, by at most 2^-51, and the sum is within 2^-51 of 1.)", "quantifier": "all draws in [0, 1]", "why_tests_cant": "Rounding errors appear for a few of the 2^64 floating-point inputs only; a test is unlikely to draw them and cannot draw all.", "anchors": ["pytracer/montecarlo/utility.py: uniform_sample_triangle", "pytracer/shape/triangle.py: Triangle.sample"]}
{"id": "C266", "title": "Cone samples under rounding", "statement": "In float64 arithmetic the cosine chosen by uniform_sample_cone lies between -1 and 1, is not below the cone's cosine by more than 2^-50 and is within 2^-50 of the exact one, so that the square root taken for the sine has an argument between 0 and 1 (no NaN).", "quantifier": "all draws in [0, 1] and cones with cosine in [-1, 1]", "why_tests_cant": "Rounding errors appear for a few of the 2^64 floating-point inputs only; a test is unlikely to draw them and cannot draw all.", "anchors": ["pytracer/montecarlo/utility.py: uniform_sample_cone"]}
{"id": "C267", "title": "A translation and its inverse under rounding", "statement": "In float64 arithmetic a translation followed by its inverse returns the point. (Violated: after a translation by 2^52 the coordinate 1/4 comes back as 0; with whole-number coordinates up to 2^53 it is exact.)", "quantifier": "all points and translations with float64 coordinates", "why_tests_cant": "Rounding errors appear for a few of the 2^64 floating-point inputs only; a test is unlikely to draw them and cannot draw all.", "anchors": ["pytracer/transform/__init__.py: Transform.__call__, Transform.translate, Transform.scale"]}
{"id": "C268", "title": "Normalising very short vectors", "statement": "In float64 arithmetic normalising a vector other than zero gives a vector of length about 1. (Violated: if no component exceeds 2^-538 the vector is returned unchanged, because its squared length rounds to 0.)", "quantifier": "all float64 vectors", "why_tests_cant": "Rounding errors appear for a few of the 2^64 floating-point inputs only; a test is unlikely to draw them and cannot draw all.", "anchors": ["pytracer/geometry/__init__.py: Vector.normalize, Vector.length", "pytracer/geometry/utility.py: normalize"]}
{"id": "C269", "title": "Pixel sums and the order of samples", "statement": "In float64 arithmetic a pixel does not depend on the order in which the samples arrive. (Violated: 2^52, 3/8, 3/8 sums to 2^52 but 3/8, 3/8, 2^52 to 2^52 + 1; the difference is at most twice the bound of C264.)", "quantifier": "all sequences of contributions and their permutations", "why_tests_cant": "Rounding errors appear for a few of the 2^64 floating-point inputs only; a test is unlikely to draw them and cannot draw all.", "anchors": ["pytracer/film/film.py: ImageFilm.add_sample"]}
{"id": "C270", "title": "What a diffuse scene lit by point lights looks like", "statement": "A scene of matte triangle meshes, spheres and disks (one colour per object, sigma 0) lit by point lights, built by the constructors: rendered with the Whitted integrator a ray yields the sum over the lamps of Kd/pi times I |cos| / d^2 at the nearest surface point, counting the lamps on the viewer's side which no surface hides, and black if the ray meets nothing; no exception is raised. The radiance is not negative and at most what all lamps would give unhidden at right angles.", "quantifier": "all meshes, spheres and disks (quadrics placed without rotation), colours, lamps, rays and random numbers (rays and sight lines not along a face of a bounding box or through the centre of a disk, camera rays not meeting a sphere on its axis; no lamp on a visible surface point)", "why_tests_cant": "The statement joins shapes, accelerator, materials, lights and integrator; tests render a few scenes and compare pictures by eye.", "anchors": ["pytracer/integrator/surface/whitted.py: WhittedIntegrator.li", "pytracer/renderer/renderer.py: SamplerRenderer.li", "pytracer/scene/scene.py: Scene.intersect, Scene.intersect_p", "pytracer/aggregate/accelerator/bvh.py: BVH", "pytracer/shape/triangle.py: Triangle.intersect", "pytracer/reflection/bsdf.py: BSDF.f", "pytracer/material/material.py: MatteMaterial.get_bsdf", "pytracer/light/light.py: PointLight.sample_l", "pytracer/shape/sphere.py: Sphere.intersect", "pytracer/shape/disk.py: Disk.intersect"]}
{"id": "C271", "title": "Without light sources everything is black", "statement": "If a scene has no lights, no emitting surface and no volume, the Whitted, direct-lighting (all lights) and path integrators return exactly zero radiance for every ray, whatever the materials, depth limit and random numbers.", "quantifier": "all scenes without light sources, rays, depths and random numbers", "why_tests_cant": "Every scene, material, light and random stream; a test renders a handful of scenes and compares within noise.", "anchors": ["pytracer/integrator/surface/whitted.py: WhittedIntegrator.li", "pytracer/renderer/renderer.py: SamplerRenderer.li", "pytracer/scene/scene.py: Scene.intersect, Scene.intersect_p", "pytracer/integrator/surface/direct.py: DirectLightingIntegrator.li", "pytracer/integrator/surface/path.py: PathIntegrator.li"]}
{"id": "C272", "title": "Radiance is proportional to the lights", "statement": "Making every light source c times as strong makes the radiance the Whitted integrator returns c times as large. (Violated: light below 10^-5 counts as black; a triangle lit so dimly is black but not black with the lamp four times as strong. It holds whenever no light's radiance crosses that limit at a point of a surface which some ray meets.)", "quantifier": "all scenes without volumes, all factors, rays, depths and random numbers", "why_tests_cant": "Every scene, material, light and random stream; a test renders a handful of scenes and compares within noise.", "anchors": ["pytracer/integrator/surface/whitted.py: WhittedIntegrator.li", "pytracer/renderer/renderer.py: SamplerRenderer.li", "pytracer/scene/scene.py: Scene.intersect, Scene.intersect_p", "pytracer/spectral/spectrum.py: CoefficientSpectrum.is_black", "pytracer/light/light.py: PointLight.sample_l"]}
{"id": "C273", "title": "Direct lighting agrees with Whitted's method", "statement": "For lights whose sample does not depend on random numbers (point, spot, distant) and surfaces without specular part, the direct-lighting integrator sampling all lights adds, at a surface point, exactly what the Whitted integrator adds, however many samples per light it takes.", "quantifier": "all such scenes, surface points, directions, positive numbers of samples and sample values", "why_tests_cant": "Agreement of two different loops for every scene and sample count; tests compare at most a few pictures.", "anchors": ["pytracer/integrator/utility.py: uniform_sample_all_lights, estimate_direct", "pytracer/integrator/surface/whitted.py: WhittedIntegrator.li", "pytracer/integrator/surface/direct.py: DirectLightingIntegrator.li"]}
{"id": "C274", "title": "A rendered picture shows what its samples saw", "statement": "A render during which neither the camera, the scene nor the integrator raises produces a picture in which every pixel of the film is the filter-weighted mean of the radiances reported for the samples (up to one millionth, the constants of the colour conversion); every pixel of the film's sample window got its samples, each inside its pixel, each contributing exactly the radiance the integrator returned for the ray the camera sent for it, or black if that ray meets nothing.", "quantifier": "all cameras, scenes and integrators with finite nonnegative radiance, all films, proper filters, sample counts and random numbers", "why_tests_cant": "Joins sampler, camera, integrator and film over all pixels; a unit test compares a few rendered pixels.", "anchors": ["pytracer/renderer/renderer.py: SamplerRenderer.render, SamplerRendererTask.__call__", "pytracer/sampler/sampler/stratified.py: StratifiedSampler", "pytracer/film/film.py: ImageFilm.add_sample, ImageFilm.write_image"]}
{"id": "C275", "title": "Picture of a diffuse scene lit by point lights", "statement": "Rendering a scene of matte triangle meshes, spheres and disks lit by point lights with the Whitted integrator succeeds, and every pixel of the picture is the filter-weighted mean, over the samples, of Kd/pi times I |cos| / d^2 summed over the lamps which the nearest surface point on the sample's camera ray sees (black where the ray meets nothing).", "quantifier": "all meshes, spheres and disks (quadrics placed without rotation), colours, lamps, cameras, films, proper filters, sample counts and random numbers (rays and sight lines not along a face of a bounding box or through the centre of a disk, camera rays not meeting a sphere on its axis; no lamp on a visible surface point)", "why_tests_cant": "The end-to-end meaning of a picture; tests can only compare single pictures against stored ones.", "anchors": ["pytracer/renderer/renderer.py: SamplerRenderer.render, SamplerRendererTask.__call__", "pytracer/sampler/sampler/stratified.py: StratifiedSampler", "pytracer/film/film.py: ImageFilm.add_sample, ImageFilm.write_image", "pytracer/scene/scene.py: Scene.intersect, Scene.intersect_p", "pytracer/integrator/surface/whitted.py: WhittedIntegrator.li", "pytracer/camera/projective.py: PerspectiveCamera.generate_ray_differential", "pytracer/light/light.py: PointLight.sample_l"]}
{"id": "C276", "title": "A medium does not change what the other aggregates report", "statement": "Building a Scene with a participating medium over an exhaustive aggregate or a uniform grid does not change what ray queries report, although the constructor enlarges the aggregate's own bounding box. (Violated: in a grid the enlarged box shifts the voxels rays are looked up in, so a ray that starts in an object's box and hits it is reported to miss once a medium far away is added. Over the exhaustive aggregate every query gives the same flag, range and record; over the grid queries stay safe and report only real hits.)", "quantifier": "all primitive sets, medium boxes and rays", "why_tests_cant": "The damage is done through a shared box object at construction time and shows only for rays and media in particular positions.", "anchors": ["pytracer/scene/scene.py: Scene.__init__", "pytracer/aggregate/aggregate.py: SimpleAggregate.intersect, SimpleAggregate.world_bound, GridAccel.intersect, GridAccel.pos2voxel, GridAccel.world_bound"]}
{"id": "C277", "title": "Equality and identity of transforms", "statement": "Two Transforms compare equal exactly if their matrices agree, != is the negation, a copy is equal; equal transforms act alike on points, vectors, rays and boxes and, when they hold true inverses, on normals, and their inverses are equal; transforms made from equal matrices are the same. For affine transforms is_identity() is True exactly if every point stays where it is, and then vectors and normals stay too. A transform composed with its inverse is the identity.", "quantifier": "all transforms, points, vectors, normals, rays and boxes", "why_tests_cant": "It relates a comparison of sixteen numbers to the action on every point of space.", "anchors": ["pytracer/transform/__init__.py: Transform.__eq__, Transform.__ne__, Transform.copy, Transform.is_identity, Transform.inverse"]}
{"id": "C278", "title": "Measured scattering coefficients by name", "statement": "get_volume_scattering(name) returns the absorption and the reduced scattering coefficient of a substance, in this order, and [None, None] for a name that is not in the table. (Violated: the table, taken from pbrt, lists the reduced scattering coefficient first, so the two are returned in the wrong order, e.g. for Marble. Every known name gives two non-negative spectra, those of its row; every other name gives None twice.)", "quantifier": "all names", "why_tests_cant": "All strings are possible names, and the order is a convention between a table and its reader that a test copied from the code repeats.", "anchors": ["pytracer/volume/utility.py: get_volume_scattering", "pytracer/data/volume.py: MEASURED_SUF_SC"]}
{"id": "C279", "title": "Lights add up", "statement": "In a scene without a medium, if WhittedIntegrator returns radiance L1 along a ray with one set of point lights and L2 with another, it returns exactly L1 + L2 with both sets in the scene (surface emission adds in the same way), through any number of mirrors and panes of glass, whatever random numbers are drawn; and the order in which the lights are listed does not matter.", "quantifier": "all geometries and all materials that have at most one specular reflection and one specular transmission at a point (every material class except an UberMaterial that is both translucent and refracting), all lights whose sample does not use random numbers, all rays, recursion limits and random streams", "why_tests_cant": "Linearity in the light sources is a statement about pairs of runs of a recursion of any depth over any geometry; a test compares a few pairs.", "anchors": ["pytracer/integrator/surface/whitted.py: WhittedIntegrator.li", "pytracer/integrator/utility.py: specular_reflect, specular_transmit", "pytracer/renderer/renderer.py: SamplerRenderer.li", "pytracer/light/light.py: PointLight.sample_l", "pytracer/material/material.py"]}
{"id": "C280", "title": "A hit moves along with the object", "statement": "Placing a shape by an additional transform (a product of the API's translations, scalings, rotations, look-ats, \u2026, possibly mirrored or stretched) and moving the ray by the same transform changes nothing but the place of the hit: for a sphere, a disk and a triangle of a mesh, intersect() reports a hit for the moved pair exactly when it does for the original pair, at the same ray parameter and with the same tolerance and the same (u, v) parameters, the reported point is the moved point, the unit normal is the moved normal (inverse transpose, renormalized), the tangents dp/du and dp/dv are the moved tangents (for a triangle whenever its (u, v) parameters are not on one line), the normal derivatives of the quadrics are the moved ones, and intersect_p() gives the same answer; a triangle index out of range raises the same exception for both.", "quantifier": "every sphere, disk and triangle-mesh face (all radii, clips, index lists, vertex lists, optional normals / tangents / parameters), every valid placement, every additional transform built with the API, every ray", "why_tests_cant": "Equivariance under every affine placement relates two whole families of runs; a test can only compare a few placements, and shapes are usually tested at the origin.", "anchors": ["pytracer/shape/sphere.py: Sphere.intersect, Sphere.intersect_p", "pytracer/shape/disk.py: Disk.intersect, Disk.intersect_p", "pytracer/shape/triangle.py: Triangle.intersect, Triangle.intersect_p, TriangleMesh", "pytracer/transform/__init__.py: Transform.__call__, Transform.__mul__, Transform.inverse"]}
{"id": "C281", "title": "A scene moved as a whole looks the same", "statement": "Moving every object, every point light and the camera ray by one and the same rigid motion leaves the picture unchanged: the radiance that the specification of direct illumination assigns to the ray in the moved scene is the one it assigns to the old ray in the old scene (both directions), and what the Whitted integrator returns for the moved diffuse scene is what the scene at its old place shows along the old ray.", "quantifier": "every rigid motion built with the API, every list of mesh / sphere / disk items with valid placements, every list of point lights, every ray, every integrator depth and random stream; the rendered statement for scenes meeting the hypotheses of C270 (diffuse, rays that avoid degenerate cases)", "why_tests_cant": "Invariance of a picture under all rigid motions quantifies over a continuum of scene pairs; no finite set of renders establishes it.", "anchors": ["pytracer/integrator/surface/whitted.py: WhittedIntegrator.li", "pytracer/light/light.py: PointLight.sample_l, VisibilityTester.unoccluded", "pytracer/shape/sphere.py: Sphere.intersect", "pytracer/shape/disk.py: Disk.intersect", "pytracer/shape/triangle.py: Triangle.intersect", "pytracer/scene/scene.py: Scene.intersect"]}
{"id": "C282", "title": "An octave of noise fades in smoothly", "statement": "smooth_step(lo, hi, x) is 0 below lo, 1 above hi and smooth in between, so FBm and turbulence do not jump as the footprint of a lookup grows past a whole number of octaves. (Violated: smooth_step clips to the bounds without rescaling, so for 0 < lo < hi < 1 it never reaches 0 or 1; turbulence therefore drops by at least 0.216 times the absolute noise where the footprint passes one noise cell, at every point where the noise is not 0. What holds: with the bounds 0 and 1 the step is the usual cubic; between one and two noise cells FBm and turbulence are the noise, resp. its absolute value, times a weight that depends on the logarithm of the footprint only: 0.216 up to 0.3 octaves, 0.784 from 0.7 octaves, the cubic in between.)", "quantifier": "all bounds, arguments, points, differentials, roughnesses and octave counts", "why_tests_cant": "Continuity across the whole range of footprints concerns limits at a measure-zero set of inputs; sampled tests compare values away from the jump.", "anchors": ["pytracer/texture/utility.py: smooth_step, FBm, turbulence"]}
{"id": "C283", "title": "Radiance through mirrors is bounded and never negative", "statement": "In a scene without a medium, if the emission plus the direct light at every surface point and the background radiance lie between 0 and M in every channel, and no surface reflects specularly more than the fraction rho (|cos| f / pdf), then what the recursive integrators (Whitted, direct lighting) return along a ray lies between 0 and M (1 + rho + ... + rho^(n-1)) in every channel, n being the number of surfaces the recursion limit still allows; if rho < 1 it is at most M / (1 - rho) whatever the limit.", "quantifier": "all scenes, direct-light estimators, rays, recursion limits and random streams", "why_tests_cant": "A bound on a recursion of any depth over any scene and random stream; a render samples a few paths.", "anchors": ["pytracer/renderer/renderer.py: SamplerRenderer.li", "pytracer/integrator/surface/whitted.py: WhittedIntegrator.li", "pytracer/integrator/surface/direct.py: DirectLightingIntegrator.li", "pytracer/integrator/utility.py: specular_reflect, specular_transmit"]}
{"id": "C284", "title": "Choosing one of n by a random number under rounding", "statement": "In float64 arithmetic the light sampled by sample_one_light, the lobe sampled by a BSDF and the table entry whose density a two-dimensional distribution returns are always among the n there are; a draw below 1 gives a number below n even without the clamp; thing i is taken only for draws below (i+1)/n and from i/n on (up to a relative 2^-53), larger draws never take an earlier one, and a draw of exactly 1 takes the last.", "quantifier": "all numbers n up to 2^53 and all float64 draws in [0,1]", "why_tests_cant": "There are 2^62 draws and any number of lights; the critical one, the largest draw times n, rounds differently for every n.", "anchors": ["pytracer/integrator/utility.py: sample_one_light", "pytracer/reflection/bsdf.py: sample_f", "pytracer/montecarlo/distribution.py: Distribution2D", "pytracer/utility/utility.py: ftoi"]}
{"id": "C285", "title": "Bilinear texture lookups under rounding", "statement": "In float64 arithmetic the weights of a bilinear texture lookup are between 0 and 1 and belong to the right texel, a lookup at a texel's centre returns that texel, the value is the exact interpolation up to 2^-48 of the largest texel, so at most that far outside the range of the four texels, and a texture of one constant value returns this value. (Violated: the last clause; a constant 1 + 3*2^-52 comes out as 1 + 2*2^-52 at (3/8, 5/8) of a 2x2 level.)", "quantifier": "all resolutions up to 2^53, float64 coordinates and texels", "why_tests_cant": "Ranges over all float64 coordinates and texel values; rounding errors show only for particular ones.", "anchors": ["pytracer/texture/utility.py: MIPMap"]}
{"id": "C286", "title": "Adding a light never makes anything darker", "statement": "In a scene of matte (not rough), mirror and glass objects, whatever their shapes, textures and own emission, adding point lights of non-negative intensity to the scene (in any position of the list of lights) never decreases any channel of the radiance the Whitted integrator returns along a ray, whatever the recursion limit and the random numbers drawn in the two renderings; the same holds for any surfaces whose reflection function and mirror samples are never negative and any lights that need no random numbers.", "quantifier": "all scenes of these materials, all lists of lights before and after, rays, recursion limits and random streams", "why_tests_cant": "Compares two renderings of every scene, light set and random stream, through recursion of any depth.", "anchors": ["pytracer/renderer/renderer.py: SamplerRenderer.li", "pytracer/integrator/surface/whitted.py: WhittedIntegrator.li", "pytracer/integrator/utility.py: specular_reflect, specular_transmit", "pytracer/light/light.py: PointLight", "pytracer/material/material.py: MatteMaterial, MirrorMaterial, GlassMaterial"]}
{"id": "C287", "title": "A mirror does not amplify light", "statement": "The weight with which an integrator multiplies the light arriving at a mirror or a glass surface from the sampled mirror direction (|cos| f / pdf, the cosine taken between the returned world direction and the surface normal) is never more than the surface's reflectance Kr, and exactly Kr for a mirror. (Violated: for surfaces not aligned with the world axes the direction that l2w returns is not the one the weight was computed for; a perfect mirror tilted by the angle of sine 3/5 multiplies light by more than any given factor for some viewing directions.)", "quantifier": "all reflectances, hit points, outgoing directions and random numbers", "why_tests_cant": "Energy conservation has to hold for every orientation and direction; a test with a horizontal mirror passes, and a test image only looks somewhat bright at grazing angles.", "anchors": ["pytracer/reflection/bsdf.py: BSDF, sample_f, l2w", "pytracer/reflection/bdf/bdf.py: SpecularReflection", "pytracer/integrator/utility.py: specular_reflect"]}
{"id": "C288", "title": "Direct lighting and Whitted show the same scene", "statement": "In a scene whose lights are delta lights (point, spot or distant lights) of non-negative radiance and whose surfaces are matte, mirrors and glass, DirectLightingIntegrator with strategy SAMPLE_ALL_UNIFORM returns along every ray exactly the radiance and transmittance that WhittedIntegrator returns, also through mirrors and panes of glass, for any positive number of samples per light and whatever values the sampler generates; in particular it shows a diffuse scene as Kd/pi times the irradiance from the lamps each point sees.", "quantifier": "all scenes, delta lights, camera rays, recursion depths, numbers of samples, sample values and random numbers", "why_tests_cant": "Two integrators could agree on a test scene and differ on another (a missing division by the number of samples, specular lobes counted in one and not the other, a sample index into the wrong light); agreement over all scenes and all recursion depths needs an induction over the recursion.", "anchors": ["pytracer/integrator/surface/direct.py: DirectLightingIntegrator, request_samples, li", "pytracer/integrator/surface/whitted.py: WhittedIntegrator", "pytracer/integrator/utility.py: uniform_sample_all_lights, estimate_direct, specular_reflect, specular_transmit", "pytracer/renderer/renderer.py: SamplerRenderer"]}
{"id": "C289", "title": "Allowing longer light paths never darkens a picture", "statement": "Raising max_depth never takes light away: for PathIntegrator, with the same samples and random numbers, the radiance returned with a larger max_depth is at least the radiance with a smaller one in every channel, in every physical scene (non-negative emission, lights and scattering); for WhittedIntegrator the same holds in every scene of matte surfaces, mirrors and glass with lights of non-negative intensity, whatever the random numbers of the two runs.", "quantifier": "all physical scenes, rays, sample values, random streams and pairs of maximum depths 0 <= m <= m'", "why_tests_cant": "It relates two runs of unbounded length on every scene and random stream; a test compares two depths in one scene, where a lost or negative contribution at some bounce may cancel or never occur.", "anchors": ["pytracer/integrator/surface/path.py: PathIntegrator, li", "pytracer/integrator/surface/whitted.py: WhittedIntegrator, li", "pytracer/integrator/utility.py: specular_reflect, specular_transmit"]}
{"id": "C290", "title": "One-surface paths show the direct light on average", "statement": "PathIntegrator with max_depth 0 is an unbiased estimate of WhittedIntegrator without recursion: in a scene whose lights are delta lights of non-negative radiance, the expectation of its radiance over the uniform random number which selects the light is exactly the radiance Whitted's method returns for that ray, whatever the other samples are; so in a diffuse scene it is Kd/pi times the irradiance from the lamps which the point sees.", "quantifier": "all scenes with any number of delta lights, rays, stored samples and random streams", "why_tests_cant": "Unbiasedness is an integral over all random numbers; averaging finitely many renders shows it only up to noise, and a light chosen with a slightly wrong probability is within that noise.", "anchors": ["pytracer/integrator/surface/path.py: PathIntegrator, li", "pytracer/integrator/surface/whitted.py: WhittedIntegrator, li", "pytracer/integrator/utility.py: uniform_sample_one_light, estimate_direct"]}
{"id": "C291", "title": "The picture depends on what is met, not on how it is listed", "statement": "For scenes of matte meshes, spheres and disks lit by point lights, the radiance WhittedIntegrator returns along a ray is unchanged by listing the objects in another order or repeating them, by another number of primitives per leaf of the tree, and by adding or removing any objects which neither the ray nor the sight lines from the points it meets meet.", "quantifier": "all pairs of such scenes which agree on the objects met, materials, lamps, random numbers and rays without ties (no two surfaces or faces met at one place, none exactly at an end of the ray or of a sight line; and the rays of C270)", "why_tests_cant": "It compares every pair of listings of every scene; the tree built from another order or with other objects is different everywhere, and a test can only render a few scenes in a few orders.", "anchors": ["pytracer/scene/scene.py: Scene, intersect, intersect_p", "pytracer/aggregate/accelerator/bvh.py: BVHAccel, intersect, intersect_p", "pytracer/integrator/surface/whitted.py: WhittedIntegrator, li"]}
{"id": "C292", "title": "Picture by direct lighting of a diffuse scene", "statement": "Rendering a scene of matte triangle meshes, spheres and disks lit by point lights with the direct-lighting integrator (the interface's default) succeeds, from Sample's request of its numbers to write_image, and every pixel of the picture is the filter-weighted mean, over the samples, of Kd/pi times I |cos| / d^2 summed over the lamps which the nearest surface point on the sample's camera ray sees (black where the ray meets nothing), for any positive number of samples per light.", "quantifier": "all meshes, spheres and disks (quadrics placed without rotation), colours, lamps, numbers of light samples, cameras, films, proper filters, sample counts and random numbers (rays as in C275)", "why_tests_cant": "The picture is the result of a whole run over every pixel, sample, light and random number; a test compares a few pictures of particular scenes within a noise tolerance, in which a wrong weight per light or a misassigned sample array can hide.", "anchors": ["pytracer/renderer/renderer.py: SamplerRenderer.render, SamplerRendererTask.__call__", "pytracer/integrator/surface/direct.py: DirectLightingIntegrator, request_samples, li", "pytracer/sampler/sample.py: Sample", "pytracer/film/film.py: ImageFilm.add_sample, ImageFilm.write_image"]}
{"id": "C293", "title": "Whether a line meets a sphere or a cylinder is decided correctly in float64", "statement": "For directions whose components are at most 1 in size and an origin and radius of size at most X >= 1, the discriminant computed in float64 differs from the exact one by at most 900 * 2^-53 * X^2. So within 10 000 units a sphere is passed over whenever the line nowhere enters it, and is not passed over when the exact discriminant is at least twice the threshold 1e-5; and a cylinder is judged rightly whenever the discriminant exceeds that error bound. (Violated: from 2^27 units away a ray through the very centre of a sphere of radius 1/2 computes a discriminant of 0 and misses; a line passing beside a thin cylinder computes a positive one and goes on.)", "quantifier": "all origins, directions and radii within the stated sizes (no bound on X for the error bound)", "why_tests_cant": "rounding errors of a long expression depend on every bit of nine numbers; a test tries a few and cannot bound the worst case", "anchors": ["pytracer/shape/sphere.py: Sphere, intersect, intersect_p", "pytracer/shape/cylinder.py: Cylinder, intersect, intersect_p"]}
{"id": "C294", "title": "A ray cannot slip between two triangles that share an edge (float64)", "statement": "In float64 arithmetic a ray through a point of a mesh is reported by at least one of the triangles that contain the point. (Violated: for the two halves of a parallelogram with small whole-number corners there is a ray through their common edge which both reject, since b1 + b2 rounds to 1 + 2^-52.) With whole-number corners, origin and direction up to 2^14 in size, the edge opposite the first corner is the only place where this can happen: a line that meets the triangle elsewhere is accepted, with t, b1 and b2 right up to 3 * 2^-53 of their size, and a line that misses the triangle is rejected.", "quantifier": "all triangles, origins and directions with whole-number coordinates up to 16384; every range of ray parameters", "why_tests_cant": "the rejected rays form a set of a few isolated points on each edge; random test rays practically never lie exactly on an edge, and the positive part speaks about all triangles", "anchors": ["pytracer/shape/triangle.py: Triangle, intersect, intersect_p"]}
{"id": "C295", "title": "A mirror shows the mirrored scene", "statement": "Where a camera ray (or any later ray that may still go one level deeper) meets a MirrorMaterial, WhittedIntegrator returns the surface's own emission plus Kr at that point times what it returns for the ray thrown back: the ray that starts at the hit point, leaves at the angle of arrival, and is one level deeper; nothing else contributes. At the depth limit, or where Kr is (nearly) black, it returns the surface's own emission alone. Proved where the shading frame is aligned with the world's axes. (Violated: an upright mirror, whose frame is not aligned, returns black although the ray thrown back returns white.)", "quantifier": "all scenes without a volume, all rays, depths, mirror colours, shading geometries and random streams; frames aligned with the axes", "why_tests_cant": "a statement about the recursion: it relates the value at one ray to the value at another for every scene behind the mirror; a test renders a few scenes", "anchors": ["pytracer/integrator/utility.py: specular_reflect, specular_transmit", "pytracer/integrator/surface/whitted.py: WhittedIntegrator, li", "pytracer/renderer/renderer.py: SamplerRenderer, li"]}
{"id": "C296", "title": "Glass shows what it mirrors and what is behind it", "statement": "Where a ray that may still go one level deeper meets a GlassMaterial, WhittedIntegrator returns the surface's own emission, plus F Kr times what it returns for the ray thrown back, plus the transmitted part of what it returns for the refracted ray. Proved for index ratios from 1/3 to 3 and frames aligned with the axes: without a volume, the result is exactly the emission plus F Kr times the radiance of the ray thrown back, with F between 0 and 1 and depending only on the index and the angle. (Violated: the transmitted part is missing: a pane of clear glass in front of a white direction straight behind it looks black.)", "quantifier": "all scenes without a volume, all rays, depths, glass colours, indices in the range, shading geometries and random streams; frames aligned with the axes", "why_tests_cant": "a statement about the recursion: it relates the value at one ray to the value at another for every scene in front of and behind the glass; a test renders a few scenes", "anchors": ["pytracer/integrator/utility.py: specular_reflect, specular_transmit", "pytracer/integrator/surface/whitted.py: WhittedIntegrator, li", "pytracer/renderer/renderer.py: SamplerRenderer, li"]}
{"id": "C297", "title": "Applying and composing transforms in float64 is accurate", "statement": "Each coordinate of a point transformed in float64 by an affine transform differs from the exact one by at most 5 * 2^-53 times the sum of the sizes of the terms that make it up (plus 2^-1070 for underflow); for vectors and normals, and for every entry of the matrices of a product of transforms, 4 and 5 units. A point taken through a transform made by the constructors and back through its inverse returns to within 11 such units. (Overflow is not modelled.)", "quantifier": "all affine transforms (no bound on the entries), all points, vectors and normals; for the round trip all transforms built by the constructors, products and inverses", "why_tests_cant": "rounding errors depend on every bit of sixteen matrix entries and three coordinates; a test tries a few and cannot bound the worst case", "anchors": ["pytracer/transform/__init__.py: Transform, __call__, __mul__, inverse"]}
{"id": "C298", "title": "Points along rays in float64 are accurate, in object space and in world space", "statement": "The point a ray has at parameter t is computed in float64 to within 3 * 2^-53 of the sizes of its two terms in each coordinate (plus 2^-1070 for underflow). Transforming a ray by an affine transform and taking the point at t gives the exact image of the given ray's point at t to within 8 such units of the sizes of the terms, and transforming the point of the untransformed ray gives it to within 11: so a parameter found in object space can be used on the world ray. (Overflow is not modelled.)", "quantifier": "all rays and real parameters, all affine transforms", "why_tests_cant": "rounding errors depend on every bit of the ray, the parameter and twelve matrix entries; a test tries a few and cannot bound the worst case", "anchors": ["pytracer/geometry/__init__.py: Ray", "pytracer/transform/__init__.py: Transform, __call__"]}
{"id": "C299", "title": "Scenes that look the same give pixel-identical pictures", "statement": "A picture is determined by what its samples report: two renders with the same film and sampler in which every sample reports the same radiance (black if its ray meets nothing) give pixel-identical pictures, whatever scenes, integrators and random numbers produced the reports. In particular a scene of matte meshes, spheres and disks lit by point lights, rendered with the Whitted integrator, gives a pixel-identical picture when its objects are listed in another order or repeated, when another number of primitives is put in the leaves of the tree, when objects are added or removed that neither a camera ray nor a sight line from a visible point to a lamp meets, and for any depth limit and random numbers of the integrator.", "quantifier": "all renders (any cameras, scenes and integrators) for the first part; for the second all pairs of such scenes, films, stratified samplers, cameras and random numbers for which no ray is ambiguous (surfaces met exactly at one place, none at the ends of a ray) or runs along the face of a bounding box", "why_tests_cant": "ranges over all scenes, all permutations and all sequences of random numbers; a test compares a few pictures", "anchors": ["pytracer/renderer/renderer.py: SamplerRenderer, render, SamplerRendererTask", "pytracer/film/film.py: ImageFilm", "pytracer/scene/scene.py: Scene", "pytracer/integrator/surface/whitted.py: WhittedIntegrator", "pytracer/aggregate/accelerator/bvh.py: BVH"]}
{"id": "C300", "title": "Direct lighting shows mirrors and glass as Whitted does, whatever the lights", "statement": "Where a ray that may still go one level deeper meets a MirrorMaterial or a GlassMaterial, DirectLightingIntegrator adds nothing for the lights there (of any kind: point, area or environment lights) and returns the surface's own emission plus Kr (for glass: F Kr) times what it returns for the ray thrown back. Proved with at least one sample for each light, without a volume, for frames aligned with the axes and index ratios from 1/3 to 3. (Violated: in general: an upright mirror with normal +x shows another direction than the mirrored one, so that the mirror looks black where the ray thrown back sees white.)", "quantifier": "all scenes without a volume, all lights, all samples with at least one entry for each light, all rays, depths, mirror and glass colours, shading geometries and random streams; frames aligned with the axes", "why_tests_cant": "a statement about the recursion for every scene and every kind of light; a test renders a few scenes", "anchors": ["pytracer/integrator/surface/direct.py: DirectLightingIntegrator", "pytracer/integrator/utility.py: uniform_sample_all_lights, estimate_direct, specular_reflect, specular_transmit", "pytracer/renderer/renderer.py: SamplerRenderer, li"]}
{"id": "C301", "title": "Direct lighting and Whitted give pixel-identical pictures", "statement": "Where SamplerRenderer with WhittedIntegrator makes a picture of a scene of matte, mirror and glass shapes (which may emit light) lit by point lights, SamplerRenderer with DirectLightingIntegrator makes a pixel-identical one, for any positive numbers of samples per light and any random numbers of the integrators, if the samplers draw the same image positions, lens points and times. More generally, numbers which an integrator asks of the sampler do not disturb the camera samples, and the picture depends on the scene and the integrator only through what is deposited for each camera sample.", "quantifier": "all such scenes, films, stratified samplers, perspective and orthographic cameras, recursion limits, numbers of samples per light and random numbers", "why_tests_cant": "ranges over all scenes and random numbers; a test compares a few pictures", "anchors": ["pytracer/renderer/renderer.py: SamplerRenderer, render, SamplerRendererTask", "pytracer/integrator/surface/direct.py: DirectLightingIntegrator", "pytracer/integrator/surface/whitted.py: WhittedIntegrator", "pytracer/sampler/sampler/stratified.py: StratifiedSampler", "pytracer/camera/projective.py: PerspectiveCamera, OrthographicCamera"]}
{"id": "C302", "title": "The picture in the light of two groups of lamps is the sum of the two pictures", "statement": "A scene of matte, mirror and glass shapes without area lights, rendered by SamplerRenderer with WhittedIntegrator: if the pictures in the light of the lamps A alone and of the lamps B alone succeed, so does the picture in the light of A and B together, listed in any order, and every pixel of it is the sum of the pixels of the two other pictures, to within three millionths of its size (the rounded constants of the colour conversion); whatever random numbers the integrator draws in the three runs. More generally this holds whenever for every camera sample the third run deposits the sum of what the first two deposit, none of it negative.", "quantifier": "all such scenes, lamps, cameras, films, reconstruction filters of half a pixel or more that are nowhere negative, stratified samplers, recursion limits and random numbers of the integrator; the three runs draw the same camera samples", "why_tests_cant": "ranges over all scenes, groups of lamps and random numbers; a test compares a few pictures", "anchors": ["pytracer/renderer/renderer.py: SamplerRenderer, render, SamplerRendererTask", "pytracer/integrator/surface/whitted.py: WhittedIntegrator", "pytracer/film/film.py: ImageFilm, add_sample", "pytracer/sampler/sampler/stratified.py: StratifiedSampler"]}
{"id": "C303", "title": "Lamps c times as strong make a picture c times as bright", "statement": "A scene of matte, mirror and glass shapes without area lights, rendered by SamplerRenderer with WhittedIntegrator: if the picture in the light of the lamps succeeds, so does the picture with every lamp c times as strong (c not negative), and every pixel of it is exactly c times the pixel of the first; whatever random numbers the integrator draws in the two runs. It is proved provided that at no point of a surface which some ray meets the light of a lamp crosses the 10^-5 below which the integrators treat it as black, and no lamp touches such a point. More generally this holds whenever for every camera sample the second run deposits c times what the first deposits.", "quantifier": "all such scenes, lamps, factors, cameras, films, reconstruction filters, stratified samplers, recursion limits and random numbers of the integrator; the two runs draw the same camera samples", "why_tests_cant": "ranges over all scenes, lamps, factors and random numbers; a test compares a few pictures", "anchors": ["pytracer/renderer/renderer.py: SamplerRenderer, render, SamplerRendererTask", "pytracer/integrator/surface/whitted.py: WhittedIntegrator", "pytracer/film/film.py: ImageFilm, add_sample", "pytracer/sampler/sampler/stratified.py: StratifiedSampler"]}
{"id": "C304", "title": "More lamps never darken a picture", "statement": "A scene of matte, mirror and glass shapes, which may emit light themselves, rendered by SamplerRenderer with WhittedIntegrator once in the light of some lamps and once in the light of these and further lamps, listed in any order: when both pictures succeed, no pixel of the second is darker than that of the first in any channel, but for at most three millionths of its size (the rounded constants of the colour conversion); whatever random numbers the integrator draws in the two runs. More generally this holds whenever for every camera sample the second run deposits, in every channel, at least what the first deposits, and that is not negative.", "quantifier": "all such scenes with emission that is nowhere negative, lamps, cameras, films, reconstruction filters of half a pixel or more that are nowhere negative, stratified samplers, recursion limits and random numbers of the integrator; the two runs draw the same camera samples", "why_tests_cant": "ranges over all scenes, lamps and random numbers; a test compares a few pictures", "anchors": ["pytracer/renderer/renderer.py: SamplerRenderer, render, SamplerRendererTask", "pytracer/integrator/surface/whitted.py: WhittedIntegrator", "pytracer/film/film.py: ImageFilm, add_sample", "pytracer/sampler/sampler/stratified.py: StratifiedSampler"]}
{"id": "C305", "title": "A higher recursion limit never darkens a picture", "statement": "A scene of matte, mirror and glass shapes, which may emit light themselves, lit by lamps and rendered by SamplerRenderer with WhittedIntegrator twice, the second time with a higher limit on the number of mirrors and panes a ray may meet: when both pictures succeed, no pixel of the second is darker than that of the first in any channel, but for at most three millionths of its size (the rounded constants of the colour conversion); whatever random numbers the integrator draws in the two runs.", "quantifier": "all such scenes with emission and lamps that are nowhere negative, recursion limits, cameras, films, reconstruction filters of half a pixel or more that are nowhere negative, stratified samplers and random numbers of the integrator; the two runs draw the same camera samples", "why_tests_cant": "ranges over all scenes, recursion limits and random numbers; a test compares a few pictures", "anchors": ["pytracer/renderer/renderer.py: SamplerRenderer, render, SamplerRendererTask", "pytracer/integrator/surface/whitted.py: WhittedIntegrator", "pytracer/film/film.py: ImageFilm, add_sample", "pytracer/sampler/sampler/stratified.py: StratifiedSampler"]}
{"id": "C306", "title": "A picture is as bright as what its samples saw", "statement": "If in a render by SamplerRenderer every camera sample deposits a radiance between two bounds (channel by channel, not negative), every pixel of the picture lies between these bounds, but for one millionth of the size of the upper one (the rounded constants of the colour conversion), and no pixel is negative: the film and the reconstruction filter never make anything brighter or darker. In particular the picture of a scene without lights is exactly black, whatever its materials; and the picture of diffuse objects lit by lamps is nowhere brighter than the irradiance of all lamps together, unhidden and at right angles, reflected at the points the camera rays touch.", "quantifier": "all renders, cameras, films, reconstruction filters of half a pixel or more that are nowhere negative, stratified samplers, scenes, lamps and random numbers", "why_tests_cant": "ranges over all renders, filters and samples; a test looks at a few pictures", "anchors": ["pytracer/renderer/renderer.py: SamplerRenderer, render, SamplerRendererTask", "pytracer/integrator/surface/whitted.py: WhittedIntegrator", "pytracer/film/film.py: ImageFilm, add_sample", "pytracer/sampler/sampler/stratified.py: StratifiedSampler"]}
{"id": "C307", "title": "Without light every integrator makes a black picture", "statement": "If no shape of a scene is an area light and there is no other light, then every pixel of the picture that SamplerRenderer makes with the direct-lighting integrator (any number of samples per light), and of the picture it makes by path tracing (any number of bounces), is exactly black, whatever the materials, the camera and the random numbers.", "quantifier": "all scenes without lights, materials, cameras, films, reconstruction filters, recursion limits, numbers of bounces and random numbers", "why_tests_cant": "ranges over all scenes, paths and random numbers; a test renders a few", "anchors": ["pytracer/renderer/renderer.py: SamplerRenderer, render, SamplerRendererTask, li", "pytracer/integrator/surface/path.py: PathIntegrator, request_samples, li", "pytracer/integrator/surface/direct.py: DirectLightingIntegrator", "pytracer/film/film.py: ImageFilm, add_sample"]}
