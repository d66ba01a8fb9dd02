{"id": "C01", "title": "Building the accelerator loses, duplicates and mixes nothing", "statement": "Building (or rebuilding) the acceleration structure of a scene only reorders the scene's triangles: after the build the list of (triangle, front material, back material, vertex normals) records is a permutation of the list before it, so no triangle disappears, appears twice, or receives the materials or normals of another one.", "quantifier": "every scene (any number of triangles, any coordinates, including NaN), every behaviour of the unstable selection / sorting routines allowed by their contract, every floating-point arithmetic", "why_tests_cant": "The partitioning is data dependent (12 SAH buckets, unstable selection, sorting); a test scene exercises a handful of partitions out of unboundedly many.", "anchors": ["src/bvh.rs: BoundingVolumeTree::new, Node::recursive_build", "src/scene.rs: Scene::build_accelerator, Scene::rebuild_accelerator"]}
{"id": "C02", "title": "The accelerator build terminates and its tree is well formed", "statement": "For every non-empty scene the recursive build finishes after finitely many steps (every split leaves strictly fewer triangles on both sides), its leaves cover disjoint consecutive ranges that exactly partition the triangle array, every node's box encloses the boxes of the triangles below it, and in the flattened array every interior node's first child is the next node and its second child is at the recorded offset, in bounds.", "quantifier": "every scene, every split decision sequence", "why_tests_cant": "Non-termination and out-of-range child offsets need adversarial centroid distributions; no finite set of scenes covers all split sequences.", "anchors": ["src/bvh.rs: Node::recursive_build, BoundingVolumeTree::flatten_node, get_bucket_index"]}
{"id": "C03", "title": "Closest-hit queries agree with brute force", "statement": "Casting a ray through the accelerator returns a triangle iff some triangle of the scene is hit beyond the minimum distance, and then the returned distance is the smallest among all triangles of the scene; the hit point is origin + t*direction.", "quantifier": "every scene, every ray, every tree the builder can produce, every starting content of the reusable node stack", "why_tests_cant": "Front-to-back ordering and early culling can drop the true closest hit only for particular ray/tree combinations; equality with brute force is a statement over all of them.", "anchors": ["src/bvh.rs: BoundingVolumeTree::intersect", "src/scene.rs: Scene::cast_ray", "src/triangle.rs: intersect_triangle_slice"]}
{"id": "C04", "title": "Shadow queries agree with brute force", "statement": "The unobstructed-distance query answers 'obstructed' iff some triangle of the scene is met strictly between the ray's origin and the requested distance (with the documented tolerances 1e-6 and 1e-4 on squared distances); with no triangles it answers 'unobstructed'.", "quantifier": "every scene, ray and distance, every tree the builder can produce", "why_tests_cant": "A missed occluder shows only for particular geometry; the claim is an equivalence with a quantifier over all triangles.", "anchors": ["src/bvh.rs: BoundingVolumeTree::unobstructed_distance", "src/triangle.rs: simple_intersect_triangle_slice", "src/scene.rs: Scene::unobstructed_distance"]}
{"id": "C05", "title": "Queries do not depend on history and leave a missing ray alone", "statement": "The answer of a closest-hit or shadow query depends only on the scene and the ray, not on what previous queries left in the reusable auxiliary buffer; a query never reads outside the node or triangle arrays; and a query that hits nothing leaves the ray's geometry, distance, colour, depth and refraction index unchanged.", "quantifier": "every sequence of earlier queries, every ray", "why_tests_cant": "Stale buffer contents depend on the whole query history of a render, which unit tests do not replay.", "anchors": ["src/bvh.rs: BoundingVolumeTree::intersect, unobstructed_distance", "src/ray.rs: Ray", "src/ray_tracer.rs: RayTracerHelper"]}
{"id": "C06", "title": "Leaves of any size are searched completely", "statement": "A leaf of the accelerator is searched completely no matter how many triangles share it (e.g. many triangles with coinciding centroids).", "quantifier": "every leaf size", "why_tests_cant": "The count is stored in 16 bits; tests do not build leaves with more than 32767 triangles.", "anchors": ["src/bvh.rs: FlatNode, BoundingVolumeTree::flatten_node, intersect"]}
{"id": "C07", "title": "Scene arrays stay aligned and material indices stay valid", "statement": "After any sequence of material and object insertions that does not panic, the four per-triangle arrays have equal length, every stored front/back material index designates an existing material, and each triangle's record is exactly the one given when its object was pushed.", "quantifier": "every sequence of push_material, push_object, build_accelerator, rebuild_accelerator calls", "why_tests_cant": "An invariant over all histories of API calls.", "anchors": ["src/scene.rs: Scene::push_object, push_material"]}
{"id": "C08", "title": "An object is a registered light iff one of its materials emits", "statement": "Pushing an object registers it as a light exactly when its front or back material is a light (in the distant-light list when it is a distant source, in the near-light list otherwise), and an index outside the material list, or a non-emitting distant source or cylinder, is rejected by a panic instead of being recorded.", "quantifier": "every scene state, object and pair of material indices", "why_tests_cant": "Case analysis over all combinations of primitive, material and scene state.", "anchors": ["src/scene.rs: Scene::push_object"]}
{"id": "C09", "title": "Material handles are stable", "statement": "push_material returns an index at which the pushed material is found then and after any later sequence of scene operations; two pushes never return the same index.", "quantifier": "every history of scene operations", "why_tests_cant": "An invariant over histories.", "anchors": ["src/scene.rs: Scene::push_material, push_object"]}
{"id": "C10", "title": "Objects pushed after the accelerator was built are visible to queries", "statement": "Every object in the scene takes part in ray queries, whether it was pushed before or after the accelerator was built.", "quantifier": "every interleaving of push_object, build_accelerator, rebuild_accelerator and cast_ray", "why_tests_cant": "Depends on the order of API calls; examples always build last.", "anchors": ["src/scene.rs: Scene::push_object, build_accelerator, rebuild_accelerator, cast_ray"]}
{"id": "C11", "title": "Ray/triangle intersection is sound", "statement": "When the ray/triangle test reports a hit with parameter t and barycentric coordinates (u,v), t is beyond the minimum distance, origin + t*direction equals (1-u-v)*a + u*b + v*c exactly (in real arithmetic), and that point is inside the triangle up to the stated tolerance.", "quantifier": "every triangle and every ray, real-number semantics of the arithmetic", "why_tests_cant": "An algebraic identity over nine triangle and six ray coordinates.", "anchors": ["src/triangle.rs: baricentric_coorinates, triangle_intersect, simple_triangle_intersect"]}
{"id": "C12", "title": "Ray/triangle intersection is complete", "statement": "A ray that crosses the interior of a triangle in front of its origin is reported as hitting it.", "quantifier": "every triangle (any size) and every ray, real-number semantics", "why_tests_cant": "Absolute thresholds in the determinant test make the answer scale dependent; only a quantified statement shows for which triangles it fails.", "anchors": ["src/triangle.rs: baricentric_coorinates"]}
{"id": "C13", "title": "Triangle area is right", "statement": "The triangle area routine returns half the norm of the cross product of two edges, is invariant under permutation of the vertices and translation, and is zero exactly for degenerate triangles.", "quantifier": "every triangle, real-number semantics", "why_tests_cant": "A polynomial/radical identity over nine real coordinates.", "anchors": ["src/triangle.rs: triangle_area"]}
{"id": "C14", "title": "Shading normals interpolate the vertex normals", "statement": "At a vertex of a triangle the interpolated shading normal is that vertex's normal, and in between it is the barycentric blend of the three vertex normals, flipped when the back side is seen.", "quantifier": "every triangle, every hit, every triple of vertex normals", "why_tests_cant": "Needs agreement of two different barycentric conventions for all hits; constant-normal test data cannot see a mismatch.", "anchors": ["src/interaction.rs: Interaction::interpolate_normal", "src/triangle.rs: baricentric_coorinates"]}
{"id": "C15", "title": "The solid-angle density of a triangle light does not depend on where the scene sits", "statement": "Translating the light, the ray and the hit point together leaves the solid-angle density of sampling the light unchanged.", "quantifier": "every triangle, ray, hit and translation", "why_tests_cant": "A symmetry statement over all translations; tests use rays whose origin makes the error vanish.", "anchors": ["src/triangle.rs: triangle_solid_angle_pdf", "src/primitive_samplers.rs: triangle_solid_angle_pdf"]}
{"id": "C16", "title": "Meshed spheres are closed triangle meshes of the right size on the sphere", "statement": "Meshing a sphere yields exactly 20480 triangles with as many normal triples, every vertex lies exactly at distance radius from the centre, each vertex normal is the unit outward direction, and every directed edge of the mesh is matched by its reverse (no cracks), every facet is non-degenerate and faces outwards, and every ray leaving the centre meets a facet.", "quantifier": "every centre and radius, real-number semantics; every refinement depth for the subdivision invariant", "why_tests_cant": "The statement is about all 61440 vertices for all radii; tests check counts or sample.", "anchors": ["src/triangle.rs: mesh_sphere"]}
{"id": "C17", "title": "Meshing copies primitives faithfully", "statement": "Meshing a triangle gives exactly that triangle with its own unit normal thrice; the box computed for a triangle encloses its three vertices and is the smallest such box.", "quantifier": "every triangle", "why_tests_cant": "Quantifies over all coordinates.", "anchors": ["src/triangle.rs: mesh_triangle, triangle_world_bounds"]}
{"id": "C18", "title": "Mirror reflection obeys the law of reflection", "statement": "The reflected direction has unit length, lies in the plane of incidence, leaves the surface at the angle of incidence and on the side of incidence, and reflecting twice gives the original direction back.", "quantifier": "every unit direction and unit normal, real-number semantics", "why_tests_cant": "Algebraic identities over all directions.", "anchors": ["src/material/specular.rs: mirror_direction", "src/material/mirror.rs"]}
{"id": "C19", "title": "Snell's law and total internal reflection", "statement": "The refracted cosine satisfies n1*sin(theta1) = n2*sin(theta2) and is absent exactly when total internal reflection occurs; a ray already inside the medium is taken to leave towards air.", "quantifier": "every incidence angle and every pair of positive refraction indices", "why_tests_cant": "Quantifies over a three-dimensional continuum with a boundary (the critical angle).", "anchors": ["src/material/specular.rs: cos_and_n", "src/material/dielectric.rs: Dielectric::cos_and_n"]}
{"id": "C20", "title": "Fresnel reflectance lies in [0,1]", "statement": "The Fresnel reflectance computed for a dielectric boundary is between 0 and 1, is 1 at grazing incidence and equals ((n1-n2)/(n1+n2))^2 at normal incidence; swapping the two media (with matching angles) leaves it unchanged.", "quantifier": "every pair of positive indices and cosines in [0,1]", "why_tests_cant": "Bounds over a continuum.", "anchors": ["src/material/specular.rs: fresnel_te, fresnel_tm, fresnel_reflectance"]}
{"id": "C21", "title": "Refracted directions are unit vectors obeying Snell's law", "statement": "The transmitted direction has unit length, goes to the other side of the surface, stays in the plane of incidence and makes with the normal the angle given by Snell's law.", "quantifier": "every unit direction, unit normal and pair of refraction indices without total internal reflection", "why_tests_cant": "Algebraic identities over all directions.", "anchors": ["src/material/specular.rs: fresnel_transmission_dir"]}
{"id": "C22", "title": "A dielectric reflects and transmits a consistent split of energy", "statement": "For every incident ray a dielectric produces a reflected path and, exactly when there is no total internal reflection, a transmitted path whose ray carries the refraction index of the new medium; the reflected and the transmitted (radiance-scaled) fractions add up to one for a white dielectric.", "quantifier": "every ray, normal and refraction indices", "why_tests_cant": "Case analysis on a continuum with a TIR boundary.", "anchors": ["src/material/dielectric.rs: Dielectric::refl_trans, get_possible_paths"]}
{"id": "C23", "title": "Glass never creates energy and does not bend transmitted rays", "statement": "For glass with colour components in [0,1] and refraction index at least 1 the reflected plus transmitted fraction is at most one in every channel, both are non-negative, and the transmitted ray keeps its direction.", "quantifier": "every colour in [0,1]^3, every index, every incidence angle", "why_tests_cant": "An inequality over a five-dimensional continuum.", "anchors": ["src/material/glass.rs: Glass::refl_trans, any_transmission, get_possible_paths"]}
{"id": "C24", "title": "A mirror tints what it reflects", "statement": "The light carried along a mirror's reflected path is scaled by the mirror's colour.", "quantifier": "every mirror colour, ray and normal", "why_tests_cant": "Tests use white mirrors or check directions only.", "anchors": ["src/material/mirror.rs: Mirror::get_possible_paths, Mirror::colour", "src/ray_tracer.rs: trace_ray"]}
{"id": "C25", "title": "The plastic/metal reflectance model is reciprocal and non-negative", "statement": "The Ward-based reflectance is symmetric in the incoming and outgoing directions, non-negative, zero when either direction is behind the surface, equal to the published bounded-albedo Ward formula, and its diffuse part is (1-specularity)/pi times the colour.", "quantifier": "every pair of directions, every roughness, specularity and colour", "why_tests_cant": "Reciprocity and positivity are universally quantified over two directions.", "anchors": ["src/material/ward.rs: evaluate_ward_anisotropic", "src/material/plastic.rs", "src/material/metal.rs"]}
{"id": "C26", "title": "Sampled scattering directions leave the surface on the side of incidence", "statement": "Sampling a plastic or metal surface produces a unit direction on the incident side of the surface with a positive probability density.", "quantifier": "every random draw, incident direction, roughness and specularity", "why_tests_cant": "The failing configurations depend on random draws with particular values.", "anchors": ["src/material/ward.rs: sample_ward_anisotropic"]}
{"id": "C27", "title": "The camera's pixel-to-ray map is inverted by ray-to-pixel", "statement": "Generating the ray of a pixel and mapping that ray back gives the same pixel; rays of a film point are unit vectors from the view point; distinct pixels have distinct rays.", "quantifier": "every film resolution, field of view and orthonormal view, every pixel", "why_tests_cant": "Quantifies over aspect ratios and fields of view; tests use a single camera.", "anchors": ["src/camera/pinhole.rs: Pinhole::new, gen_ray, pixel_from_ray"]}
{"id": "C28", "title": "Pixel indices are in range and in bijection with the film", "statement": "Every sample the camera generates is a pixel of the film, and the pixel index map is a bijection between film pixels and 0..width*height-1, so a render writes each pixel exactly once.", "quantifier": "every film resolution and every random draw", "why_tests_cant": "Range statement over all resolutions and draws.", "anchors": ["src/camera/pinhole.rs: gen_random_sample", "src/camera/film.rs", "src/camera/camera_trait.rs: pixel_index", "src/ray_tracer.rs: RayTracer::render"]}
{"id": "C29", "title": "RGBE encoding round-trips within its precision", "statement": "Encoding a non-negative colour to the 4-byte RGBE pixel and decoding it gives back each channel from below within 1/128 of the largest channel (shared exponent), maps black to black, and re-encoding a decoded pixel reproduces its bytes for normalised pixels.", "quantifier": "every colour whose largest channel is representable, every 4-byte pixel", "why_tests_cant": "Covers 2^32 pixel words and all float triples.", "anchors": ["src/image.rs: colour_to_rgbe, rgbe_to_colour, rusty_frexp, rusty_ldexp"]}
{"id": "C30", "title": "Saving and loading an HDR image preserves it", "statement": "Loading a file written by save_hdre yields an image with the same width and height whose pixels are the RGBE round-trip of the original pixels, in the same order.", "quantifier": "every image size and content", "why_tests_cant": "A round-trip over all byte strings, including pixel bytes equal to newline or '-'.", "anchors": ["src/image.rs: ImageBuffer::save_hdre, from_file"]}
{"id": "C31", "title": "A damaged HDR file is rejected", "statement": "Loading a file whose pixel data is shorter than its header announces, or whose format line is unknown, returns an error rather than an inconsistent image.", "quantifier": "every byte string", "why_tests_cant": "All malformed inputs.", "anchors": ["src/image.rs: ImageBuffer::from_file"]}
{"id": "C32", "title": "Image access, construction and comparison are consistent", "statement": "Indexing pixel (x,y) inside the image addresses a distinct pixel for each (x,y), writing one pixel changes no other, an out-of-image x is rejected, building from pixels requires exactly width*height of them, and comparing images fails on different sizes and otherwise is symmetric and zero exactly when the images have equal radiance everywhere.", "quantifier": "every image and coordinate", "why_tests_cant": "Aliasing across rows appears only for out-of-range coordinates of particular sizes.", "anchors": ["src/image.rs: Index, IndexMut, ImageBuffer::from_pixels, diff"]}
{"id": "C33", "title": "Colour maps are total, bounded, continuous and saturate at their ends", "statement": "Mapping a value with a colour map returns the first colour at or below the minimum, the last at or above the maximum, interpolates linearly between the two neighbouring entries in between, stays within [0,1] for the shipped scales, and never panics.", "quantifier": "every value, every minimum < maximum, every scale", "why_tests_cant": "Floating-point rounding makes the final unreachable!() reachable only at rare inputs.", "anchors": ["src/colourmap/mod.rs: map_linear_colour", "src/colourmap/*.rs"]}
{"id": "C34", "title": "Spectrum arithmetic is component-wise and radiometrically linear", "statement": "Spectrum addition, multiplication and scaling satisfy the commutative, associative and distributive laws in real arithmetic, radiance and luminance are linear, monotone and luminance is 179 times radiance, gray(x) has radiance x, and normalising a spectrum gives radiance one and keeps its chromaticity.", "quantifier": "every spectrum and scalar", "why_tests_cant": "Universally quantified algebraic laws.", "anchors": ["src/colour.rs: Spectrum"]}
{"id": "C35", "title": "is_black recognises exactly black", "statement": "is_black answers true exactly for the colour with all components zero.", "quantifier": "every spectrum", "why_tests_cant": "A test cannot range over negative or tiny components.", "anchors": ["src/colour.rs: Spectrum::is_black"]}
{"id": "C36", "title": "Averaging and converting matrices is element-wise", "statement": "Averaging a matrix with at least one row gives a single row of as many columns whose entries are the arithmetic means of the columns; converting a matrix of colours to radiance or luminance keeps its size and converts every entry.", "quantifier": "every matrix of every size", "why_tests_cant": "The claim is about every entry of every matrix size.", "anchors": ["src/colour_matrix.rs: average_matrix, colour_matrix_to_radiance, colour_matrix_to_luminance"]}
{"id": "C37", "title": "Writing and reading matrices round-trips", "statement": "A colour matrix (or plain matrix) written to a file and read back has the same dimensions and, per entry, the printed decimal value (within 5e-6 for colour matrices).", "quantifier": "every matrix size and content", "why_tests_cant": "A parser/printer round trip over all sizes and values.", "anchors": ["src/colour_matrix.rs: save_colour_matrix, read_colour_matrix, save_matrix, read_matrix"]}
{"id": "C38", "title": "Malformed matrix files are reported as errors", "statement": "A matrix file with missing header fields, wrong component counts, too few or too many rows or columns is reported as an error (never a panic, never silently padded).", "quantifier": "every text file", "why_tests_cant": "All malformed inputs.", "anchors": ["src/colour_matrix.rs: read_colour_matrix, read_matrix"]}
{"id": "C39", "title": "The Radiance reader tokenises exactly by whitespace and always terminates", "statement": "Reading a Radiance scene description splits it into the maximal runs of non-whitespace bytes in order, counts lines correctly for error messages, never reads outside the text, and terminates on every input.", "quantifier": "every byte string", "why_tests_cant": "All inputs, including texts ending in the middle of a token.", "anchors": ["src/from_radiance.rs: RadianceReader::{consume_char,consume_whitespace,consume_non_white,reach_next_token,consume_token}"]}
{"id": "C40", "title": "A Radiance scene description is read back as the scene it describes", "statement": "For every list of supported materials and primitives, reading its textual description yields a scene with exactly those materials and objects in order, each object bound to the material named by its modifier, independent of the amount of whitespace used.", "quantifier": "every scene description built from supported items, every whitespace layout", "why_tests_cant": "A parser correctness statement over all scenes and layouts.", "anchors": ["src/from_radiance.rs: consume_object, consume_*"]}
{"id": "C41", "title": "An object refers to the most recent definition of its modifier", "statement": "As in Radiance, when a modifier name is defined more than once an object uses the latest definition preceding it; an unknown modifier is an error.", "quantifier": "every scene description", "why_tests_cant": "Only shows when names are reused.", "anchors": ["src/from_radiance.rs: get_modifier_index"]}
{"id": "C42", "title": "OBJ faces are triangulated completely", "statement": "Reading an OBJ polygon face with n>=3 vertices yields n-2 triangles that share the face's vertices in order; nothing is silently dropped except degenerate triangles.", "quantifier": "every face of every OBJ file", "why_tests_cant": "Quantifies over polygon sizes; tests use triangles and quads.", "anchors": ["src/from_obj.rs: Scene::from_obj"]}
{"id": "C43", "title": "Substances of a SIMPLE model become materials once, with the right optical class", "statement": "Converting a model adds one material per distinct substance (reused for later surfaces), a glass material iff the substance transmits light, with the transmissivity that corresponds to its normal transmittance.", "quantifier": "every model", "why_tests_cant": "Depends on how surfaces share substances.", "anchors": ["src/from_simple_model.rs"]}
{"id": "C44", "title": "Tracing a ray always terminates and respects the depth limit", "statement": "Tracing a camera ray makes a number of bounces bounded by the configured maximum depth and returns for every scene and every random draw.", "quantifier": "every scene, ray tracer configuration and random sequence", "why_tests_cant": "Termination for all scenes and draws.", "anchors": ["src/ray_tracer.rs: RayTracer::trace_ray, get_global_illumination", "src/ray.rs"]}
{"id": "C45", "title": "The auxiliary ray buffer is never indexed out of range", "statement": "Tracing never accesses the fixed-size ray buffer out of bounds, for every configured maximum depth.", "quantifier": "every configuration and scene", "why_tests_cant": "Needs the deepest recursion path of every configuration.", "anchors": ["src/ray_tracer.rs: RayTracerHelper, trace_ray, get_global_illumination", "src/daylight_coefficients.rs: DCFactory::trace_ray"]}
{"id": "C46", "title": "Ambient sampling follows Russian roulette rules", "statement": "The number of ambient samples is zero when ambient sampling is disabled, the configured maximum at depth zero, and zero or one deeper; when a ray survives roulette its weight is compensated so that the estimator stays unbiased.", "quantifier": "every configuration, depth, weight and random draw", "why_tests_cant": "Quantifies over draws and weights.", "anchors": ["src/ray.rs: Ray::get_n_ambient_samples"]}
{"id": "C47", "title": "Diffuse surfaces receive light from the sky", "statement": "Ambient samples that escape to the sky contribute the sky's radiance to the diffuse illumination, and estimating it terminates.", "quantifier": "every scene with a sky, every random sequence", "why_tests_cant": "Non-termination depends on all random draws and the whole scene.", "anchors": ["src/ray_tracer.rs: get_global_illumination, trace_ray"]}
{"id": "C48", "title": "A light contributes iff it is visible", "statement": "Sampling a light returns nothing when the sampled direction misses it, black when it is obstructed or seen edge-on, and the light's emission with its density otherwise; the near and distant lights of a scene each contribute the requested number of samples, or exactly one sample budget when below one.", "quantifier": "every scene, light, ray and random sequence", "why_tests_cant": "Quantifies over geometry and draws.", "anchors": ["src/ray_tracer.rs: intersect_light, sample_light_array, get_local_illumination"]}
{"id": "C49", "title": "Rendering is independent of the parallel schedule and chunking", "statement": "The rendered image has width*height pixels, pixel index i holds the colour of the ray of film position (i mod width, i div width), and the result is the same for every assignment and interleaving of the parallel chunks given each pixel's own computation.", "quantifier": "every resolution, number of threads and interleaving", "why_tests_cant": "Schedules and chunk boundaries cannot be enumerated by tests.", "anchors": ["src/ray_tracer.rs: RayTracer::render"]}
{"id": "C50", "title": "Daylight coefficient matrices have one row per sensor and conserve energy", "statement": "calc_dc returns a matrix with one row per input ray and one column per sky bin, row i depends only on ray i, entries are non-negative, and a sensor with an unobstructed view of the sky gets a row summing to pi per channel.", "quantifier": "every list of sensor rays, sky subdivision, schedule and random draws", "why_tests_cant": "Quantifies over sizes, schedules and draws.", "anchors": ["src/daylight_coefficients.rs: DCFactory::calc_dc, trace_ray"]}
{"id": "C51", "title": "Ambient samples of a daylight-coefficient bounce are independent", "statement": "The contribution of each secondary ray at a bounce starts from the state the ray had when it reached the surface, so the result does not depend on the order or the number of the other secondary rays beyond averaging.", "quantifier": "every scene and random sequence", "why_tests_cant": "Needs two or more secondary rays at a second bounce.", "anchors": ["src/daylight_coefficients.rs: DCFactory::trace_ray"]}
{"id": "C52", "title": "Samplers stay on their domain", "statement": "Uniform triangle samples lie inside the triangle, disc samples inside the unit disc, hemisphere and sphere samples are unit vectors (on the correct side of the normal for hemispheres) for every pair of random numbers in [0,1).", "quantifier": "every pair of draws and every normal/triangle", "why_tests_cant": "All draws, including the corner values.", "anchors": ["src/samplers.rs", "src/primitive_samplers.rs"]}
{"id": "C53", "title": "Adding a Perez sky installs the sky and the sun, with the zenith angle limited to 3..90 degrees", "statement": "add_perez_sky never panics; it sets the sky function and, when the sun is up, adds exactly one distant light of 0.533 degrees whose luminance times solid angle is the direct normal illuminance of the Perez model, evaluated at the sun's zenith angle limited to at least 3 and at most 90 degrees. Nothing else in the scene changes.", "quantifier": "every scene, place, date, irradiance and sun position", "why_tests_cant": "Needs all sun positions, including those within 3 degrees of the zenith, and every previous content of the scene.", "anchors": ["src/scene.rs: Scene::add_perez_sky"]}
{"id": "C54", "title": "The tracer never reaches the panicking arms of material dispatch", "statement": "While tracing, specular-path, BSDF-sampling and emission methods are only called on materials that support them.", "quantifier": "every scene and every material", "why_tests_cant": "Needs all materials at all dispatch sites.", "anchors": ["src/material/mod.rs", "src/ray_tracer.rs: trace_ray", "src/daylight_coefficients.rs: trace_ray"]}
{"id": "C55", "title": "A specular material's BSDF agrees with the paths it proposes", "statement": "Evaluating the BSDF of a mirror, dielectric or glass along the direction of one of the paths it proposes gives the value carried by that path (up to the cosine factor).", "quantifier": "every specular material, ray and normal", "why_tests_cant": "Agreement of two public methods over all rays, indices and colours.", "anchors": ["src/material/mod.rs: eval_bsdf, get_possible_paths", "src/material/glass.rs", "src/material/dielectric.rs"]}
{"id": "C56", "title": "False-colour images show every pixel's luminance on the scale", "statement": "A false-colour image hands the encoder three bytes per pixel in pixel order and the image's own width and height; each pixel is coloured by the scale at its own luminance; without an explicit range, the range runs from zero to the brightest pixel, which gets the last colour, and a black image gets the first colour.", "quantifier": "every image, range and scale", "why_tests_cant": "All images and ranges; the automatic range is a fold over all pixels.", "anchors": ["src/image.rs: save_falsecolour", "src/colourmap/mod.rs"]}
{"id": "C57", "title": "The automatic range of logarithmic false colour ends at the brightest pixel", "statement": "Without an explicit maximum, the logarithmic false-colour scale ends at the luminance of the brightest pixel of the image.", "quantifier": "every image with positive luminances", "why_tests_cant": "All images; mixes a linear threshold with logarithmic values.", "anchors": ["src/image.rs: save_log_falsecolour"]}
{"id": "C58", "title": "Samplers draw with the advertised law", "statement": "Triangle and disc samples are uniform by area, hemisphere and sphere samples uniform by solid angle, cosine-weighted samples have density cos/pi: the draws that fall in each sub-triangle, sector or zone form a rectangle of the unit square whose area is that region's share.", "quantifier": "every triangle, disc, normal, region of the family and pair of draws", "why_tests_cant": "A statistical test bounds a deviation for some regions; uniformity is a statement about all of them.", "anchors": ["src/samplers.rs"]}
{"id": "C59", "title": "Light samples are weighted by the density with which they are drawn", "statement": "The solid-angle density reported for a light is the density with which sample_direction draws directions towards it, so that dividing by it gives an unbiased estimate of direct light.", "quantifier": "every light shape, size and point lit", "why_tests_cant": "A bias of the estimator is invisible in a single run and needs the law of the sampler.", "anchors": ["src/primitive.rs: Primitive::sample_direction, solid_angle_pdf", "src/primitive_samplers.rs"]}
{"id": "C60", "title": "Point and direction arguments are exactly three numbers", "statement": "A view point, direction or up argument is accepted exactly when its trimmed text is three numbers separated by single spaces, and the values are those numbers in order; printing a triplet and reading it back gives the same triplet.", "quantifier": "every argument text", "why_tests_cant": "All texts, including every kind of white space around and inside.", "anchors": ["bin/spict.rs: Triplet, from_str"]}
{"id": "C61", "title": "Every line of the sensor list is one sensor, in order", "statement": "sfluxmtx reads one sensor per line of its input: when every line is six numbers the sensors are those of the lines in order (position, then normalised direction); a line that is not six numbers makes the program stop with an error; no sensor is invented, dropped or reordered.", "quantifier": "every input byte stream", "why_tests_cant": "All byte streams: final lines without newline, empty lines, bytes that are not UTF-8.", "anchors": ["bin/sfluxmtx.rs"]}
{"id": "C62", "title": "The file sfluxmtx writes is the daylight-coefficient matrix of its sensors", "statement": "When sfluxmtx finishes with a file, reading it back gives a matrix with one row per sensor and one column per sky bin whose rows are each sensor's own coefficients; with a scene that blocks nothing a sensor's row sums to pi; both scene formats that the program announces work; a bad sensor list writes nothing.", "quantifier": "every scene file, sensor list, option set and draws", "why_tests_cant": "Composition of parser, scene, ray tracer and printer over all inputs.", "anchors": ["bin/sfluxmtx.rs", "src/colour_matrix.rs", "src/daylight_coefficients.rs"]}
{"id": "C63", "title": "The file spict writes is the picture of the view that was asked for", "statement": "When spict finishes with a file, reading it back gives an image of exactly the requested size in which pixel (x, y) is the colour the ray tracer computes along the camera ray of that pixel of the requested view; a malformed view argument writes nothing.", "quantifier": "every scene, view, size and draws", "why_tests_cant": "Composition of argument parsing, camera, schedule, ray tracer and image file over all inputs.", "anchors": ["bin/spict.rs", "src/ray_tracer.rs: render", "src/image.rs"]}
{"id": "C64", "title": "scompare writes the difference of the two pictures", "statement": "For two readable images of the same size scompare writes an image of that size with the absolute differences of radiance; the order of the arguments does not matter, an image compared with itself is black, and unreadable files or different sizes write nothing and do not crash.", "quantifier": "every pair of image files and options", "why_tests_cant": "All pairs of files, including damaged ones.", "anchors": ["bin/scompare.rs", "src/image.rs: diff"]}
{"id": "C65", "title": "sfalsecolor colours each pixel with the chosen scale", "statement": "For a readable image sfalsecolor writes a picture of its size in which each pixel has the colour that the chosen scale gives its luminance in the chosen range (an end that is not given is zero, or the brightest pixel; see C57 for the logarithmic case), also when the range is empty or reversed; an unreadable file writes nothing.", "quantifier": "every image file of fewer than 65536 rows and columns (see C56), every choice of scale, linear or logarithmic, with or without explicit ends (logarithmic: positive luminances)", "why_tests_cant": "All images and options.", "anchors": ["bin/sfalsecolor.rs", "src/image.rs: save_falsecolour"]}
{"id": "C66", "title": "The light of a traced ray is the sum it should be", "statement": "Whenever tracing a ray returns, the returned light is: black when nothing is met and there is no sky (or the hit is edge-on); the sky's brightness in the ray's direction times the sky colour when nothing is met; the emission of a luminous surface; black beyond the depth limit; for mirrors, glass and dielectrics the sum over the at most two paths of the light arriving along the path times the path's weight; for plastics and metals the direct light (n samples per near and distant light) plus the AVERAGE over the ambient samples of incoming light x reflectance x cosine / density, where samples that end at a light or at the sky are not counted.", "quantifier": "every scene, ray, configuration, state of the reusable buffers, sequence of draws and arithmetic", "why_tests_cant": "It is a statement about a recursive random process: tests compare a few noisy averages.", "anchors": ["src/ray_tracer.rs: trace_ray, get_local_illumination, get_global_illumination, sample_light_array", "src/material/mod.rs: get_possible_paths, sample_bsdf"]}
{"id": "C67", "title": "Light adds up", "statement": "With the same draws, the light of a ray and every pixel of a picture are linear in what shines: multiplying every emission and the sky by k multiplies the result by k, and the result under two sets of emissions together is the sum of the results under each (never a different path, a different number of samples or a different buffer).", "quantifier": "every scene, ray, camera, configuration, sequence of draws, pair of lightings and pair of coefficients", "why_tests_cant": "Relates three executions of a random recursive process for all scenes.", "anchors": ["src/ray_tracer.rs: trace_ray, render, sample_light_array, get_global_illumination", "src/material/light.rs"]}
{"id": "C68", "title": "No light from nowhere", "statement": "In a scene into which no luminous material was pushed and which has no sky, every traced ray is black and every rendered picture is black.", "quantifier": "every such scene (any history of pushes and builds), ray, camera, configuration and sequence of draws", "why_tests_cant": "Ranges over all scenes and all random paths.", "anchors": ["src/ray_tracer.rs: trace_ray, render", "src/scene.rs: push_object"]}
{"id": "C69", "title": "Where the daylight coefficients come from", "statement": "Every matrix calc_dc returns has one row per sensor and one column per sky bin, and the entry of sensor i and bin j is exactly the sum, over the primary rays drawn around the direction of sensor i, of the amounts that each of those rays sends to bin j: an escaping ray gives its colour (pi, times reflectance*cosine/density of every bounce, times the weight of every specular path) divided by the number of primary rays to the bin of its direction, and nothing else gives anything: not rays that end at a light source, edge-on, or beyond the depth limit.", "quantifier": "all scenes, sensor lists, factories (depths, sample numbers, weights), sky discretisations, seeds and arithmetic, whenever the call returns", "why_tests_cant": "a test fixes one scene and one seed; the claim is an accounting identity over every tree of bounces", "anchors": ["src/daylight_coefficients.rs: DCFactory::calc_dc", "src/daylight_coefficients.rs: DCFactory::trace_ray"]}
{"id": "C70", "title": "Every random decision uses fresh random numbers", "statement": "Whatever tracing a ray returns, the random decisions are taken with consecutive numbers of the generator, none used twice and none skipped: two numbers per direction tried towards a light, one for the number of ambient samples beyond the first surface, one for the lobe of a surface plus two for a matte direction or two per attempt at a glossy one, one per specular path; and a sample is discarded and drawn again only if the direction misses the light it was aimed at, or the ambient ray ends at something luminous (a positive density).", "quantifier": "all scenes, rays, tracer settings, generator states and arithmetic", "why_tests_cant": "a test sees one stream of numbers; reusing a number (correlated samples) or dropping samples biases the image without failing any single assertion", "anchors": ["src/ray_tracer.rs: RayTracer::trace_ray", "src/ray_tracer.rs: RayTracer::sample_light_array", "src/ray_tracer.rs: RayTracer::get_global_illumination", "src/material/ward.rs: sample_ward_anisotropic", "src/primitive.rs: Primitive::sample_direction"]}
{"id": "C71", "title": "Light is never negative", "statement": "In a scene of physically sensible materials (colours not negative and not above one for what reflects, lamps that emit a non-negative amount, a non-negative sky), whatever tracing a ray returns has no negative component, and neither has any pixel of a rendered picture.", "quantifier": "every scene (any history of pushes and builds), ray, camera, configuration, schedule and sequence of draws", "why_tests_cant": "A negative weight needs a particular combination of directions, densities and nested bounces; tests sample a handful.", "anchors": ["src/ray_tracer.rs: trace_ray, render, get_local_illumination, get_global_illumination", "src/material/mod.rs: sample_bsdf, eval_bsdf"]}
{"id": "C72", "title": "Reflection does not amplify light", "statement": "Nothing in a picture is brighter than the brightest thing that shines: if every lamp emits at most L and the sky is at most L in every direction, and surfaces reflect and transmit at most all the light, then whatever tracing a ray returns, and every pixel, is between 0 and L.", "quantifier": "every such scene, ray, camera, configuration, schedule and sequence of draws", "why_tests_cant": "An energy bound over all random recursive paths, through every number of bounces.", "anchors": ["src/ray_tracer.rs: trace_ray, render", "src/material/mod.rs: get_possible_paths, sample_bsdf", "src/material/dielectric.rs"]}
{"id": "C73", "title": "Sunlight falls on a matte surface as the cosine law says", "statement": "A matte surface of reflectance rho in direct, unobstructed sunlight (one distant source of radiance L and angular size alpha, no inter-reflection) is seen with radiance rho*L*omega*cos(theta)/pi, where omega is the solid angle of the source and theta the angle between the surface's normal and the axis of the source, up to the spread of the source's own directions (|k - cos theta| <= sqrt(2(1-cos(alpha/2)))), whatever the random draws, the number of shadow samples and the rest of the scene.", "quantifier": "every scene of flat surfaces lit by one distant source, every ray that meets a matte surface whose view of the source is unobstructed, every tracer without ambient samples, every number of shadow samples and every sequence of draws", "why_tests_cant": "The result is a sum over random samples: a test sees one sequence of draws in one scene.", "anchors": ["src/ray_tracer.rs: trace_ray, get_local_illumination", "src/primitive_samplers.rs", "src/samplers.rs: sample_cosine_weighted_horizontal_hemisphere", "src/material/mod.rs: eval_bsdf"]}
{"id": "C74", "title": "A mirror shows exactly what the reflected ray sees", "statement": "Tracing a ray that meets a mirror gives exactly the value obtained by tracing the ray reflected about the surface's normal from (10^-5 off) the point of the hit, with the same medium and colour, and fails or does not return exactly when that does; the depth grows by at most one.", "quantifier": "every scene of flat surfaces and distant sources, every ray that meets a mirror within the depth limit, every tracer, tint and sequence of draws", "why_tests_cant": "It relates two traces over every scene and every sequence of draws.", "anchors": ["src/ray_tracer.rs: trace_ray", "src/material/mod.rs: get_possible_paths", "src/material/specular.rs: mirror_direction"]}
{"id": "C75", "title": "A pane of glass shows the sky behind it, dimmed, and the reflected sky in front of it", "statement": "Looking at a single pane of glass under any sky, one sees in each channel R*sky(mirrored direction) + T*sky(direction), where R and T are the reflectance and transmittance of a slab with Fresnel faces and the glass's colour, i.e. the sums over all internal reflections averaged over the two polarisations; neither the draws nor the side from which the pane is seen matter.", "quantifier": "every triangle, colour in [0,1], refraction index at least 1, sky, ray that crosses the pane, tracer and sequence of draws", "why_tests_cant": "Real-valued optics over all angles, colours, refraction indices and skies: sums of infinite series, not finitely many samples.", "anchors": ["src/ray_tracer.rs: trace_ray", "src/material/glass.rs: refraction, get_possible_paths", "src/material/specular.rs: fresnel_te, fresnel_tm", "src/scene.rs: build"]}
{"id": "C76", "title": "A scene lit by distant sources only, without sky and without glossy materials, can always be rendered", "statement": "Take any scene whose only lights are distant sources of positive angle below pi, with no sky and with any matte, mirror, glass and dielectric surfaces. If every specular bounce is counted and the depth limit is at most 14, then tracing any ray returns (no panic, no endless loop), whatever the random draws, in a number of steps bounded in advance by the sample counts and the number of triangles; so does rendering the whole picture with any camera. And every order in which the workers progress on the chunks of the film gives the same picture, finished as soon as every chunk was given enough turns.", "quantifier": "for every history of pushed materials and objects, every ray, tracer configuration with max_depth <= 14, every stream of draws in [0,1), every camera, film of fewer than 2^64 pixels and every interleaving of the workers", "why_tests_cant": "Termination over all draws and interleavings: the loops of the tracer retry on bad luck, and no finite number of seeds shows that a retry loop ends.", "anchors": ["src/ray_tracer.rs: trace_ray, get_local_illumination, sample_light_array, render", "src/scene.rs: build, cast_ray", "src/samplers.rs"]}
{"id": "C77", "title": "Asked where a light is, a primitive answers with the way to it", "statement": "The direction query of a primitive returns, for a triangle, a unit vector and a length that lead from the given point to the triangle's centroid; for a sphere seen from outside, a unit vector and a length that lead to a point of the sphere, and no point of the sphere is nearer; for a distant source, the direction it was given (not normalised) and a length beyond everything in a scene. For a cylinder it panics.", "quantifier": "for every triangle, sphere, distant source and point (other than the centroid, outside the sphere)", "why_tests_cant": "All positions and shapes in real space; tests try a few.", "anchors": ["src/primitive.rs: direction", "src/primitive_samplers.rs: triangle_direction, sphere_direction"]}
{"id": "C78", "title": "On average, a matte surface reflects exactly its share of the light around it", "statement": "Take a matte (diffuse branch of a) plastic or metal of colour c and specularity s, and any field of light L over the hemisphere that is piecewise continuous along the meridians. One draw of the material contributes L(direction) * bsdf * |cos| / density. The mean of this contribution over the two uniform random numbers exists and is (1-s) c / pi times the integral of L cos over the hemisphere: the reflection integral, without bias.", "quantifier": "for every matte material, frame, light field with an integral, and channel", "why_tests_cant": "A statement about a mean over all draws (an integral): tests can only average finitely many of them.", "anchors": ["src/material/ward.rs: sample_ward_anisotropic", "src/samplers.rs: sample_cosine_weighted_horizontal_hemisphere", "src/material/mod.rs: sample_bsdf"]}
{"id": "C79", "title": "The samplers draw from the densities they stand for", "statement": "For every quantity f that is piecewise continuous along meridians (radii) and has an integral: the mean of f over the draws of the cosine-weighted hemisphere sampler is (1/pi) times the integral of f cos over the hemisphere; of the uniform hemisphere sampler, 1/(2 pi) times the integral of f; of the disc sampler, the integral of f over the disc divided by its area.", "quantifier": "for every frame, radius, centre and integrable f", "why_tests_cant": "Means over all draws are integrals; no finite number of draws establishes one.", "anchors": ["src/samplers.rs: sample_cosine_weighted_horizontal_hemisphere, uniform_sample_hemisphere, uniform_sample_disc"]}
{"id": "C80", "title": "No panic caused by rounding in matte, mirror and glass scenes", "statement": "For every scene of fewer than 2^15 triangles made of surfaces that never take the glossy branch, mirrors, glass, dielectrics and lamps (no cylinder), and every ray, tracing never panics in the arithmetic the program really uses: binary64 with rounding, infinities and NaN. Rebuilding the accelerator of a scene whose coordinates are finite and at most 2^999 in magnitude returns in that arithmetic too, and a scene without lamps and sky returns a colour.", "quantifier": "every scene of that kind, every ray (also with NaN or infinite components), every configuration whose depth fits the ray buffer, every sequence of random numbers", "why_tests_cant": "Rounding errors, overflow and NaN depend on exact bit patterns; tests use a few friendly scenes.", "anchors": ["src/ray_tracer.rs: RayTracer::trace_ray", "src/bvh.rs: Node::recursive_build, BoundingVolumeTree::intersect"]}
{"id": "C81", "title": "Query answers do not depend on the order of insertion", "statement": "Two scenes into which the same objects were pushed, in whatever order, with materials, builds, rebuilds and sky changes interleaved in any way, and whatever sorting, selection and box routines the libraries use: after rebuild_accelerator every ray gets the same answer (a hit at the same point, of the same record with the same shading unless several surfaces are met at that very point, or no hit), and every shadow query the same boolean, for rays that do not pass a triangle's rim within the tolerance of the intersection test.", "quantifier": "all pairs of histories that push the same objects, all rays, all contents of the work buffers, all library routines that satisfy their contracts", "why_tests_cant": "a hyperproperty over pairs of histories of any length", "anchors": ["src/scene.rs::push_object", "src/scene.rs::rebuild_accelerator", "src/scene.rs::cast_ray", "src/scene.rs::unobstructed_distance", "src/bvh.rs::BoundingVolumeTree"]}
{"id": "C82", "title": "Adding objects can only bring hits nearer and shadows closer", "statement": "If everything pushed into one scene was also pushed into another (which may contain more), then after rebuilding both, a ray that hits something in the first hits something at least as near in the second, and a point that is shadowed in the first is shadowed in the second (rays off the rims).", "quantifier": "all pairs of histories with inclusion of objects, all rays and distances", "why_tests_cant": "monotonicity relates two unbounded scenes", "anchors": ["src/scene.rs::push_object", "src/scene.rs::cast_ray", "src/scene.rs::unobstructed_distance", "src/bvh.rs::intersect", "src/bvh.rs::unobstructed_distance"]}
{"id": "C83", "title": "Moving the scene moves the answers", "statement": "Apply one rotation and translation to every triangle of a scene, to the camera and to the ray: the triangle test gives the moved hit (same parameters, same side, turned normal and tangents) or misses as before; the closest hit of the moved scene is the moved record at the moved point; shadow queries answer the same; and the rays of a moved camera are the moved rays.", "quantifier": "all rigid motions, all histories of triangles, all rays, pixels and cameras, in exact arithmetic", "why_tests_cant": "all motions of all scenes", "anchors": ["src/triangle.rs::triangle_intersect", "src/triangle.rs::baricentric_coordinates", "src/interaction.rs", "src/scene.rs::cast_ray", "src/camera/pinhole.rs::gen_ray"]}
{"id": "C84", "title": "The expected daylight coefficient is the projected solid angle of the visible part of the sky patch", "statement": "In a scene whose surfaces return no light (lamps, black matte or black metal), the daylight coefficient of a sensor for a sky bin, averaged over all the numbers the generator can draw, is the integral of the cosine over that part of the bin the sensor sees: directions of the bin in front of the sensor in which a ray cast from it meets nothing. For a sensor with nothing in front of it this holds whatever the materials of the scene are, and a bin that is a box of directions (between two angles from the sensor's axis and two azimuths) is expected to count (p2-p1)(sin^2 t2 - sin^2 t1)/2.", "quantifier": "every scene history, every sensor list, sensor and bin, every number of ambient samples, every generator, every set of visible directions", "why_tests_cant": "an expectation over all random draws is an integral, which no finite number of runs computes, and it must hold for every scene and bin", "anchors": ["src/daylight_coefficients.rs: DCFactory::calc_dc", "src/ray_tracer.rs: RayTracer", "src/samplers.rs: local_to_world, uniform_sample_hemisphere / cosine sampling", "src/colour_matrix.rs: ColourMatrix"]}
{"id": "C85", "title": "Concatenated Radiance descriptions read as the scenes side by side", "statement": "If two Radiance descriptions can be read and define no material of the same name, then their concatenation (with any white space between them) can be read, and gives the first scene with the second placed beside it: triangles, normals, lights and distant lights of the first followed by those of the second, in order, with the material numbers of the second counted on from those of the first; nothing of the first description changes.", "quantifier": "every pair of descriptions, every number parser, every triangulation and every arithmetic", "why_tests_cant": "must hold for every pair of texts, however long, and every number format; a test reads a few files", "anchors": ["src/from_radiance.rs: RadianceReader, Scene::from_radiance", "src/scene.rs: Scene::push_object, push_material"]}
{"id": "C86", "title": "One rebuild makes queries see everything ever pushed", "statement": "Whatever was done to a scene before (materials and objects pushed, accelerators built, objects pushed after a build, and so on in any order), after one rebuild every closest-hit query answers about all the objects pushed so far: it reports a nearest of the triangles that were pushed, under the materials and normals it was pushed with, or reports nothing and then no pushed triangle is crossed; and shadow queries are blocked by exactly those triangles.", "quantifier": "every history of scene operations, every ray, every requested distance", "why_tests_cant": "histories are unbounded sequences of operations, and the rebuild must be right after each of them and for every ray", "anchors": ["src/scene.rs: Scene::rebuild_accelerator, push_object, cast_ray, unobstructed_distance", "src/bvh.rs: BoundingVolumeTree::new"]}
{"id": "C87", "title": "The ray/triangle test decides exactly", "statement": "A ray is reported to hit a triangle if and only if the line of the ray meets the triangle's plane more than 1e-5 ahead at a point whose barycentric coordinates are inside the triangle up to 2^-52, and twice the area of the triangle times the cosine at which it is seen is at least 1e-5. The point reported is the point of the ray, and is a point of the triangle but for a rim of 2^-51 of its two edges.", "quantifier": "every triangle and every ray, in exact arithmetic", "why_tests_cant": "the equivalence ranges over a continuum of rays and triangles, including the edges of the triangle", "anchors": ["src/triangle.rs: intersect_triangle, simple_intersect_triangle, triangle_area"]}
{"id": "C88", "title": "Colour scales change gradually, and the perceptual ones keep the order of brightness", "statement": "If neighbouring entries of a scale differ by at most D per channel, the colours of any two values differ by at most D times the number of entries between them; with the shipped scales a channel changes by at most six times the share of the range between the two values. With inferno, magma, plasma and viridis a larger value is never shown darker, and is shown strictly brighter inside the range; with Radiance's own scale this is not so.", "quantifier": "every scale, every pair of values and every range, in exact arithmetic", "why_tests_cant": "pairs of real values and ranges are a continuum; a test looks at a few values", "anchors": ["src/colourmap/mod.rs: map_linear_colour, map_linear_spectrum", "src/colourmap/*.rs: the tables"]}
{"id": "C89", "title": "Loading and saving an HDR picture again changes nothing any more", "statement": "If a picture whose pixels are darker than 1e-19 or between 237/2^71 (just above 1e-19) and 2^127 was saved and loaded, saving the loaded picture writes the very same bytes, and so loading that gives the very same picture: the loss of precision happens once.", "quantifier": "every picture of every size with such pixels", "why_tests_cant": "must hold for every pixel value and picture size; the exception next to the threshold is one of measure 4e-22", "anchors": ["src/image.rs: ImageBuffer::save_hdre, from_file, colour_to_rgbe, rgbe_to_colour"]}
{"id": "C90", "title": "The order in which a triangle's corners are listed only decides which side is its front", "statement": "If a ray crosses a triangle, then it crosses it under each of the six orders of its corners, at the same point and with the same shading normal; cyclic shifts keep the side that is reported and swaps exchange front and back. Orders can disagree only about points outside of the triangle, on the rim that the tolerance adds.", "quantifier": "every triangle, every ray and each of the six orders of its corners, in exact arithmetic", "why_tests_cant": "rays and triangles are a continuum; the tests use a few axis-aligned ones", "anchors": ["src/triangle.rs: triangle_intersect, intersect_triangle_slice"]}
{"id": "C91", "title": "Whether two points see each other does not depend on which of them looks", "statement": "In a scene with a rebuilt accelerator, the shadow ray from a to b with the distance between them and the one from b to a give the same answer, which is 'blocked' exactly if a triangle of the scene cuts the segment between the points; provided nothing is met within a centimetre of the two points or on a rim only.", "quantifier": "every scene built by pushes (up to 2^30 triangles that are not piled up), every pair of points, every content of the auxiliary buffer", "why_tests_cant": "must hold for every scene and pair of points; tests look at a handful of rays", "anchors": ["src/scene.rs: unobstructed_distance", "src/bvh.rs: unobstructed_distance", "src/triangle.rs: simple_triangle_intersect"]}
{"id": "C92", "title": "Specular light paths can be walked backwards", "statement": "Whatever path a mirror, a glass pane or a dielectric proposes, light sent back along it is proposed the same path back into the direction it came from and into the medium it came from, with the same weight for reflections and panes, and for a refraction with the weights in the inverse ratio of the fourth power of the refraction indices. So along any sequence of specular events between two places in the same medium, both ways carry the same share of the light.", "quantifier": "every sequence of specular events of any length, every direction, normal, colour and refraction index (away from grazing exit), in exact arithmetic", "why_tests_cant": "sequences of any length over a continuum of directions and indices; tests check single angles", "anchors": ["src/material/mod.rs: get_possible_paths", "src/material/dielectric.rs", "src/material/glass.rs", "src/material/mirror.rs", "src/material/specular.rs: cos_and_n, fresnel_transmission_dir, mirror_direction"]}
{"id": "C93", "title": "A convex body does not shade itself", "statement": "If all triangles of the scene lie behind the tangent plane of the point a ray hits (no farther than a million kilometres), then a ray that leaves the point on the outer side, from the small distance by which the tracer lifts its starting point, meets nothing and its shadow test is clear for a light at any distance; hence the sun, wherever its whole disc is above the tangent plane, lights a matte convex body by the cosine law.", "quantifier": "every scene history, hit, direction on the outer side, lift of at least 1e-5, light distance; every random draw and number of samples for the sunlit case", "why_tests_cant": "self-shadowing shows only at particular geometry and angles; a test samples a few of them", "anchors": ["src/ray_tracer.rs: sample_light_array, trace_ray", "src/scene.rs: cast_ray, unobstructed_distance", "src/triangle.rs: baricentric_coordinates"]}
{"id": "C94", "title": "A surface is not lit through itself", "statement": "A light on the other side of a flat surface gives no direct light to the side that is seen: the shadow ray, which starts a millimetre above the surface, is stopped by the surface itself.", "quantifier": "every scene history, surface triangle, point, direction from below, distance of the light; all random draws", "why_tests_cant": "leaks through a surface need a particular point near an edge or a particular direction", "anchors": ["src/ray_tracer.rs: sample_light_array, intersect_light", "src/scene.rs: unobstructed_distance"]}
{"id": "C95", "title": "The ray-triangle test in double precision", "statement": "In the arithmetic the program really uses (every operation rounded to binary64), for a model of at most 1024 units: when the test reports a hit, the exact line of the ray crosses the plane of the triangle at a point inside it up to a blur of about L^2 2^-43 over the volume spanned by the ray and the triangle's edges, and the reported point, barycentric coordinates, normal and side are those of that crossing up to the blur; the normal has unit length to 2^-50 and faces the ray. Conversely a crossing inside the triangle by more than the blur, ahead of the ray and not grazing, is reported.", "quantifier": "every triangle and ray with finite binary64 coordinates within the stated scale, every rounding", "why_tests_cant": "rounding errors are worst at inputs nobody writes down; a test samples a few coordinates", "anchors": ["src/triangle.rs: baricentric_coordinates, intersect", "src/interaction.rs"]}
{"id": "C96", "title": "A surface made of several triangles has no gaps along the seams", "statement": "A ray that meets a surface made of several triangles, seams included, is reported at the point where it meets the surface.", "quantifier": "every list of triangles, every ray", "why_tests_cant": "a leak needs a ray that passes within a rounding error of a seam", "anchors": ["src/triangle.rs: baricentric_coordinates, intersect", "src/bvh.rs: intersect, unobstructed_distance"]}
{"id": "C97", "title": "Normalised vectors are unit vectors in double precision", "statement": "Normalising a vector whose largest component lies between 2^-400 and 2^400 gives, in binary64, a vector of squared length 1 within 2^-50 whose coordinates are those of the exact direction within 2^-51.", "quantifier": "every vector of finite doubles in the range", "why_tests_cant": "holds or fails per bit pattern; no test covers 2^192 vectors", "anchors": ["src/triangle.rs: normal", "src/camera/pinhole.rs: gen_ray"]}
{"id": "C98", "title": "Scene queries in floating point", "statement": "With every operation rounded to binary64 and the ray's direction a unit vector up to rounding, building the accelerator over any scene of bounded size succeeds and keeps every triangle, and the closest-hit query reports a triangle that the ray's exact line crosses up to the rounding blur, at a stored position within ten blurs of that crossing, and not beyond any triangle that the ray crosses clearly (away from its rim) by more than the sum of the two distance blurs; it reports nothing only when no such clear crossing exists beyond a third of a millimetre. A shadow query answers 'blocked' only if some triangle is crossed (up to the blur) before the requested distance and 'free' only if nothing is clearly crossed before it. What a pixel's camera ray hits first lies on the exact line of sight through the centre of that pixel, within the same error. The box test of the external geometry crate is assumed not to overlook a box except within rounding of its edges; the usual slab test does that.", "quantifier": "every scene of fewer than 32768 triangles with coordinates up to L (1 to 1024), every ray of that size with a unit direction up to 2^-50, every sort and box test meeting their contract, every finite distance", "why_tests_cant": "rounding makes the test, the distances and the boxes inexact at once; whether some combination of triangle, ray and tree loses a hit or reports the farther surface cannot be settled by trying rays", "anchors": ["src/bvh.rs: BoundingVolumeTree::new, intersect, unobstructed_distance", "src/triangle.rs: intersect, simple_intersect", "src/ray.rs"]}
{"id": "C99", "title": "Reflected and camera directions in floating point", "statement": "With every operation rounded to binary64, a mirror, glass or dielectric surface sends the reflected ray into the exact mirror image of the incoming direction up to 2^-46 per coordinate; the new direction is again a unit vector up to rounding, so any number of successive reflections accumulates an error of at most 2^-45 each (errors add, they are not amplified), and the reflected ray makes the same angle with the surface as the incoming one. The camera's ray through a pixel starts exactly at the view point, has a unit direction up to rounding and passes through the exact centre of the pixel up to 2^-42; different pixels get different rays.", "quantifier": "every unit (up to 2^-50) direction and normal, every specular material, every list of reflections; every view whose direction and up vector are unit and nearly perpendicular, every film up to 65536 pixels wide and high with at most 8 times as many rows as columns, every pixel, film distances from 1/2 to 16", "why_tests_cant": "every rounding shifts the direction a little and the next reflection starts from the shifted one; whether the length drifts or the errors are amplified along a path cannot be settled by testing some paths", "anchors": ["src/material/specular.rs: mirror_direction, mirror_bsdf", "src/material/mirror.rs", "src/material/dielectric.rs", "src/material/glass.rs", "src/camera/pinhole.rs: gen_ray"]}
{"id": "C100", "title": "Refracted rays in floating point", "statement": "With every operation rounded to binary64, a transparent body sends a ray on by Snell's law up to a few roundings: the component along the surface is n1/n2 times the incoming one up to 2^-45 and the component across it is the cosine that Snell's law prescribes (its square up to 2^-43); the ray is totally reflected exactly when Snell's law has no solution, up to 2^-43. The program does not renormalise the refracted direction; nevertheless along any sequence of reflections, refractions and passages through thin glass, in whatever media, the squared length of the direction stays within 2^-46 + k 2^-39 of one after k events, so it never drifts away.", "quantifier": "every unit direction and normal facing it, every material and medium with an index between 1 and 4, every sequence of up to 2^18 specular events", "why_tests_cant": "a refraction multiplies an error of the length by (n1/n2)^2, so entering and leaving bodies could amplify rounding errors; only a bound over all sequences of media settles that they do not", "anchors": ["src/material/specular.rs: cos_and_n, fresnel_transmission_dir", "src/material/dielectric.rs: get_possible_paths", "src/material/glass.rs", "src/material/mirror.rs"]}
{"id": "C101", "title": "Material handles are only names", "statement": "How the materials of a scene are numbered does not matter: two ways of telling a scene that push the same objects with the same materials on their two sides, set the same skies and build the accelerator at the same moments, but list the materials in another order, list some twice or list some that nothing uses, give the same radiance along every ray, the same image pixel by pixel and the same daylight coefficients, random number for random number. In particular pushing a material that no object uses changes nothing.", "quantifier": "every pair of histories of a scene that differ only in the numbering and the order of the materials, every ray, camera, sensor and seed", "why_tests_cant": "a test compares a few numberings of one small scene; the claim is about every history", "anchors": ["src/scene.rs:push_material", "src/scene.rs:push_object", "src/scene.rs:build_accelerator", "src/ray_tracer.rs:trace_ray", "src/bvh.rs:recursive_build"]}
{"id": "C102", "title": "Nothing can be asked of a scene before it is built, and it is built once", "statement": "In every history of a scene: as long as neither build_accelerator nor rebuild_accelerator was called, casting a ray, asking for an unobstructed distance, tracing, rendering and computing daylight coefficients all panic instead of answering; build_accelerator succeeds exactly when the scene was not built before (by either function) and panics otherwise; rebuild_accelerator always succeeds and gives the scene that build_accelerator would have given.", "quantifier": "every history of pushes, builds, rebuilds and sky changes, every ray, camera and sensor", "why_tests_cant": "a test plays a few histories", "anchors": ["src/scene.rs:build_accelerator", "src/scene.rs:rebuild_accelerator", "src/scene.rs:cast_ray", "src/scene.rs:unobstructed_distance", "src/ray_tracer.rs:trace_ray"]}
{"id": "C103", "title": "Directions and points drawn in single precision", "statement": "With the arithmetic the program really uses (draws, roots, sines and cosines in f32, then cast to f64): the cosine-weighted direction is finite, a unit vector to within two millionths, never below the surface, and within two millionths of the exact sampler's direction for the same draws; the points of the unit sphere likewise are on it to within a few millionths; a point drawn on a disc is inside it up to a millionth of its radius. The direction that a matte surface scatters to, in the world frame, is then a unit vector on the front side with the exact sampler's cosine and a positive density equal to the cosine over pi, unless the first number drawn is within four millionths of 1. The uniform hemisphere sampler's direction is a unit vector to within four millionths, at the height drawn. It is never exactly in the surface, so a sample's contribution is a number (refuted: one pair of draws gives height exactly zero, density zero, and NaN light).", "quantifier": "all pairs of single-precision draws in [0,1], all radii of practical size, every single-precision sine and cosine accurate to 2^-24 (for the refutation: every correctly rounded one)", "why_tests_cant": "there are 2^48 pairs of draws: a test hits the bad one with probability 2^-47, and accuracy of the other ones is a claim about all of them", "anchors": ["src/samplers.rs: sample_cosine_weighted_horizontal_hemisphere, uniform_sample_sphere, uniform_sample_horizontal_disc", "src/material/ward.rs: sample_ward_anisotropic", "src/ray_tracer.rs: get_global_illumination"]}
{"id": "C104", "title": "The accelerator cuts where the surface-area cost is least", "statement": "A node of more than four primitives whose centres are spread over at least 1e-8 is cut across the widest axis of its centres, after one of the first eleven of twelve equal slices; the slice is one of least cost, the cost of a cut being 10 plus the number of primitives on each side times the surface area of the box around their centres, over the surface area of the box around everything; the two sides are exactly the primitives below and above the cut, neither is empty, and the node stays a leaf iff it has at most 24 primitives and no cut costs less than their number. Two to four primitives are halved; a single one, or primitives with (almost) one common centre, are a leaf.", "quantifier": "all lists of primitives, all surface-area and axis routines, all sorting routines that sort; exact arithmetic for the cost theorem", "why_tests_cant": "optimality ranges over all cuts of all scenes; a wrong cost only makes queries slow, so no functional test notices", "anchors": ["src/bvh.rs: BoundingVolumeTree::recursive_build, get_bucket_index"]}
{"id": "C105", "title": "The defaults are what they say and fit together", "statement": "The default view stands at the origin, looks along +y with +z up under 60 degrees and is a proper view, so that the middle pixel of a film with odd sides looks straight ahead; a ray from any camera starts with depth 0, value 1, refraction index 1, white colour and no interaction; the default tracer has depth 2, 10 shadow and 70 ambient samples, weight limit 1/1000, specular count 0.3; the default daylight calculation depth 0, 10 samples, 1/10000, 0.5; and the default tracer with the default ray buffer never panics on any scene of triangles, spheres and distant sources.", "quantifier": "all films, pixels, cameras, scenes, rays and draws", "why_tests_cant": "safety of the defaults is a statement about every scene", "anchors": ["src/camera/view.rs: View::default", "src/camera/pinhole.rs: Pinhole::gen_ray", "src/ray.rs: Ray::default", "src/ray_tracer.rs: RayTracer::default, RayTracerHelper::default", "src/daylight_coefficients.rs: DCFactory::default"]}
