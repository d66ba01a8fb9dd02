{
 "claims": [
  {
   "property": "C01",
   "status": "proved",
   "theorems": [
    "C01_build_permutes"
   ],
   "note": "Any arithmetic (hence binary64); needs only that the standard library's sort/select return permutations."
  },
  {
   "property": "C02",
   "status": "proved",
   "theorems": [
    "C02_build_total",
    "C02_build_returns",
    "C02_binary64",
    "C02_binary64_huge_refuted"
   ],
   "note": "Exact reals; contracts of external sorting/box routines as explicit hypotheses with a satisfying instance. The array layout statement assumes fewer than 2^15 coinciding triangles (see C06) and at most 2^30 triangles; termination does not. In binary64 (rounding included) the build returns for all scenes with finite coordinates of magnitude at most 2^999 (C02_binary64); six triangles spread over the whole double range make it panic (C02_binary64_huge_refuted), so the property is read as excluding coordinates beyond 2^999."
  },
  {
   "property": "C03",
   "status": "proved",
   "theorems": [
    "C03_closest_hit",
    "C03_closest_hit_any_arithmetic",
    "C03_binary64_order"
   ],
   "note": "Exact reals: returned hit is closest among all triangles crossed (epsilon-fringe hits may also be returned, as the test's tolerance allows); plus the any-arithmetic version relative to the box test. Assumes fewer than 2^15 coinciding triangles (C06)."
  },
  {
   "property": "C04",
   "status": "proved",
   "theorems": [
    "C04_shadow",
    "C04_no_triangles"
   ],
   "note": "Exact reals, with the code's tolerances; empty scene for any arithmetic."
  },
  {
   "property": "C05",
   "status": "proved",
   "theorems": [
    "C05_history_independent",
    "C05_miss_keeps_ray",
    "C05_hit_keeps_rest",
    "C05_queries_return"
   ],
   "note": "Any arithmetic, arbitrary sequences of queries sharing one buffer; no panic / no divergence below 2^15 triangles for any arithmetic with strict order (binary64 included)."
  },
  {
   "property": "C06",
   "status": "partial",
   "theorems": [
    "C06_big_leaf_refuted",
    "C06_leaf_complete_partial"
   ],
   "note": "REFUTED: 32768..65536 coinciding triangles overflow the i16 leaf counter; queries panic or never end. Completeness proved below 2^15 triangles."
  },
  {
   "property": "C07",
   "status": "proved",
   "theorems": [
    "C07_records",
    "C07_records_in_order"
   ],
   "note": "Any arithmetic, any history of pushes, builds, rebuilds and sky changes."
  },
  {
   "property": "C08",
   "status": "proved",
   "theorems": [
    "C08_light_count",
    "C08_lights",
    "C08_refused"
   ],
   "note": "Any arithmetic, any history; exact characterisation of what is refused."
  },
  {
   "property": "C09",
   "status": "proved",
   "theorems": [
    "C09_handles"
   ],
   "note": "Any history between the two pushes."
  },
  {
   "property": "C10",
   "status": "partial",
   "theorems": [
    "C10_late_objects_ignored_refuted",
    "C10_blind_spot_refuted",
    "C10_rebuild_sees_all_partial"
   ],
   "note": "REFUTED: nothing pushed after a build is seen by any query (C10_late_objects_ignored_refuted; a concrete missed triangle in C10_blind_spot_refuted). Proved: after rebuild_accelerator everything ever pushed takes part."
  },
  {
   "property": "C11",
   "status": "proved",
   "theorems": [
    "C11_hit_frame",
    "C11_hit_sound",
    "C11_hit_normal",
    "C11_simple_same"
   ],
   "note": "Exact reals."
  },
  {
   "property": "C12",
   "status": "partial",
   "theorems": [
    "C12_hit_complete_partial",
    "C12_small_triangle_refuted"
   ],
   "note": "REFUTED for small/edge-on triangles (absolute determinant threshold 1e-5 m^2); proved whenever the threshold is met."
  },
  {
   "property": "C13",
   "status": "proved",
   "theorems": [
    "C13_area_half_cross",
    "C13_area_invariant",
    "C13_area_zero_iff"
   ],
   "note": "Exact reals: Heron = half the cross product; invariances; zero iff collinear."
  },
  {
   "property": "C14",
   "status": "partial",
   "theorems": [
    "C14_vertex_normal_refuted",
    "C14_blend_partial",
    "C14_flat_normal_partial"
   ],
   "note": "REFUTED: weights are attached to the wrong vertices (at vertex a the code returns the normal of c). Exact formula and the flat case proved."
  },
  {
   "property": "C15",
   "status": "partial",
   "theorems": [
    "C15_translation_refuted",
    "C15_translation_partial"
   ],
   "note": "REFUTED: cos is computed from the ray origin's position instead of its direction; invariant only under translations orthogonal to the normal."
  },
  {
   "property": "C16",
   "status": "proved",
   "theorems": [
    "C16_mesh_topology",
    "C16_count",
    "C16_binary64_commutes",
    "C16_mesh_geometry"
   ],
   "note": "Count and no-cracks for every arithmetic with commutative addition (binary64 included) and every depth; vertices, normals, outward orientation and complete surrounding of the centre in exact reals."
  },
  {
   "property": "C17",
   "status": "proved",
   "theorems": [
    "C17_mesh_triangle",
    "C17_box_encloses_and_is_smallest"
   ],
   "note": "Exact reals."
  },
  {
   "property": "C18",
   "status": "proved",
   "theorems": [
    "C18_reflection",
    "C18_reflected_paths"
   ],
   "note": "Exact reals; mirror_direction and the reflected path of every specular material."
  },
  {
   "property": "C19",
   "status": "proved",
   "theorems": [
    "C19_snell",
    "C19_leaves_to_air"
   ],
   "note": "Exact reals."
  },
  {
   "property": "C20",
   "status": "partial",
   "theorems": [
    "C20_binary64",
    "C20_transmittance_binary64",
    "C20_any_binary64",
    "C20_is_fresnel",
    "C20_normal_incidence",
    "C20_grazing_limit",
    "C20_grazing_refuted"
   ],
   "note": "Equality with Fresnel's equations, [0,1], normal incidence, media swap and the grazing limit proved in exact reals; C20_binary64: in binary64, for all refraction indices and cosines between 2^-90 and 2^90, the computed reflectance is in [0,1] exactly, within 16/2^53 of Fresnel's equations and exactly symmetric under exchange of the media; C20_transmittance_binary64: 1 - r is in [0,1]; C20_any_binary64: for EVERY refraction index and cosine that is not negative (zero, infinite, NaN included) both are in [0,1] or NaN. AT grazing incidence (cos = 0) the property is REFUTED in binary64: the code returns NaN (C20_grazing_refuted)."
  },
  {
   "property": "C21",
   "status": "proved",
   "theorems": [
    "C21_refraction"
   ],
   "note": "Exact reals."
  },
  {
   "property": "C22",
   "status": "proved",
   "theorems": [
    "C22_paths",
    "C22_energy"
   ],
   "note": "Exact reals; exactly at the critical angle the code divides 0 by 0, so the energy statement excludes that angle."
  },
  {
   "property": "C23",
   "status": "proved",
   "theorems": [
    "C23_energy",
    "C23_slab_series",
    "C23_paths"
   ],
   "note": "Exact reals: per-channel energy bound, closed form = sum of the internal-reflection series, straight transmission."
  },
  {
   "property": "C24",
   "status": "partial",
   "theorems": [
    "C24_mirror_tint_refuted",
    "C24_bsdf_tinted"
   ],
   "note": "REFUTED: the reflected path of a mirror always carries full white (C24_mirror_tint_refuted); the BSDF value is tinted."
  },
  {
   "property": "C25",
   "status": "partial",
   "theorems": [
    "C25_value",
    "C25_diffuse",
    "C25_reciprocal",
    "C25_nonnegative",
    "C25_behind_partial",
    "C25_lit_from_behind_refuted"
   ],
   "note": "Reciprocity, non-negativity, published formula and diffuse part proved (exact reals). 'Zero from behind' is REFUTED for light arriving from behind and for matt surfaces; proved for glossy surfaces seen from behind."
  },
  {
   "property": "C26",
   "status": "partial",
   "theorems": [
    "C26_negative_weight_refuted",
    "C26_diffuse_branch",
    "C26_below_surface_refuted",
    "C26_no_sideways_scatter",
    "C26_half_vector",
    "C26_half_vector_tail",
    "C26_smooth_refuted"
   ],
   "note": "Diffuse branch proved for all draws. REFUTED for the specular branch: at normal incidence the ray is sent into the surface for every draw with xi2 in (1/e,1); C26_negative_weight_refuted: and the weight of such a sample is negative. C26_smooth_refuted: when the interpolated (smooth) normal is not perpendicular to the tangents of the hit, some matte draw has a negative density too."
  },
  {
   "property": "C27",
   "status": "partial",
   "theorems": [
    "C27_rays",
    "C27_injective",
    "C27_round_trip_partial",
    "C27_round_trip_wide_refuted",
    "C27_attribution_binary64",
    "C27_round_trip_binary64",
    "C27_square_pixels",
    "C27_film_points",
    "C27_foreign_rays",
    "C27_backward_refuted"
   ],
   "note": "Rays and injectivity proved for all films. The round trip is REFUTED in general: it holds iff the film is square or one pixel taller than wide (C27_round_trip_partial is an iff, for every pixel); for wide films the row comes back shifted (C27_round_trip_wide_refuted). Exact reals, fields of view up to 179 degrees. C27_foreign_rays: the inverse map panics exactly for rays that start elsewhere. C27_backward_refuted: a ray leaving the camera backwards is given the pixel of the opposite ray, with full weight. C27_round_trip_binary64: with every operation rounded, on square films up to 65536 pixels wide, the pixel of the camera's own ray is recovered exactly (C27_attribution_binary64: so is that of every ray within 2^-42 of the line of sight)."
  },
  {
   "property": "C28",
   "status": "proved",
   "theorems": [
    "C28_sample_in_film",
    "C28_sample_onto",
    "C28_index_bijection"
   ],
   "note": "Any arithmetic; the render part is C49."
  },
  {
   "property": "C29",
   "status": "partial",
   "theorems": [
    "C29_binary64",
    "C29_infinite_refuted",
    "C29_nan_channel",
    "C29_round_trip_partial",
    "C29_overflow_refuted",
    "C29_bytes_round_trip_partial",
    "C29_encoder_normalises"
   ],
   "note": "Exact reals up to 2^127, and binary64 with all roundings (C29_binary64, for any log2 and exp2 accurate to 2^-40, channels up to 2^126). REFUTED above: colours from 2^127 to 2^128 come back black (C29_overflow_refuted, the exponent byte wraps; a debug assertion stops debug builds), and pixels with an infinite channel or a NaN red channel come back black whatever the other channels (C29_infinite_refuted, C30_nonfinite); a NaN green or blue channel becomes 0 and leaves the others alone (C29_nan_channel). Bytes round trip for normalised pixels with exponent >= 66 (smaller ones are below the 1e-19 threshold)."
  },
  {
   "property": "C30",
   "status": "proved",
   "theorems": [
    "C30_binary64",
    "C30_nonfinite",
    "C30_save_load",
    "C30_precision_partial"
   ],
   "note": "Any arithmetic (C30_save_load: same size, pixels in order, each through the RGBE encoding); precision corollaries in exact reals (C30_precision_partial) and in binary64 with all roundings (C30_binary64). File-system calls not modelled."
  },
  {
   "property": "C31",
   "status": "partial",
   "theorems": [
    "C31_accepted_files",
    "C31_terminates",
    "C31_unknown_format_partial",
    "C31_no_size_partial",
    "C31_truncated_refuted",
    "C31_panic_refuted",
    "C31_numbers"
   ],
   "note": "Exact characterisation of the accepted files (C31_accepted_files, any arithmetic), unknown formats and missing size lines rejected. REFUTED: every truncation of the pixel data is accepted (C31_truncated_refuted), and non-UTF-8 bytes in the size line panic. C31_numbers: the numbers of the size line are exactly an optional plus sign and decimal digits of a value below 2^64."
  },
  {
   "property": "C32",
   "status": "partial",
   "theorems": [
    "C32_index",
    "C32_write",
    "C32_row_out_of_image",
    "C32_column_out_of_image_refuted",
    "C32_from_pixels",
    "C32_diff_sizes",
    "C32_diff_symmetric",
    "C32_diff_zero",
    "C32_diff_triangle",
    "C32_new"
   ],
   "note": "All parts proved except 'an out-of-image x is rejected', which is REFUTED: column width+x of row y is pixel (x, y+1) (C32_column_out_of_image_refuted). C32_new: a new image is black."
  },
  {
   "property": "C33",
   "status": "partial",
   "theorems": [
    "C33_polyline",
    "C33_saturates_low",
    "C33_saturates_high",
    "C33_shipped_scales",
    "C33_total_real_partial",
    "C33_never_panics_refuted",
    "C33_nan_panics",
    "C33_singleton_panics",
    "C33_variants_agree",
    "C33_binary64_partial",
    "C33_shipped_binary64_partial"
   ],
   "note": "Polyline specification, saturation, [0,1] bounds and totality proved in exact arithmetic. 'Never panics' is REFUTED in binary64 (C33_never_panics_refuted: bounds 65.1/485.1, the double just below max reaches unreachable!() with all five scales; NaN always panics). C33_binary64_partial, C33_shipped_binary64_partial: away from the last 32 ulps below the maximum it never panics in binary64 and the colour is the exact one up to 2^-28."
  },
  {
   "property": "C34",
   "status": "proved",
   "theorems": [
    "C34_algebra",
    "C34_componentwise",
    "C34_scalars",
    "C34_radiance_value",
    "C34_radiance_linear",
    "C34_radiance_monotone",
    "C34_normalize",
    "C34_max"
   ],
   "note": "Exact-real semantics of the component-wise operators."
  },
  {
   "property": "C35",
   "status": "partial",
   "theorems": [
    "C35_is_black_refuted",
    "C35_is_black_nan_refuted",
    "C35_is_black_condition",
    "C35_is_black_partial"
   ],
   "note": "REFUTED as stated (negative, tiny and NaN components count as black); exact test condition and exactness on spectra whose channels are 0 or >= 1e-24 proved."
  },
  {
   "property": "C36",
   "status": "proved",
   "theorems": [
    "C36_to_radiance",
    "C36_to_luminance",
    "C36_average"
   ],
   "note": "Means in exact reals; conversions in any arithmetic. The external crate `matrix` (get/set/product) is modelled from its documentation."
  },
  {
   "property": "C37",
   "status": "proved",
   "theorems": [
    "C37_colour_matrix",
    "C37_matrix",
    "C37_precision"
   ],
   "note": "Generic over printing/parsing functions meeting the contract `printed`; C37_precision instantiates them with a concrete five-decimal printer and decimal parser (proved to meet it). Sizes below 2^64."
  },
  {
   "property": "C38",
   "status": "partial",
   "theorems": [
    "C38_terminates",
    "C38_accepted",
    "C38_accepted_plain",
    "C38_bad_header",
    "C38_bad_row",
    "C38_bad_row_plain",
    "C38_missing_rows_refuted",
    "C38_extra_rows_refuted",
    "C38_saved_form",
    "C38_line_ends"
   ],
   "note": "Exact characterisation of the accepted files; bad headers and bad rows are errors. Refuted parts: missing rows are silently padded with black, extra rows panic. C38_line_ends: files with DOS line ends read the same."
  },
  {
   "property": "C39",
   "status": "partial",
   "theorems": [
    "C39_words_exist_and_are_unique",
    "C39_tokens_are_words",
    "C39_always_answers",
    "C39_bad_text_panics",
    "C39_line_partial",
    "C39_line_refuted",
    "C39_utf8"
   ],
   "note": "Tokens are exactly the maximal runs of non-white bytes, the reader stays inside the text and answers on every input (a word that is not UTF-8 panics). The line named by an error message is counted from zero, so the clause about line numbers is refuted (C39_line_refuted); C39_line_partial says what it is. C39_utf8: the words accepted are exactly the UTF-8 encodings of sequences of Unicode scalar values."
  },
  {
   "property": "C40",
   "status": "proved",
   "theorems": [
    "C40_reads_the_description",
    "C40_layout",
    "C40_materials_in_order",
    "C40_one_reading"
   ],
   "note": "A text is accepted exactly when its words are the words of supported items, and the scene is what playing those items gives (first definition of a name wins: see C41); a text describes at most one list of items; the layout does not matter; the materials are in the order of the text. Arguments: the number parser (which must reject the empty word), DistantSource3D::new and the polygon triangulation."
  },
  {
   "property": "C41",
   "status": "partial",
   "theorems": [
    "C41_refuted",
    "C41_partial",
    "C41_unknown_modifier"
   ],
   "note": "Refuted in general: with two definitions of a name the object gets the first one (C41_refuted). Proved when names are defined once (C41_partial) and for unknown modifiers, which panic (C41_unknown_modifier)."
  },
  {
   "property": "C42",
   "status": "partial",
   "theorems": [
    "C42_partial",
    "C42_fan_size",
    "C42_refuted",
    "C42_malformed"
   ],
   "note": "Faces of three and four corners become their fan (C42_partial, up to triangles geometry3d refuses); faces with more corners are silently dropped (C42_refuted); references to missing vertices and faces with fewer than three corners panic. The obj crate's parser and Triangle3D::new are arguments."
  },
  {
   "property": "C43",
   "status": "partial",
   "theorems": [
    "C43_scene_partial",
    "C43_reuse_refuted",
    "C43_visible_refuted",
    "C43_opaque",
    "C43_gas",
    "C43_glass_partial",
    "C43_glass_refuted",
    "C43_transmissivity"
   ],
   "note": "Refuted: materials are never reused, every surface gets two new ones (C43_reuse_refuted); the visible spectrum is unimplemented (C43_visible_refuted); substances with a transmittance below about 1.117e-4 become opaque (C43_glass_refuted). Proved: the exact scene built (C43_scene_partial), glass above 1.12e-4 (C43_glass_partial), and the glass of a substance with transmittance t in [0.01,0.9] transmits t at normal incidence up to 1e-5 (C43_transmissivity)."
  },
  {
   "property": "C44",
   "status": "partial",
   "theorems": [
    "C44_specular_returns_partial",
    "C44_nesting_partial",
    "C44_dark_returns_partial",
    "C44_mirrors_refuted"
   ],
   "note": "For every scene, any budget of max_depth+2 nested calls is as good as any other when specular bounces are counted (C44_nesting_partial); dark scenes return for every ray and all draws (C44_dark_returns_partial); scenes of mirrors, glass, dielectrics and lamps under any sky return for every ray when bounces are counted (C44_specular_returns_partial). False as stated: two facing mirrors trap a ray forever at any depth limit when specular bounces are not counted (C44_mirrors_refuted). Scenes lit by distant sources return (C76). Missing: a return theorem for scenes with nearby lamps and a sky (false in general, see C47/C48)."
  },
  {
   "property": "C45",
   "status": "partial",
   "theorems": [
    "C45_in_bounds_partial",
    "C45_overflow_refuted"
   ],
   "note": "No panic for max_depth <= 14 in every scene, ray and draws (C45_in_bounds_partial); false from max_depth 15 on, with a concrete scene and run (C45_overflow_refuted). Exact reals: for the NaN panic see C54."
  },
  {
   "property": "C46",
   "status": "partial",
   "theorems": [
    "C46_counts",
    "C46_not_compensated_refuted"
   ],
   "note": "The counts are proved (C46_counts); the weight compensation half is false: the survivor keeps its weight and the killed ray gets the limit (C46_not_compensated_refuted)."
  },
  {
   "property": "C47",
   "status": "partial",
   "theorems": [
    "C47_sky_ignored_refuted",
    "C47_never_returns_refuted"
   ],
   "note": "The property is false and its negation is proved: the sky's radiance never influences a non-specular scene's hits (C47_sky_ignored_refuted) and one diffuse triangle under any sky never returns (C47_never_returns_refuted)."
  },
  {
   "property": "C48",
   "status": "partial",
   "theorems": [
    "C48_answer",
    "C48_dark_side_refuted",
    "C48_samples",
    "C48_returns_partial",
    "C48_missed_forever_refuted",
    "C48_ceiling_light_refuted"
   ],
   "note": "The answer for one shadow ray (C48_answer) and the number and value of the samples (C48_samples) are proved; termination when all samples meet their light (C48_returns_partial). False parts proved as refutations: dark sides emit (C48_dark_side_refuted), a light that is never met is sampled forever (C48_missed_forever_refuted), ceilings give no light above non-negative heights (C48_ceiling_light_refuted)."
  },
  {
   "property": "C49",
   "status": "proved",
   "theorems": [
    "C49_pixels",
    "C49_positions_real",
    "C49_positions_binary64",
    "C49_positions_binary32_refuted",
    "C49_schedule",
    "C49_returns"
   ],
   "note": "For every interleaving of the chunk workers, every arithmetic, generator and geometry: each finished image has every pixel equal to the trace of its own camera ray with fresh buffers (C49_pixels), and two schedules with the same per-chunk generators give the same image (C49_schedule); the render returns when every trace returns (C49_returns). Pixel positions: exact reals, and binary64 for width*height <= 2^53 (via Flocq). In the `float` (binary32) build the position is wrong for large images (C49_positions_binary32_refuted)."
  },
  {
   "property": "C50",
   "status": "partial",
   "theorems": [
    "C50_shape",
    "C50_rows",
    "C50_open",
    "C50_nonnegative_partial",
    "C50_returns_partial",
    "C50_negative_refuted"
   ],
   "note": "Shape, row independence and the open-sky total are proved in full generality (any arithmetic / all scenes and draws). Non-negativity and return are proved for scenes of flat triangles with physical materials whose glossy lobe is off (_partial); with a glossy floor non-negativity is FALSE (C50_negative_refuted: every channel of a coefficient is negative). Missing: spheres and interpolated normals, glossy lobes."
  },
  {
   "property": "C51",
   "status": "partial",
   "theorems": [
    "C51_compounded",
    "C51_refuted"
   ],
   "note": "The property is FALSE of the code: C51_compounded computes the exact row totals for one matte surface under the sky for every number of samples n (pi times rho + rho^2 + ... + rho^n instead of pi times rho), and C51_refuted gives a case (9/10 pi against 171/100 pi)."
  },
  {
   "property": "C52",
   "status": "proved",
   "theorems": [
    "C52_triangle",
    "C52_disc",
    "C52_cosine_hemisphere",
    "C52_hemisphere",
    "C52_sphere",
    "C52_disc_in_space"
   ],
   "note": "Exact arithmetic (the f32 draws and casts are the subject of C103): every sampler's output is on its domain for all draws in [0,1) (all reals where the code clamps), including directions towards triangles, spheres and distant sources. get_perpendicular of geometry3d enters through its contract (unit and orthogonal)."
  },
  {
   "property": "C53",
   "status": "partial",
   "theorems": [
    "C53_contents",
    "C53_radiance",
    "C53_zenith_partial",
    "C53_zenith_refuted",
    "C53_sun"
   ],
   "note": "C53_sun: the whole way from irradiances to the sun in the scene. Contents and never-panics proved for any arithmetic and any solar crate; luminance proved in exact reals. The 3-degree limit is REFUTED (C53_zenith_refuted): a sun within 3 degrees of the zenith is treated as standing more than 86 degrees away, because the code takes acos of 3 degrees. Elsewhere the zenith angle is right (C53_zenith_partial)."
  },
  {
   "property": "C54",
   "status": "partial",
   "theorems": [
    "C54_nan_refuted",
    "C54_arms",
    "C54_no_panic_partial",
    "C54_cylinder_light_refuted"
   ],
   "note": "The dispatch arms (C54_arms) and freedom from any panic for scenes of triangles, spheres and distant sources (C54_no_panic_partial); false for cylinder lights (C54_cylinder_light_refuted), and in binary64 false for a glossy surface seen face on, where the sampled half vector is zero and the NaN check panics (C54_nan_refuted): the no-panic theorems over exact reals cannot see that, C80 is their binary64 counterpart for surfaces that are never glossy."
  },
  {
   "property": "C55",
   "status": "partial",
   "theorems": [
    "C55_glass_refuted",
    "C55_dielectric_partial",
    "C55_glass_reflected",
    "C55_opaque_glass_refuted"
   ],
   "note": "REFUTED for glass (its BSDF is black along its own transmitted path) and for coloured dielectrics (colour applied once more than in the path); exact relation proved. REFUTED also for opaque glass: its BSDF is 1/cos in every direction that is neither straight on nor the mirror one (C55_opaque_glass_refuted)."
  },
  {
   "property": "C56",
   "status": "partial",
   "theorems": [
    "C56_data",
    "C56_bytes",
    "C56_automatic_range",
    "C56_brightest_is_last",
    "C56_black_image",
    "C56_size_refuted",
    "C56_binary64_partial",
    "C56_shipped_binary64_partial",
    "C56_bytes_binary64"
   ],
   "note": "Proved for images narrower and lower than 65536; C56_bytes_binary64: in binary64 the bytes are exactly the nearest integers to 256 times the colour, at most 255; C56_binary64_partial and C56_shipped_binary64_partial: with an explicit range the whole false-colour image in binary64 is within one byte of the exactly interpolated colours, for luminances outside the last 32 ulps below the maximum (where the program fails, C33); REFUTED beyond (sizes are cast to u16). JPEG encoding not modelled."
  },
  {
   "property": "C57",
   "status": "partial",
   "theorems": [
    "C57_log_range_partial",
    "C57_log_range_refuted"
   ],
   "note": "REFUTED: if no luminance exceeds 1, the range ends at 10^0.002 whatever the image (C57_log_range_refuted); proved when the brightest luminance exceeds 10^0.001."
  },
  {
   "property": "C58",
   "status": "proved",
   "theorems": [
    "C58_triangle",
    "C58_disc",
    "C58_cosine_hemisphere",
    "C58_hemisphere",
    "C58_sphere"
   ],
   "note": "Exact arithmetic; triangle and sphere laws for draws outside the 1e-8/1e-7 margins where the code clamps."
  },
  {
   "property": "C59",
   "status": "partial",
   "theorems": [
    "C59_triangle_partial",
    "C59_triangle_refuted",
    "C59_source_partial",
    "C59_sun",
    "C59_sphere_refuted",
    "C59_sphere_claim"
   ],
   "note": "REFUTED for spherical lights (C59_sphere_refuted: the surface is sampled uniformly but the density of a uniform cone is reported; 64% of the draws fall where less than half of the probability is claimed). For distant sources the law is proved to differ from the claim by a factor between 2c^2/(1+c) and 1, which is within 1e-4 for the sun. Triangles: C59_triangle_partial gives the claimed density exactly (zero, or the right one times |cos|/(origin.normal)); C59_triangle_refuted: a lamp one metre above an observer at height z is claimed to have 1/z of its density. C59_sphere_claim: what is reported for a sphere is the uniform density over its cone."
  },
  {
   "property": "C60",
   "status": "proved",
   "theorems": [
    "C60_accepts",
    "C60_round_trip",
    "C60_one_space"
   ],
   "note": "Any number parser and arithmetic; Rust's trim and split(' ') modelled over UTF-8 bytes (all White_Space code points)."
  },
  {
   "property": "C61",
   "status": "partial",
   "theorems": [
    "C61_lines",
    "C61_sensors_partial",
    "C61_sensors_refuted",
    "C61_sensors_of_lines",
    "C61_directions"
   ],
   "note": "Proved for every byte stream that is UTF-8; REFUTED for a line that is not UTF-8 (C61_sensors_refuted: the list silently ends there, and the program goes on with the sensors before it). C61_sensors_of_lines shows that these are all the cases."
  },
  {
   "property": "C62",
   "status": "partial",
   "theorems": [
    "C62_spl_refuted",
    "C62_file",
    "C62_refuses",
    "C62_truncated_refuted",
    "C62_open_sky"
   ],
   "note": "C62_file, C62_refuses, C62_open_sky proved. REFUTED parts: a .spl scene always panics (C62_spl_refuted) and a sensor list cut by a non-UTF-8 line writes a shorter matrix without an error (C62_truncated_refuted)."
  },
  {
   "property": "C63",
   "status": "proved",
   "theorems": [
    "C63_file",
    "C63_refuses",
    "C63_dark_returns"
   ],
   "note": "Any arithmetic; the schedule is the sequential one, C49 shows that every schedule of the chunks gives the same picture."
  },
  {
   "property": "C64",
   "status": "partial",
   "theorems": [
    "C64_map",
    "C64_missing_file",
    "C64_missing_second",
    "C64_difference",
    "C64_refuses",
    "C64_self",
    "C64_symmetric",
    "C64_truncated_refuted"
   ],
   "note": "REFUTED for files with fewer pixels than they announce, which the reader accepts (C31): C64_truncated_refuted (panic). Everything else proved, including the false-colour output (C64_map). C64_missing_file, C64_missing_second: files that cannot be opened are errors."
  },
  {
   "property": "C65",
   "status": "proved",
   "theorems": [
    "C65_picture",
    "C65_scales",
    "C65_size",
    "C65_wide_refuted",
    "C65_missing_file",
    "C65_data_partial",
    "C65_refuses"
   ],
   "note": "C65_picture covers every combination of options, in exact reals, down to the bytes handed to the JPEG encoder (not modelled); C65_scales pins the five scales to their published ends. f64 log10 of a non-positive luminance is not modelled. C65_missing_file: a file that cannot be opened is an error. C65_size (any arithmetic): a readable image yields a panic or a picture whose size is the image's modulo 65536, hence C65_wide_refuted beyond the quantifier."
  },
  {
   "property": "C66",
   "status": "proved",
   "theorems": [
    "C66_radiance"
   ],
   "note": "For every arithmetic (reals and floats), scene and sequence of draws. The specification SpecTracer.v names the reflectance, the sampled direction and the first surface met, which are the subject of C01, C18-C26, C52 and C58."
  },
  {
   "property": "C67",
   "status": "partial",
   "theorems": [
    "C67_own_lighting",
    "C67_ray_partial",
    "C67_image_partial",
    "C67_one_sided_refuted"
   ],
   "note": "Proved for scenes whose lights shine on both sides, in exact arithmetic. REFUTED otherwise: C67_one_sided_refuted (the dark side of a light keeps emitting its own colour, see C48)."
  },
  {
   "property": "C68",
   "status": "proved",
   "theorems": [
    "C68_dark_ray",
    "C68_dark_image"
   ],
   "note": "Exact arithmetic (in floating point 0 x infinity would be NaN, e.g. for densities that round to 0)."
  },
  {
   "property": "C69",
   "status": "proved",
   "theorems": [
    "C69_ray",
    "C69_matrix"
   ],
   "note": "C69_ray: tracing one ray deposits exactly what `spreads` (SpecDaylight.v) lists; C69_matrix: every entry of the returned matrix is the sum over the primary rays. Whether a call returns is C50/C44."
  },
  {
   "property": "C70",
   "status": "proved",
   "theorems": [
    "C70_draws"
   ],
   "note": "C70_draws refines C66_radiance with the state of the generator before and after every step (SpecDraws.v). f32 and f64 draws are one kind of number in the model."
  },
  {
   "property": "C71",
   "status": "partial",
   "theorems": [
    "C71_rays_binary64_partial",
    "C71_pictures_binary64_partial",
    "C71_rays_partial",
    "C71_pictures_partial"
   ],
   "note": "Proved for rays and pictures in scenes of flat triangles and distant sources with matte surfaces (specularity 0), mirrors, glass, dielectrics and lamps, in exact reals. In binary64 (C71_rays_binary64_partial, C71_pictures_binary64_partial), for every scene, ray, generator and setting, glossy materials, infinite and NaN values included: no negative channel, provided that no ambient sample is asked for or that the sampled densities are not negative, which is the only gap. FALSE for glossy lobes: their density can be negative at the sampled direction (C26_negative_weight_refuted, C50_negative_refuted). Curved (interpolated) normals are not covered: there the density of a matte draw can be negative (C26_smooth_refuted)."
  },
  {
   "property": "C72",
   "status": "partial",
   "theorems": [
    "C72_rays_partial",
    "C72_pictures_partial",
    "C72_dielectric_refuted"
   ],
   "note": "Proved for (matte reflectance at most 1, mirrors, glass, no lamps, any sky at most L) and for (mirrors, glass and lamps at most L). REFUTED for a dielectric sheet under a uniform sky: it looks up to n*n times as bright as the sky (C72_dielectric_refuted). Matte surfaces lit by lamps are sampled once per lamp, so the one-sample estimate has no such bound."
  },
  {
   "property": "C73",
   "status": "proved",
   "theorems": [
    "C73_sunlight"
   ],
   "note": "Proved for every scene of flat triangles whose only light is one distant source that shines on both sides, with ambient sampling disabled. The two hypotheses sees_sources and good_perpendiculars are contracts of the geometry3d crate (not in /repo) and are met by the example instance."
  },
  {
   "property": "C74",
   "status": "proved",
   "theorems": [
    "C74_mirror"
   ],
   "note": "Every scene of flat triangles and distant sources; the mirror's tint does not enter (C24_mirror_tint_refuted)."
  },
  {
   "property": "C75",
   "status": "proved",
   "theorems": [
    "C75_pane"
   ],
   "note": "Scene with one pane; colour not blacker than 1e-15; pane_optics is the slab series of C23, stated with infinite sums. Proved for hits from either side."
  },
  {
   "property": "C76",
   "status": "proved",
   "theorems": [
    "C76_rays",
    "C76_pictures"
   ],
   "note": "C76_rays and C76_pictures, real arithmetic; a generator that stays in [0,1); geometry3d's perpendiculars and its source intersection are taken to do what their documentation says (perpendicular_ok, good_perpendiculars, sees_sources)."
  },
  {
   "property": "C77",
   "status": "proved",
   "theorems": [
    "C77_triangle",
    "C77_sphere",
    "C77_rest"
   ],
   "note": "Exact reals. C77_triangle, C77_sphere, C77_rest."
  },
  {
   "property": "C78",
   "status": "proved",
   "theorems": [
    "C78_matte"
   ],
   "note": "Exact reals; the mean is a Riemann integral over both draws (Coquelicot; no axioms beyond the standard library's reals and classical logic). Draws in the open unit square (a set of full measure)."
  },
  {
   "property": "C79",
   "status": "proved",
   "theorems": [
    "C79_cosine",
    "C79_hemisphere",
    "C79_disc"
   ],
   "note": "Exact reals. C79_cosine, C79_hemisphere, C79_disc. The triangle and sphere samplers clamp their draws; their laws are C58."
  },
  {
   "property": "C80",
   "status": "proved",
   "theorems": [
    "C80_no_panic",
    "C80_dark_returns",
    "C80_binary64"
   ],
   "note": "C80_no_panic and C80_dark_returns hold for every arithmetic with a strict order (binary64 is one, C03_binary64_order); C80_binary64 discharges the build with C02_binary64, whose rounding analysis uses Flocq. The contract of the library sort is a hypothesis with a satisfying instance."
  },
  {
   "property": "C81",
   "status": "proved",
   "theorems": [
    "C81_order"
   ],
   "note": "Exact reals, library routines through their contracts (externals_ok); off_rims excludes rays within 2^-52 (barycentric) outside a rim, where the box test may or may not let the triangle be tried."
  },
  {
   "property": "C82",
   "status": "proved",
   "theorems": [
    "C82_monotone"
   ],
   "note": "Exact reals, same provisos as C81."
  },
  {
   "property": "C83",
   "status": "proved",
   "theorems": [
    "C83_motion",
    "C83_triangle",
    "C83_camera"
   ],
   "note": "Exact reals. Scenes of triangles (a sphere's mesh is not turned with the sphere). The sampling densities are not motion invariant: that is C15."
  },
  {
   "property": "C84",
   "status": "proved",
   "theorems": [
    "C84_expected",
    "C84_open",
    "C84_patch"
   ],
   "note": "Exact reals; the mean is an iterated Riemann integral over the pairs of draws. C84_expected (absorbing surfaces), C84_open (nothing in front of the sensor, any materials; there the calculation is also shown to answer), C84_patch (box shaped bins). In C84_expected the estimate is stated for calculations that return."
  },
  {
   "property": "C85",
   "status": "proved",
   "theorems": [
    "C85_append"
   ],
   "note": "Any arithmetic. Example C85_hyp reads a ball and a lamp description together."
  },
  {
   "property": "C86",
   "status": "proved",
   "theorems": [
    "C86_rebuild"
   ],
   "note": "Exact reals, library routines through their contracts; up to 2^30 triangles that are not piled up (C06). Example C86_hyp rebuilds the scene of C10_blind_spot_refuted."
  },
  {
   "property": "C87",
   "status": "proved",
   "theorems": [
    "C87_decides",
    "C87_decides_full",
    "C87_threshold",
    "C87_rim"
   ],
   "note": "Exact reals. C87_decides (shadow test), C87_decides_full, C87_threshold (what the determinant threshold means), C87_rim."
  },
  {
   "property": "C88",
   "status": "proved",
   "theorems": [
    "C88_rate",
    "C88_shipped",
    "C88_brightness",
    "C88_radiance_scale_refuted"
   ],
   "note": "Exact reals. C88_rate, C88_shipped, C88_brightness; C88_radiance_scale_refuted is the clause about Radiance's scale."
  },
  {
   "property": "C89",
   "status": "proved",
   "theorems": [
    "C89_pixel",
    "C89_resave",
    "C89_fading_refuted"
   ],
   "note": "Exact reals (rounding of log2/exp2 not modelled). C89_fading_refuted shows that the gap next to 1e-19 is real."
  },
  {
   "property": "C90",
   "status": "proved",
   "theorems": [
    "C90_vertex_order",
    "C90_rim_only"
   ],
   "note": "Exact reals. C90_vertex_order, C90_rim_only; Example C90_hyp."
  },
  {
   "property": "C91",
   "status": "proved",
   "theorems": [
    "C91_reversible"
   ],
   "note": "Exact reals, library routines through their contracts; the centimetre is not sharp (the code leaves 1e-5 around the target). Example C91_hyp."
  },
  {
   "property": "C92",
   "status": "proved",
   "theorems": [
    "C92_step_back",
    "C92_route_back",
    "C92_same_medium"
   ],
   "note": "Exact reals; at a dielectric the ray must travel in air or in the dielectric (|1-ri| >= 1e-7) and must not leave exactly grazing. C92_step_back, C92_route_back (any number of events), C92_same_medium; Examples C92_hyp, C92_hyp_return. Note that the weight of a refraction is (n2/n1)^2 (1-F), see C72_dielectric_refuted."
  },
  {
   "property": "C93",
   "status": "proved",
   "theorems": [
    "C93_nothing_above",
    "C93_convex_in_the_sun"
   ],
   "note": "Exact reals, flat triangles. C93_nothing_above: both queries. C93_convex_in_the_sun: the traced light."
  },
  {
   "property": "C94",
   "status": "partial",
   "theorems": [
    "C94_own_shadow",
    "C94_dark",
    "C94_leak_refuted"
   ],
   "note": "Proved when the shadow ray comes back through the surface obliquely (C94_own_shadow, C94_dark). REFUTED near rims (half a millimetre from an edge the light of a source 45 degrees below arrives) and, in exact arithmetic, for a light exactly opposite (C94_leak_refuted)."
  },
  {
   "property": "C95",
   "status": "proved",
   "theorems": [
    "C95_hit_sound",
    "C95_hit_complete",
    "C95_hit_numbers",
    "C95_hit_normal"
   ],
   "note": "Binary64 arithmetic (Flocq), models within 1 to 1024 units, directions unit to one part in a thousand. C95_hit_numbers: everything stored with a hit is finite."
  },
  {
   "property": "C96",
   "status": "partial",
   "theorems": [
    "C96_exact",
    "C96_seam_refuted"
   ],
   "note": "Proved in exact arithmetic (C96_exact). REFUTED in binary64 (C96_seam_refuted): a rectangle cut along its diagonal has a ray, hitting it well inside its outline and far from grazing, that both triangles miss, and both scene queries look through the surface."
  },
  {
   "property": "C97",
   "status": "proved",
   "theorems": [
    "C97_unit",
    "C97_extreme_refuted"
   ],
   "note": "The range is part of the statement; outside it C97_extreme_refuted gives an infinite and a zero result."
  },
  {
   "property": "C98",
   "status": "proved",
   "theorems": [
    "C98_closest",
    "C98_shadow",
    "C98_slab_test",
    "C98_pixel"
   ],
   "note": "Proved of the binary64 model (NumSF) with Flocq's rounding theorems; the contract box_test64 on the external BBox3D::intersect is an explicit hypothesis and C98_slab_test shows that the usual slab test meets it for rays not parallel to an axis plane. C98_pixel: the closest hit of any pixel's camera ray is on the exact line of sight through the pixel's centre, within the stated error. Blur, 1/3000 (MIN_T on the squared distance) and the shadow tolerances are explicit in the statements."
  },
  {
   "property": "C99",
   "status": "proved",
   "theorems": [
    "C99_camera",
    "C99_distinct",
    "C99_mirror",
    "C99_bounces"
   ],
   "note": "Proved of the binary64 model with Flocq's rounding theorems. The film distance is the one the camera computed from its field of view (tan is the platform's); lengths are relative to it."
  },
  {
   "property": "C100",
   "status": "proved",
   "theorems": [
    "C100_refraction",
    "C100_route"
   ],
   "note": "Proved of the binary64 model with Flocq's rounding theorems. The cosine behind the surface is compared through its square because it is ill-conditioned at the critical angle."
  },
  {
   "property": "C101",
   "status": "proved",
   "theorems": [
    "C101_handles",
    "C101_unused"
   ],
   "note": "Proved for every arithmetic (reals, binary64, binary32), every sphere mesher and every generator: a simulation between the two scenes through the builder, the tracer and the daylight tracer."
  },
  {
   "property": "C102",
   "status": "proved",
   "theorems": [
    "C102_unbuilt",
    "C102_once",
    "C102_buildable"
   ],
   "note": "Panics and the effect of the two functions for every arithmetic; that building always returns in exact arithmetic (C102_buildable, with the library's sorting and selection assumed to permute, as in C02)."
  },
  {
   "property": "C103",
   "status": "partial",
   "theorems": [
    "C103_cosine",
    "C103_sphere",
    "C103_disc",
    "C103_grazing_refuted",
    "C103_matte",
    "C103_hemisphere",
    "C103_triangle"
   ],
   "note": "C103_cosine, C103_sphere, C103_disc: mixed precision (Mixed.v), all draws, any f32 sine/cosine accurate to 2^-24; disc radii between 2^-60 and 512. C103_grazing_refuted: for EVERY correctly rounded f32 sine and cosine (such functions exist: perfect_correct), one concrete pair of draws yields a direction exactly in a horizontal floor; the matte density is 0 and the sample adds NaN to every channel for all surfaces and all lights, so the strict positivity of C52 does not survive rounding. C103_triangle: the triangle sampler (binary64, no f32), within 28 ulp of a point of the triangle. C103_matte: the matte draw in the program's mixed precision, for every frame orthonormal up to rounding and every draw not within 4e-6 of 1: unit direction, positive cosine and positive density, with error bounds. C103_hemisphere: uniform_sample_hemisphere (which the program does not call) for every frame orthonormal up to rounding."
  },
  {
   "property": "C104",
   "status": "proved",
   "theorems": [
    "C104_split",
    "C104_few",
    "C104_one_spot"
   ],
   "note": "C104_split: exact arithmetic, any surface_area / max_extent, provided some cut costs less than 2^1000 (Float::MAX is the start value of the search); C104_few and C104_one_spot: any arithmetic. C104_case: twelve boxes in two groups meet the hypotheses. The cost uses the box around the CENTRES of each side, as the code does (not around the objects, as in the textbook heuristic)."
  },
  {
   "property": "C105",
   "status": "proved",
   "theorems": [
    "C105_view",
    "C105_straight_ahead",
    "C105_fresh_ray",
    "C105_settings",
    "C105_default_tracer_safe"
   ],
   "note": "C105_view, C105_straight_ahead, C105_settings, C105_default_tracer_safe: exact arithmetic; C105_fresh_ray: any arithmetic."
  }
 ]
}