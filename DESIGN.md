# Formal model of SIMPLE-BuildingSimulation/rendering in Rocq (Coq 8.16.1)

The Rust sources (`/repo/src`, `/repo/bin`; `Float = f64` unless the feature `float` is on) are modelled function by function as
Gallina functions.  The code is never executed here: the tie between model and code is the citation (file:lines) on each definition.
Properties: `properties.jsonl`.  Status per property: `MANIFEST.json`.  Wrong programs tried: `seeded/LOG.jsonl`.

## 1. Conventions of the model

* **Arithmetic.** `Num.v` defines a record `Num` of the float operations that the code uses, `Trig` the transcendental ones.  Every
  model function is parametric over them.  Instances:
  * *any* `Num`: theorems about control flow, permutations, indices, buffers, parsing, accounting.  They hold for IEEE floats
    including NaN and infinities, because nothing is assumed about the operations (their statements quantify over `N : Num`);
  * `NumR` (Coq's reals): theorems about geometry, optics and probability, in *exact arithmetic*;
  * `NumSF` (`NumSF.v`, `NumSF32.v`: `Coq.Floats.SpecFloat`, binary64/binary32, plain Gallina): bit-exact witnesses for refutations
    (C20, C33, ...) and theorems about the code's own arithmetic through Flocq (`SFBridge.v`, `FloatOps.v`, `FloatRound.v`,
    `FloatError.v`, `FloatBoxes.v`, `FloatSlab.v`, `BvhFloat.v`): C49_positions_binary64, C02_binary64, C20_binary64, C80, C29_binary64, C30_binary64, C27_round_trip_binary64, C33_binary64_partial, C95-C100, C103 (f32 through `Single.v`).
  * `Num64` (`Num64.v`): Flocq's binary64, the same operations on floats valid by construction (infinities and NaN included);
    `Num64_is_NumSF` proves that its results are those of `NumSF`: C20_any_binary64, C71_rays_binary64_partial,
    C71_pictures_binary64_partial.
  * **Division by zero.** In `NumR` a quotient by zero is 0 and there is no NaN, so an exact-real theorem says nothing about a case
    where the program divides by zero.  The known consequence is C54_nan_refuted: a glossy surface seen face on panics in binary64.
    The no-panic and return theorems over `NumR` (C44, C45, C54, C76) are to be read with that reservation for glossy materials;
    C80 is free of it.
* **Outcomes.** `Ret v`, `Crash` (a panic: `unwrap`, `expect`, index out of bounds, `unimplemented!`, `unreachable!`, underflow) and
  `Stuck` (the budget of a loop or of nested calls is exhausted).  Theorems that say "returns" show `Ret` for every sufficient budget;
  theorems that say "never returns" show `Stuck` for *every* budget.
* **Mutation through `&mut`** becomes returning the new value.  Buffers that are reused between calls (`RayTracerHelper`) are explicit.
* **Randomness.** `Gen` is an arbitrary state machine that yields numbers; theorems quantify over all generators and states, or over all
  draws in [0,1).
* **Concurrency.** `Render.v`: a schedule is an arbitrary interleaving of the steps (trace a pixel / store it) of the chunk workers.
* **Specification files** (`Spec*.v`) contain the vocabulary of the statements, separate from the model and from the proofs.
* **Names.** `Cxx_..._refuted` proves the negation of (part of) the property for the code as it is, with a concrete case;
  `..._partial` proves part of it; other `Cxx_*` theorems prove the property or a clause of it.  Beside each theorem an `Example
  Cxx_..._hyp` (or the theorem's own conclusion) exhibits a concrete non-trivial case that meets its hypotheses.

## 2. Trusted base

* Coq 8.16.1's kernel (including `vm_compute`), the standard library, Flocq's definitions as used in `SFBridge.v`, `FloatOps.v`, `FloatRound.v`, `FloatError.v`, `BvhFloat.v`, `P_Float.v`, `P_FloatImage.v`, `P_FloatHit.v`, `P_Leak.v`, `P_FloatUnit.v`, `FloatBoxes.v`, `FloatSlab.v`, `P_FloatQuery.v`, `P_FloatDir.v`, `P_FloatCamera.v`, `P_FloatRefract.v`, `P_FloatPixel.v`, `P_FloatScale.v`, `Single.v`, `P_Single.v`, `P_Single2.v`, `P_SingleTri.v`, `P_FloatFresnel.v`, `P_FloatInf.v`, `P_FloatFalse.v`, `P_FloatSight.v`, `Num64.v`, `P_FloatLight.v`, `P_SingleMatte.v`
  (they add no axiom).  No axiom of our own, no `Admitted`, no disabled check; section variables become premises.
* `Print Assumptions` (every theorem is followed by one; the code in the table of section 4 says what it lists):
  * **none** - "Closed under the global context";
  * **R** - `ClassicalDedekindReals.sig_forall_dec`, `ClassicalDedekindReals.sig_not_dec`,
    `FunctionalExtensionality.functional_extensionality_dep` (Coq's construction of the reals); **R-** - the same without `sig_not_dec`;
  * **R+C** - the same and `Classical_Prop.classic` (used by the standard library's trigonometry, `Rpower`, integrals).
* Faithfulness of the model to the Rust text (by reading; each definition cites file and lines).
* Contracts of external code, all of them explicit premises with a proved example of satisfiability, or arguments about which nothing
  is assumed:
  * `Ext` (Bvh.v): `select_nth_unstable_by`/sorting and `BBox3D` of geometry3d; contract `externals_ok` (P_Bvh.v:
    permutation, box union and conservative slab test), satisfied by `ext_example`;
  * `Geo` (Primitives.v): `is_parallel`, `is_same_direction`, `get_perpendicular`, intersection of a ray with an exact primitive, area;
    contracts `perpendicular_good`, `perpendicular_ok`, `perpendicular_to`, `exact_triangles`, each only where named;
  * crate `solar`: a record of functions with no assumption (Perez.v), `ReinhartSky` = (number of bins, direction -> bin) with the
    contract `binned` (the bin is below the number) where needed;
  * crate `matrix`: modelled from its documentation (ColourMatrix.v); crate `obj`: its parsed result is the input;
    `simple_model`: substances, constructions and triangulated polygons are the input;
  * number parsing and printing of std: arguments, with the contract `printed` (C37), instantiated in SpecDecimal.v;
  * std text functions (`split`, `lines`, `trim`, UTF-8 validation, `parse::<usize>`): modelled in Text.v/Tools.v.

## 3. What is modelled, and what is not

| source | model |
|---|---|
| bvh.rs | Bvh.v: build (median/SAH split), flatten (with the `i16` and `u8` casts), intersect, unobstructed_distance with the shared node stack |
| triangle.rs, interaction.rs, ray.rs | Triangle.v, Ray.v, Geometry.v (intersection, area, barycentric, normals, pdf, number of ambient samples) |
| scene.rs | Scene.v, Sphere.v (sphere meshing), Perez.v (`add_perez_sky`) |
| material/*.rs | Material.v (specular, Fresnel, glass, dielectric, Ward, plastic, metal, mirror, light) |
| samplers.rs, primitive_samplers.rs, primitive.rs, rand.rs | Samplers.v, Primitives.v |
| ray_tracer.rs | RayTracer.v (trace_ray, lights, ambient, specular), Render.v (render, all schedules) |
| daylight_coefficients.rs | Daylight.v |
| camera/*.rs | Camera.v |
| colour.rs, colourmap/*.rs | Colour.v, Colourmap.v, ColourTables.v (the five tables, all entries) |
| image.rs | Image.v (RGBE, HDRE files, difference, false colour up to the JPEG encoder) |
| colour_matrix.rs | ColourMatrix.v |
| from_radiance.rs, from_obj.rs, from_simple_model.rs | Radiance.v, Importers.v |
| bin/*.rs | Tools.v (spict, sfluxmtx, scompare, sfalsecolor) |

Not modelled: the rounding of `f32` casts inside the samplers except in Mixed.v (C103), the single rounding of `mul_add`, rounding of
log2/exp2/powi (expressed through ln and power, exact in `NumR`), debug assertions, `eprintln!`/progress messages and the mutex
counters behind them, texts of error messages (except the line number, C39), the file system (only as a function from names to contents), clap's
splitting of the command line, the JPEG encoder, the numerical kernels of geometry3d/solar (arguments), wall-clock time.  Not compiled by
`lib.rs` and hence not modelled: `lights.rs`, `backward_metropolis/`; `bin/stimestep.rs` is empty.  Small glue left out:
`Transform` methods of ray.rs/interaction.rs, `Primitive::world_bounds`, the file-opening wrapper of `add_from_obj`.

## 4. Properties, theorems and method

Method by family: C01-C06 induction over the construction and a stack invariant for the traversals, with boxes and order contracts;
C07-C10 invariants over histories; C11-C17 algebra over the reals, mesh combinatorics by induction on the refinement; C18-C26, C55 optics
over the reals; C27-C28 camera; C29-C32, C56-C57 bytes and powers of two; C33 polyline specification, tables by `vm_compute`;
C36-C38 parser/printer round trips; C39-C43 readers: acceptance characterised by inversion of the reader; C44-C48, C54 budgets,
frame rules for the shared buffers, divergence proofs; C49 simulation of every schedule by per-chunk runs; C50, C51, C69 accounting of the
daylight coefficients; C52, C58, C59 laws of the samplers; C53 sky; C60-C65 the programs; C66-C68, C70 the tracer against a relational
specification of the light along a ray, its linearity in the lighting and its use of random numbers; C71-C76 what the
tracer returns in physical terms (sign, energy, direct sunlight, mirrors, panes) and that sunlit pictures are always finished.

Totals: 63 proved, 42 partial; 387 theorems.

### C01 Building the accelerator loses, duplicates and mixes nothing - proved

Any arithmetic (hence binary64); needs only that the standard library's sort/select return permutations.

* `C01_build_permutes` (P_Bvh.v; axioms: none)

### C02 The accelerator build terminates and its tree is well formed - proved

Exact reals; contracts of external sorting/box routines as explicit hypotheses with a satisfying instance. The array layout statement assumes fewer than 2^15 coinciding triangles (see C06) and at most 2^30 triangles; termination does not. In binary64 (rounding included) the build returns for all scenes with finite coordinates of magnitude at most 2^999 (C02_binary64); six triangles spread over the whole double range make it panic (C02_binary64_huge_refuted), so the property is read as excluding coordinates beyond 2^999.

* `C02_build_total` (P_Bvh.v; axioms: R)
* `C02_build_returns` (P_Bvh.v; axioms: R)
* `C02_binary64` (P_Float.v; axioms: R+C)
* `C02_binary64_huge_refuted` (P_Float.v; axioms: R+C)

### C03 Closest-hit queries agree with brute force - proved

Exact reals: returned hit is closest among all triangles crossed (epsilon-fringe hits may also be returned, as the test's tolerance allows); plus the any-arithmetic version relative to the box test. Assumes fewer than 2^15 coinciding triangles (C06).

* `C03_closest_hit` (P_Bvh.v; axioms: R)
* `C03_closest_hit_any_arithmetic` (P_Bvh.v; axioms: none)
* `C03_binary64_order` (P_Bvh.v; axioms: none)

### C04 Shadow queries agree with brute force - proved

Exact reals, with the code's tolerances; empty scene for any arithmetic.

* `C04_shadow` (P_Bvh.v; axioms: R)
* `C04_no_triangles` (P_Bvh.v; axioms: none)

### C05 Queries do not depend on history and leave a missing ray alone - proved

Any arithmetic, arbitrary sequences of queries sharing one buffer; no panic / no divergence below 2^15 triangles for any arithmetic with strict order (binary64 included).

* `C05_history_independent` (P_Bvh.v; axioms: none)
* `C05_miss_keeps_ray` (P_Bvh.v; axioms: none)
* `C05_hit_keeps_rest` (P_Bvh.v; axioms: none)
* `C05_queries_return` (P_Bvh.v; axioms: none)

### C06 Leaves of any size are searched completely - partial

REFUTED: 32768..65536 coinciding triangles overflow the i16 leaf counter; queries panic or never end. Completeness proved below 2^15 triangles.

* `C06_big_leaf_refuted` (P_Bvh.v; axioms: R)
* `C06_leaf_complete_partial` (P_Bvh.v; axioms: R)

### C07 Scene arrays stay aligned and material indices stay valid - proved

Any arithmetic, any history of pushes, builds, rebuilds and sky changes.

* `C07_records` (P_Scene.v; axioms: none)
* `C07_records_in_order` (P_Scene.v; axioms: none)

### C08 An object is a registered light iff one of its materials emits - proved

Any arithmetic, any history; exact characterisation of what is refused.

* `C08_light_count` (P_More.v; axioms: none)
* `C08_lights` (P_Scene.v; axioms: none)
* `C08_refused` (P_Scene.v; axioms: none)

### C09 Material handles are stable - proved

Any history between the two pushes.

* `C09_handles` (P_Scene.v; axioms: none)

### C10 Objects pushed after the accelerator was built are visible to queries - partial

REFUTED: nothing pushed after a build is seen by any query (C10_late_objects_ignored_refuted; a concrete missed triangle in C10_blind_spot_refuted). Proved: after rebuild_accelerator everything ever pushed takes part.

* `C10_late_objects_ignored_refuted` (P_Scene.v; axioms: none)
* `C10_blind_spot_refuted` (P_Scene.v; axioms: R+C)
* `C10_rebuild_sees_all_partial` (P_Scene.v; axioms: R+C)

### C11 Ray/triangle intersection is sound - proved

Exact reals.

* `C11_hit_frame` (P_Frame.v; axioms: R)
* `C11_hit_sound` (P_Triangle.v; axioms: R)
* `C11_hit_normal` (P_Triangle.v; axioms: R)
* `C11_simple_same` (P_Triangle.v; axioms: R)

### C12 Ray/triangle intersection is complete - partial

REFUTED for small/edge-on triangles (absolute determinant threshold 1e-5 m^2); proved whenever the threshold is met.

* `C12_hit_complete_partial` (P_Triangle.v; axioms: R)
* `C12_small_triangle_refuted` (P_Triangle.v; axioms: R)

### C13 Triangle area is right - proved

Exact reals: Heron = half the cross product; invariances; zero iff collinear.

* `C13_area_half_cross` (P_Triangle.v; axioms: R)
* `C13_area_invariant` (P_Triangle.v; axioms: R)
* `C13_area_zero_iff` (P_Triangle.v; axioms: R)

### C14 Shading normals interpolate the vertex normals - partial

REFUTED: weights are attached to the wrong vertices (at vertex a the code returns the normal of c). Exact formula and the flat case proved.

* `C14_vertex_normal_refuted` (P_Triangle.v; axioms: R)
* `C14_blend_partial` (P_Triangle.v; axioms: R)
* `C14_flat_normal_partial` (P_Triangle.v; axioms: R)

### C15 The solid-angle density of a triangle light does not depend on where the scene sits - partial

REFUTED: cos is computed from the ray origin's position instead of its direction; invariant only under translations orthogonal to the normal.

* `C15_translation_refuted` (P_Triangle.v; axioms: R)
* `C15_translation_partial` (P_Triangle.v; axioms: R)

### C16 Meshed spheres are closed triangle meshes of the right size on the sphere - proved

Count and no-cracks for every arithmetic with commutative addition (binary64 included) and every depth; vertices, normals, outward orientation and complete surrounding of the centre in exact reals.

* `C16_mesh_topology` (P_Scene.v; axioms: none)
* `C16_count` (P_Scene.v; axioms: none)
* `C16_binary64_commutes` (P_Scene.v; axioms: none)
* `C16_mesh_geometry` (P_Scene.v; axioms: R+C)

### C17 Meshing copies primitives faithfully - proved

Exact reals.

* `C17_mesh_triangle` (P_Triangle.v; axioms: R)
* `C17_box_encloses_and_is_smallest` (P_Triangle.v; axioms: R)

### C18 Mirror reflection obeys the law of reflection - proved

Exact reals; mirror_direction and the reflected path of every specular material.

* `C18_reflection` (P_Material.v; axioms: R)
* `C18_reflected_paths` (P_Material.v; axioms: R+C)

### C19 Snell's law and total internal reflection - proved

Exact reals.

* `C19_snell` (P_Material.v; axioms: R)
* `C19_leaves_to_air` (P_Material.v; axioms: R-)

### C20 Fresnel reflectance lies in [0,1] - partial

Equality with Fresnel's equations, [0,1], normal incidence, media swap and the grazing limit proved in exact reals; C20_binary64: in binary64, for all refraction indices and cosines between 2^-90 and 2^90, the computed reflectance is in [0,1] exactly, within 16/2^53 of Fresnel's equations and exactly symmetric under exchange of the media; C20_transmittance_binary64: 1 - r is in [0,1]; C20_any_binary64: for EVERY refraction index and cosine that is not negative (zero, infinite, NaN included) both are in [0,1] or NaN. AT grazing incidence (cos = 0) the property is REFUTED in binary64: the code returns NaN (C20_grazing_refuted).

* `C20_binary64` (P_FloatFresnel.v; axioms: R+C)
* `C20_transmittance_binary64` (P_FloatFresnel.v; axioms: R+C)
* `C20_any_binary64` (P_FloatLight.v; axioms: R+C)
* `C20_is_fresnel` (P_Material.v; axioms: R)
* `C20_normal_incidence` (P_Material.v; axioms: R)
* `C20_grazing_limit` (P_Material.v; axioms: R)
* `C20_grazing_refuted` (P_Material.v; axioms: none)

### C21 Refracted directions are unit vectors obeying Snell's law - proved

Exact reals.

* `C21_refraction` (P_Material.v; axioms: R)

### C22 A dielectric reflects and transmits a consistent split of energy - proved

Exact reals; exactly at the critical angle the code divides 0 by 0, so the energy statement excludes that angle.

* `C22_paths` (P_Material.v; axioms: R+C)
* `C22_energy` (P_Material.v; axioms: R+C)

### C23 Glass never creates energy and does not bend transmitted rays - proved

Exact reals: per-channel energy bound, closed form = sum of the internal-reflection series, straight transmission.

* `C23_energy` (P_Material.v; axioms: R+C)
* `C23_slab_series` (P_Material.v; axioms: R+C)
* `C23_paths` (P_Material.v; axioms: R+C)

### C24 A mirror tints what it reflects - partial

REFUTED: the reflected path of a mirror always carries full white (C24_mirror_tint_refuted); the BSDF value is tinted.

* `C24_mirror_tint_refuted` (P_Material.v; axioms: R+C)
* `C24_bsdf_tinted` (P_Material.v; axioms: R+C)

### C25 The plastic/metal reflectance model is reciprocal and non-negative - partial

Reciprocity, non-negativity, published formula and diffuse part proved (exact reals). 'Zero from behind' is REFUTED for light arriving from behind and for matt surfaces; proved for glossy surfaces seen from behind.

* `C25_value` (P_Material.v; axioms: R+C)
* `C25_diffuse` (P_Material.v; axioms: R+C)
* `C25_reciprocal` (P_Material.v; axioms: R+C)
* `C25_nonnegative` (P_Material.v; axioms: R+C)
* `C25_behind_partial` (P_Material.v; axioms: R+C)
* `C25_lit_from_behind_refuted` (P_Material.v; axioms: R+C)

### C26 Sampled scattering directions leave the surface on the side of incidence - partial

Diffuse branch proved for all draws. REFUTED for the specular branch: at normal incidence the ray is sent into the surface for every draw with xi2 in (1/e,1); C26_negative_weight_refuted: and the weight of such a sample is negative. C26_smooth_refuted: when the interpolated (smooth) normal is not perpendicular to the tangents of the hit, some matte draw has a negative density too.

* `C26_negative_weight_refuted` (P_Glossy.v; axioms: R+C)
* `C26_diffuse_branch` (P_Material.v; axioms: R+C)
* `C26_below_surface_refuted` (P_Material.v; axioms: R+C)
* `C26_no_sideways_scatter` (P_Material.v; axioms: R+C)
* `C26_half_vector` (P_More.v; axioms: R+C)
* `C26_half_vector_tail` (P_More.v; axioms: R+C)
* `C26_smooth_refuted` (P_Smooth.v; axioms: R+C)

### C27 The camera's pixel-to-ray map is inverted by ray-to-pixel - partial

Rays and injectivity proved for all films. The round trip is REFUTED in general: it holds iff the film is square or one pixel taller than wide (C27_round_trip_partial is an iff, for every pixel); for wide films the row comes back shifted (C27_round_trip_wide_refuted). Exact reals, fields of view up to 179 degrees. C27_foreign_rays: the inverse map panics exactly for rays that start elsewhere. C27_backward_refuted: a ray leaving the camera backwards is given the pixel of the opposite ray, with full weight. C27_round_trip_binary64: with every operation rounded, on square films up to 65536 pixels wide, the pixel of the camera's own ray is recovered exactly (C27_attribution_binary64: so is that of every ray within 2^-42 of the line of sight).

* `C27_rays` (P_Camera.v; axioms: R+C)
* `C27_injective` (P_Camera.v; axioms: R+C)
* `C27_round_trip_partial` (P_Camera.v; axioms: R+C)
* `C27_round_trip_wide_refuted` (P_Camera.v; axioms: R+C)
* `C27_attribution_binary64` (P_FloatPixel.v; axioms: R+C)
* `C27_round_trip_binary64` (P_FloatPixel.v; axioms: R+C)
* `C27_square_pixels` (P_More.v; axioms: R+C)
* `C27_film_points` (P_More.v; axioms: R+C)
* `C27_foreign_rays` (P_More.v; axioms: R)
* `C27_backward_refuted` (P_More.v; axioms: R)

### C28 Pixel indices are in range and in bijection with the film - proved

Any arithmetic; the render part is C49.

* `C28_sample_in_film` (P_Camera.v; axioms: none)
* `C28_sample_onto` (P_Camera.v; axioms: none)
* `C28_index_bijection` (P_Camera.v; axioms: none)

### C29 RGBE encoding round-trips within its precision - partial

Exact reals up to 2^127, and binary64 with all roundings (C29_binary64, for any log2 and exp2 accurate to 2^-40, channels up to 2^126). REFUTED above: colours from 2^127 to 2^128 come back black (C29_overflow_refuted, the exponent byte wraps; a debug assertion stops debug builds), and pixels with an infinite channel or a NaN red channel come back black whatever the other channels (C29_infinite_refuted, C30_nonfinite); a NaN green or blue channel becomes 0 and leaves the others alone (C29_nan_channel). Bytes round trip for normalised pixels with exponent >= 66 (smaller ones are below the 1e-19 threshold).

* `C29_binary64` (P_FloatImage.v; axioms: R+C)
* `C29_infinite_refuted` (P_FloatInf.v; axioms: R+C)
* `C29_nan_channel` (P_FloatInf.v; axioms: none)
* `C29_round_trip_partial` (P_Image.v; axioms: R+C)
* `C29_overflow_refuted` (P_Image.v; axioms: R+C)
* `C29_bytes_round_trip_partial` (P_Image.v; axioms: R+C)
* `C29_encoder_normalises` (P_Image.v; axioms: R+C)

### C30 Saving and loading an HDR image preserves it - proved

Any arithmetic (C30_save_load: same size, pixels in order, each through the RGBE encoding); precision corollaries in exact reals (C30_precision_partial) and in binary64 with all roundings (C30_binary64). File-system calls not modelled.

* `C30_binary64` (P_FloatImage.v; axioms: R+C)
* `C30_nonfinite` (P_FloatInf.v; axioms: R+C)
* `C30_save_load` (P_Image.v; axioms: none)
* `C30_precision_partial` (P_Image.v; axioms: R+C)

### C31 A damaged HDR file is rejected - partial

Exact characterisation of the accepted files (C31_accepted_files, any arithmetic), unknown formats and missing size lines rejected. REFUTED: every truncation of the pixel data is accepted (C31_truncated_refuted), and non-UTF-8 bytes in the size line panic. C31_numbers: the numbers of the size line are exactly an optional plus sign and decimal digits of a value below 2^64.

* `C31_accepted_files` (P_Image.v; axioms: none)
* `C31_terminates` (P_Image.v; axioms: none)
* `C31_unknown_format_partial` (P_Image.v; axioms: none)
* `C31_no_size_partial` (P_Image.v; axioms: none)
* `C31_truncated_refuted` (P_Image.v; axioms: none)
* `C31_panic_refuted` (P_Image.v; axioms: none)
* `C31_numbers` (P_Text.v; axioms: none)

### C32 Image access, construction and comparison are consistent - partial

All parts proved except 'an out-of-image x is rejected', which is REFUTED: column width+x of row y is pixel (x, y+1) (C32_column_out_of_image_refuted). C32_new: a new image is black.

* `C32_index` (P_Image.v; axioms: none)
* `C32_write` (P_Image.v; axioms: none)
* `C32_row_out_of_image` (P_Image.v; axioms: none)
* `C32_column_out_of_image_refuted` (P_Image.v; axioms: none)
* `C32_from_pixels` (P_Image.v; axioms: none)
* `C32_diff_sizes` (P_Image.v; axioms: none)
* `C32_diff_symmetric` (P_Image.v; axioms: R)
* `C32_diff_zero` (P_Image.v; axioms: R)
* `C32_diff_triangle` (P_More.v; axioms: R)
* `C32_new` (P_Text.v; axioms: none)

### C33 Colour maps are total, bounded, continuous and saturate at their ends - partial

Polyline specification, saturation, [0,1] bounds and totality proved in exact arithmetic. 'Never panics' is REFUTED in binary64 (C33_never_panics_refuted: bounds 65.1/485.1, the double just below max reaches unreachable!() with all five scales; NaN always panics). C33_binary64_partial, C33_shipped_binary64_partial: away from the last 32 ulps below the maximum it never panics in binary64 and the colour is the exact one up to 2^-28.

* `C33_polyline` (P_Colour.v; axioms: R)
* `C33_saturates_low` (P_Colour.v; axioms: R)
* `C33_saturates_high` (P_Colour.v; axioms: R)
* `C33_shipped_scales` (P_Colour.v; axioms: R)
* `C33_total_real_partial` (P_Colour.v; axioms: R)
* `C33_never_panics_refuted` (P_Colour.v; axioms: none)
* `C33_nan_panics` (P_Colour.v; axioms: none)
* `C33_singleton_panics` (P_Colour.v; axioms: none)
* `C33_variants_agree` (P_Colour.v; axioms: none)
* `C33_binary64_partial` (P_FloatScale.v; axioms: R+C)
* `C33_shipped_binary64_partial` (P_FloatScale.v; axioms: R+C)

### C34 Spectrum arithmetic is component-wise and radiometrically linear - proved

Exact-real semantics of the component-wise operators.

* `C34_algebra` (P_Colour.v; axioms: R)
* `C34_componentwise` (P_Colour.v; axioms: none)
* `C34_scalars` (P_Colour.v; axioms: R)
* `C34_radiance_value` (P_Colour.v; axioms: R)
* `C34_radiance_linear` (P_Colour.v; axioms: R)
* `C34_radiance_monotone` (P_Colour.v; axioms: R)
* `C34_normalize` (P_Colour.v; axioms: R)
* `C34_max` (P_Colour.v; axioms: R)

### C35 is_black recognises exactly black - partial

REFUTED as stated (negative, tiny and NaN components count as black); exact test condition and exactness on spectra whose channels are 0 or >= 1e-24 proved.

* `C35_is_black_refuted` (P_Colour.v; axioms: R)
* `C35_is_black_nan_refuted` (P_Colour.v; axioms: none)
* `C35_is_black_condition` (P_Colour.v; axioms: R)
* `C35_is_black_partial` (P_Colour.v; axioms: R)

### C36 Averaging and converting matrices is element-wise - proved

Means in exact reals; conversions in any arithmetic. The external crate `matrix` (get/set/product) is modelled from its documentation.

* `C36_to_radiance` (P_Matrix.v; axioms: none)
* `C36_to_luminance` (P_Matrix.v; axioms: none)
* `C36_average` (P_Matrix.v; axioms: R)

### C37 Writing and reading matrices round-trips - proved

Generic over printing/parsing functions meeting the contract `printed`; C37_precision instantiates them with a concrete five-decimal printer and decimal parser (proved to meet it). Sizes below 2^64.

* `C37_colour_matrix` (P_Matrix.v; axioms: none)
* `C37_matrix` (P_Matrix.v; axioms: none)
* `C37_precision` (P_Matrix.v; axioms: R)

### C38 Malformed matrix files are reported as errors - partial

Exact characterisation of the accepted files; bad headers and bad rows are errors. Refuted parts: missing rows are silently padded with black, extra rows panic. C38_line_ends: files with DOS line ends read the same.

* `C38_terminates` (P_Matrix.v; axioms: none)
* `C38_accepted` (P_Matrix.v; axioms: none)
* `C38_accepted_plain` (P_Matrix.v; axioms: none)
* `C38_bad_header` (P_Matrix.v; axioms: none)
* `C38_bad_row` (P_Matrix.v; axioms: none)
* `C38_bad_row_plain` (P_Matrix.v; axioms: none)
* `C38_missing_rows_refuted` (P_Matrix.v; axioms: R)
* `C38_extra_rows_refuted` (P_Matrix.v; axioms: R)
* `C38_saved_form` (P_Matrix.v; axioms: R)
* `C38_line_ends` (P_Text.v; axioms: none)

### C39 The Radiance reader tokenises exactly by whitespace and always terminates - partial

Tokens are exactly the maximal runs of non-white bytes, the reader stays inside the text and answers on every input (a word that is not UTF-8 panics). The line named by an error message is counted from zero, so the clause about line numbers is refuted (C39_line_refuted); C39_line_partial says what it is. C39_utf8: the words accepted are exactly the UTF-8 encodings of sequences of Unicode scalar values.

* `C39_words_exist_and_are_unique` (P_Radiance.v; axioms: none)
* `C39_tokens_are_words` (P_Radiance.v; axioms: none)
* `C39_always_answers` (P_Radiance.v; axioms: none)
* `C39_bad_text_panics` (P_Radiance.v; axioms: none)
* `C39_line_partial` (P_Radiance.v; axioms: none)
* `C39_line_refuted` (P_Radiance.v; axioms: none)
* `C39_utf8` (P_Text.v; axioms: none)

### C40 A Radiance scene description is read back as the scene it describes - proved

A text is accepted exactly when its words are the words of supported items, and the scene is what playing those items gives (first definition of a name wins: see C41); a text describes at most one list of items; the layout does not matter; the materials are in the order of the text. Arguments: the number parser (which must reject the empty word), DistantSource3D::new and the polygon triangulation.

* `C40_reads_the_description` (P_Radiance.v; axioms: none)
* `C40_layout` (P_Radiance.v; axioms: none)
* `C40_materials_in_order` (P_Radiance.v; axioms: none)
* `C40_one_reading` (P_Radiance.v; axioms: none)

### C41 An object refers to the most recent definition of its modifier - partial

Refuted in general: with two definitions of a name the object gets the first one (C41_refuted). Proved when names are defined once (C41_partial) and for unknown modifiers, which panic (C41_unknown_modifier).

* `C41_refuted` (P_Radiance.v; axioms: none)
* `C41_partial` (P_Radiance.v; axioms: none)
* `C41_unknown_modifier` (P_Radiance.v; axioms: none)

### C42 OBJ faces are triangulated completely - partial

Faces of three and four corners become their fan (C42_partial, up to triangles geometry3d refuses); faces with more corners are silently dropped (C42_refuted); references to missing vertices and faces with fewer than three corners panic. The obj crate's parser and Triangle3D::new are arguments.

* `C42_partial` (P_Importers.v; axioms: none)
* `C42_fan_size` (P_Importers.v; axioms: none)
* `C42_refuted` (P_Importers.v; axioms: none)
* `C42_malformed` (P_Importers.v; axioms: none)

### C43 Substances of a SIMPLE model become materials once, with the right optical class - partial

Refuted: materials are never reused, every surface gets two new ones (C43_reuse_refuted); the visible spectrum is unimplemented (C43_visible_refuted); substances with a transmittance below about 1.117e-4 become opaque (C43_glass_refuted). Proved: the exact scene built (C43_scene_partial), glass above 1.12e-4 (C43_glass_partial), and the glass of a substance with transmittance t in [0.01,0.9] transmits t at normal incidence up to 1e-5 (C43_transmissivity).

* `C43_scene_partial` (P_Importers.v; axioms: none)
* `C43_reuse_refuted` (P_Importers.v; axioms: none)
* `C43_visible_refuted` (P_Importers.v; axioms: none)
* `C43_opaque` (P_Importers.v; axioms: R)
* `C43_gas` (P_Importers.v; axioms: R)
* `C43_glass_partial` (P_Importers.v; axioms: R)
* `C43_glass_refuted` (P_Importers.v; axioms: R)
* `C43_transmissivity` (P_Importers.v; axioms: R+C)

### C44 Tracing a ray always terminates and respects the depth limit - partial

For every scene, any budget of max_depth+2 nested calls is as good as any other when specular bounces are counted (C44_nesting_partial); dark scenes return for every ray and all draws (C44_dark_returns_partial); scenes of mirrors, glass, dielectrics and lamps under any sky return for every ray when bounces are counted (C44_specular_returns_partial). False as stated: two facing mirrors trap a ray forever at any depth limit when specular bounces are not counted (C44_mirrors_refuted). Scenes lit by distant sources return (C76). Missing: a return theorem for scenes with nearby lamps and a sky (false in general, see C47/C48).

* `C44_specular_returns_partial` (P_Radiant.v; axioms: R+C)
* `C44_nesting_partial` (P_Tracer.v; axioms: none)
* `C44_dark_returns_partial` (P_Tracer.v; axioms: R+C)
* `C44_mirrors_refuted` (P_Tracer.v; axioms: R+C)

### C45 The auxiliary ray buffer is never indexed out of range - partial

No panic for max_depth <= 14 in every scene, ray and draws (C45_in_bounds_partial); false from max_depth 15 on, with a concrete scene and run (C45_overflow_refuted). Exact reals: for the NaN panic see C54.

* `C45_in_bounds_partial` (P_Tracer.v; axioms: R+C)
* `C45_overflow_refuted` (P_Tracer.v; axioms: R+C)

### C46 Ambient sampling follows Russian roulette rules - partial

The counts are proved (C46_counts); the weight compensation half is false: the survivor keeps its weight and the killed ray gets the limit (C46_not_compensated_refuted).

* `C46_counts` (P_Tracer.v; axioms: none)
* `C46_not_compensated_refuted` (P_Tracer.v; axioms: R)

### C47 Diffuse surfaces receive light from the sky - partial

The property is false and its negation is proved: the sky's radiance never influences a non-specular scene's hits (C47_sky_ignored_refuted) and one diffuse triangle under any sky never returns (C47_never_returns_refuted).

* `C47_sky_ignored_refuted` (P_Tracer.v; axioms: R+C)
* `C47_never_returns_refuted` (P_Tracer.v; axioms: R+C)

### C48 A light contributes iff it is visible - partial

The answer for one shadow ray (C48_answer) and the number and value of the samples (C48_samples) are proved; termination when all samples meet their light (C48_returns_partial). False parts proved as refutations: dark sides emit (C48_dark_side_refuted), a light that is never met is sampled forever (C48_missed_forever_refuted), ceilings give no light above non-negative heights (C48_ceiling_light_refuted).

* `C48_answer` (P_Lights.v; axioms: R+C)
* `C48_dark_side_refuted` (P_Lights.v; axioms: R+C)
* `C48_samples` (P_Lights.v; axioms: none)
* `C48_returns_partial` (P_Lights.v; axioms: R+C)
* `C48_missed_forever_refuted` (P_Lights.v; axioms: none)
* `C48_ceiling_light_refuted` (P_Lights.v; axioms: R+C)

### C49 Rendering is independent of the parallel schedule and chunking - proved

For every interleaving of the chunk workers, every arithmetic, generator and geometry: each finished image has every pixel equal to the trace of its own camera ray with fresh buffers (C49_pixels), and two schedules with the same per-chunk generators give the same image (C49_schedule); the render returns when every trace returns (C49_returns). Pixel positions: exact reals, and binary64 for width*height <= 2^53 (via Flocq). In the `float` (binary32) build the position is wrong for large images (C49_positions_binary32_refuted).

* `C49_pixels` (P_Render.v; axioms: none)
* `C49_positions_real` (P_Render.v; axioms: R)
* `C49_positions_binary64` (P_Render.v; axioms: R+C)
* `C49_positions_binary32_refuted` (P_Render.v; axioms: none)
* `C49_schedule` (P_Render.v; axioms: none)
* `C49_returns` (P_Render.v; axioms: none)

### C50 Daylight coefficient matrices have one row per sensor and conserve energy - partial

Shape, row independence and the open-sky total are proved in full generality (any arithmetic / all scenes and draws). Non-negativity and return are proved for scenes of flat triangles with physical materials whose glossy lobe is off (_partial); with a glossy floor non-negativity is FALSE (C50_negative_refuted: every channel of a coefficient is negative). Missing: spheres and interpolated normals, glossy lobes.

* `C50_shape` (P_Daylight.v; axioms: none)
* `C50_rows` (P_Daylight.v; axioms: none)
* `C50_open` (P_Daylight.v; axioms: R+C)
* `C50_nonnegative_partial` (P_Daylight.v; axioms: R+C)
* `C50_returns_partial` (P_Daylight.v; axioms: R+C)
* `C50_negative_refuted` (P_Daylight2.v; axioms: R+C)

### C51 Ambient samples of a daylight-coefficient bounce are independent - partial

The property is FALSE of the code: C51_compounded computes the exact row totals for one matte surface under the sky for every number of samples n (pi times rho + rho^2 + ... + rho^n instead of pi times rho), and C51_refuted gives a case (9/10 pi against 171/100 pi).

* `C51_compounded` (P_Daylight2.v; axioms: R+C)
* `C51_refuted` (P_Daylight2.v; axioms: R+C)

### C52 Samplers stay on their domain - proved

Exact arithmetic (the f32 draws and casts are the subject of C103): every sampler's output is on its domain for all draws in [0,1) (all reals where the code clamps), including directions towards triangles, spheres and distant sources. get_perpendicular of geometry3d enters through its contract (unit and orthogonal).

* `C52_triangle` (P_Samplers.v; axioms: R)
* `C52_disc` (P_Samplers.v; axioms: R+C)
* `C52_cosine_hemisphere` (P_Samplers.v; axioms: R+C)
* `C52_hemisphere` (P_Samplers.v; axioms: R+C)
* `C52_sphere` (P_Samplers.v; axioms: R+C)
* `C52_disc_in_space` (P_Samplers.v; axioms: R+C)

### C53 Adding a Perez sky installs the sky and the sun, with the zenith angle limited to 3..90 degrees - partial

C53_sun: the whole way from irradiances to the sun in the scene. Contents and never-panics proved for any arithmetic and any solar crate; luminance proved in exact reals. The 3-degree limit is REFUTED (C53_zenith_refuted): a sun within 3 degrees of the zenith is treated as standing more than 86 degrees away, because the code takes acos of 3 degrees. Elsewhere the zenith angle is right (C53_zenith_partial).

* `C53_contents` (P_Sky.v; axioms: none)
* `C53_radiance` (P_Sky.v; axioms: R+C)
* `C53_zenith_partial` (P_Sky.v; axioms: R+C)
* `C53_zenith_refuted` (P_Sky.v; axioms: R+C)
* `C53_sun` (P_Sky.v; axioms: R+C)

### C54 The tracer never reaches the panicking arms of material dispatch - partial

The dispatch arms (C54_arms) and freedom from any panic for scenes of triangles, spheres and distant sources (C54_no_panic_partial); false for cylinder lights (C54_cylinder_light_refuted), and in binary64 false for a glossy surface seen face on, where the sampled half vector is zero and the NaN check panics (C54_nan_refuted): the no-panic theorems over exact reals cannot see that, C80 is their binary64 counterpart for surfaces that are never glossy.

* `C54_nan_refuted` (P_FloatTrace.v; axioms: none)
* `C54_arms` (P_Lights.v; axioms: none)
* `C54_no_panic_partial` (P_Lights.v; axioms: R+C)
* `C54_cylinder_light_refuted` (P_Lights.v; axioms: R+C)

### C55 A specular material's BSDF agrees with the paths it proposes - partial

REFUTED for glass (its BSDF is black along its own transmitted path) and for coloured dielectrics (colour applied once more than in the path); exact relation proved. REFUTED also for opaque glass: its BSDF is 1/cos in every direction that is neither straight on nor the mirror one (C55_opaque_glass_refuted).

* `C55_glass_refuted` (P_Material.v; axioms: R+C)
* `C55_dielectric_partial` (P_Material.v; axioms: R+C)
* `C55_glass_reflected` (P_Material.v; axioms: R+C)
* `C55_opaque_glass_refuted` (P_Material.v; axioms: R+C)

### C56 False-colour images show every pixel's luminance on the scale - partial

Proved for images narrower and lower than 65536; C56_bytes_binary64: in binary64 the bytes are exactly the nearest integers to 256 times the colour, at most 255; C56_binary64_partial and C56_shipped_binary64_partial: with an explicit range the whole false-colour image in binary64 is within one byte of the exactly interpolated colours, for luminances outside the last 32 ulps below the maximum (where the program fails, C33); REFUTED beyond (sizes are cast to u16). JPEG encoding not modelled.

* `C56_data` (P_FalseColour.v; axioms: R)
* `C56_bytes` (P_FalseColour.v; axioms: R)
* `C56_automatic_range` (P_FalseColour.v; axioms: R)
* `C56_brightest_is_last` (P_FalseColour.v; axioms: R)
* `C56_black_image` (P_FalseColour.v; axioms: R)
* `C56_size_refuted` (P_FalseColour.v; axioms: R)
* `C56_binary64_partial` (P_FloatFalse.v; axioms: R+C)
* `C56_shipped_binary64_partial` (P_FloatFalse.v; axioms: R+C)
* `C56_bytes_binary64` (P_FloatInf.v; axioms: R+C)

### C57 The automatic range of logarithmic false colour ends at the brightest pixel - partial

REFUTED: if no luminance exceeds 1, the range ends at 10^0.002 whatever the image (C57_log_range_refuted); proved when the brightest luminance exceeds 10^0.001.

* `C57_log_range_partial` (P_FalseColour.v; axioms: R+C)
* `C57_log_range_refuted` (P_FalseColour.v; axioms: R+C)

### C58 Samplers draw with the advertised law - proved

Exact arithmetic; triangle and sphere laws for draws outside the 1e-8/1e-7 margins where the code clamps.

* `C58_triangle` (P_Samplers.v; axioms: R)
* `C58_disc` (P_Samplers.v; axioms: R+C)
* `C58_cosine_hemisphere` (P_Samplers.v; axioms: R+C)
* `C58_hemisphere` (P_Samplers.v; axioms: R+C)
* `C58_sphere` (P_Samplers.v; axioms: R+C)

### C59 Light samples are weighted by the density with which they are drawn - partial

REFUTED for spherical lights (C59_sphere_refuted: the surface is sampled uniformly but the density of a uniform cone is reported; 64% of the draws fall where less than half of the probability is claimed). For distant sources the law is proved to differ from the claim by a factor between 2c^2/(1+c) and 1, which is within 1e-4 for the sun. Triangles: C59_triangle_partial gives the claimed density exactly (zero, or the right one times |cos|/(origin.normal)); C59_triangle_refuted: a lamp one metre above an observer at height z is claimed to have 1/z of its density. C59_sphere_claim: what is reported for a sphere is the uniform density over its cone.

* `C59_triangle_partial` (P_Aim.v; axioms: R+C)
* `C59_triangle_refuted` (P_Aim.v; axioms: R+C)
* `C59_source_partial` (P_Density.v; axioms: R+C)
* `C59_sun` (P_Density.v; axioms: R+C)
* `C59_sphere_refuted` (P_Density.v; axioms: R+C)
* `C59_sphere_claim` (P_Density.v; axioms: R+C)

### C60 Point and direction arguments are exactly three numbers - proved

Any number parser and arithmetic; Rust's trim and split(' ') modelled over UTF-8 bytes (all White_Space code points).

* `C60_accepts` (P_Tools.v; axioms: none)
* `C60_round_trip` (P_Tools.v; axioms: none)
* `C60_one_space` (P_Tools.v; axioms: none)

### C61 Every line of the sensor list is one sensor, in order - partial

Proved for every byte stream that is UTF-8; REFUTED for a line that is not UTF-8 (C61_sensors_refuted: the list silently ends there, and the program goes on with the sensors before it). C61_sensors_of_lines shows that these are all the cases.

* `C61_lines` (P_Tools.v; axioms: none)
* `C61_sensors_partial` (P_Tools.v; axioms: none)
* `C61_sensors_refuted` (P_Tools.v; axioms: none)
* `C61_sensors_of_lines` (P_Tools.v; axioms: none)
* `C61_directions` (P_Tools2.v; axioms: R)

### C62 The file sfluxmtx writes is the daylight-coefficient matrix of its sensors - partial

C62_file, C62_refuses, C62_open_sky proved. REFUTED parts: a .spl scene always panics (C62_spl_refuted) and a sensor list cut by a non-UTF-8 line writes a shorter matrix without an error (C62_truncated_refuted).

* `C62_spl_refuted` (P_Tools.v; axioms: none)
* `C62_file` (P_Tools.v; axioms: none)
* `C62_refuses` (P_Tools.v; axioms: none)
* `C62_truncated_refuted` (P_Tools.v; axioms: none)
* `C62_open_sky` (P_Tools2.v; axioms: R+C)

### C63 The file spict writes is the picture of the view that was asked for - proved

Any arithmetic; the schedule is the sequential one, C49 shows that every schedule of the chunks gives the same picture.

* `C63_file` (P_Tools.v; axioms: none)
* `C63_refuses` (P_Tools.v; axioms: none)
* `C63_dark_returns` (P_Tools2.v; axioms: R+C)

### C64 scompare writes the difference of the two pictures - partial

REFUTED for files with fewer pixels than they announce, which the reader accepts (C31): C64_truncated_refuted (panic). Everything else proved, including the false-colour output (C64_map). C64_missing_file, C64_missing_second: files that cannot be opened are errors.

* `C64_map` (P_FalseTool.v; axioms: R+C)
* `C64_missing_file` (P_Text.v; axioms: none)
* `C64_missing_second` (P_Text.v; axioms: none)
* `C64_difference` (P_Tools.v; axioms: none)
* `C64_refuses` (P_Tools.v; axioms: none)
* `C64_self` (P_Tools.v; axioms: R+C)
* `C64_symmetric` (P_Tools.v; axioms: R+C)
* `C64_truncated_refuted` (P_Tools.v; axioms: none)

### C65 sfalsecolor colours each pixel with the chosen scale - proved

C65_picture covers every combination of options, in exact reals, down to the bytes handed to the JPEG encoder (not modelled); C65_scales pins the five scales to their published ends. f64 log10 of a non-positive luminance is not modelled. C65_missing_file: a file that cannot be opened is an error. C65_size (any arithmetic): a readable image yields a panic or a picture whose size is the image's modulo 65536, hence C65_wide_refuted beyond the quantifier.

* `C65_picture` (P_FalseTool.v; axioms: R+C)
* `C65_scales` (P_FalseTool.v; axioms: R)
* `C65_size` (P_FalseTool.v; axioms: none)
* `C65_wide_refuted` (P_FalseTool.v; axioms: none)
* `C65_missing_file` (P_Text.v; axioms: none)
* `C65_data_partial` (P_Tools.v; axioms: R+C)
* `C65_refuses` (P_Tools.v; axioms: none)

### C66 The light of a traced ray is the sum it should be - proved

For every arithmetic (reals and floats), scene and sequence of draws. The specification SpecTracer.v names the reflectance, the sampled direction and the first surface met, which are the subject of C01, C18-C26, C52 and C58.

* `C66_radiance` (P_Radiance_Sum.v; axioms: none)

### C67 Light adds up - partial

Proved for scenes whose lights shine on both sides, in exact arithmetic. REFUTED otherwise: C67_one_sided_refuted (the dark side of a light keeps emitting its own colour, see C48).

* `C67_own_lighting` (P_Linear.v; axioms: R)
* `C67_ray_partial` (P_Linear.v; axioms: R+C)
* `C67_image_partial` (P_Linear.v; axioms: R+C)
* `C67_one_sided_refuted` (P_Linear.v; axioms: R+C)

### C68 No light from nowhere - proved

Exact arithmetic (in floating point 0 x infinity would be NaN, e.g. for densities that round to 0).

* `C68_dark_ray` (P_Linear.v; axioms: R+C)
* `C68_dark_image` (P_Linear.v; axioms: R+C)

### C69 Where the daylight coefficients come from - proved

C69_ray: tracing one ray deposits exactly what `spreads` (SpecDaylight.v) lists; C69_matrix: every entry of the returned matrix is the sum over the primary rays. Whether a call returns is C50/C44.

* `C69_ray` (P_Daylight_Sum.v; axioms: none)
* `C69_matrix` (P_Daylight_Sum.v; axioms: none)

### C70 Every random decision uses fresh random numbers - proved

C70_draws refines C66_radiance with the state of the generator before and after every step (SpecDraws.v). f32 and f64 draws are one kind of number in the model.

* `C70_draws` (P_Draws.v; axioms: none)

### C71 Light is never negative - partial

Proved for rays and pictures in scenes of flat triangles and distant sources with matte surfaces (specularity 0), mirrors, glass, dielectrics and lamps, in exact reals. In binary64 (C71_rays_binary64_partial, C71_pictures_binary64_partial), for every scene, ray, generator and setting, glossy materials, infinite and NaN values included: no negative channel, provided that no ambient sample is asked for or that the sampled densities are not negative, which is the only gap. FALSE for glossy lobes: their density can be negative at the sampled direction (C26_negative_weight_refuted, C50_negative_refuted). Curved (interpolated) normals are not covered: there the density of a matte draw can be negative (C26_smooth_refuted).

* `C71_rays_binary64_partial` (P_FloatLight.v; axioms: R+C)
* `C71_pictures_binary64_partial` (P_FloatLight.v; axioms: R+C)
* `C71_rays_partial` (P_Radiant.v; axioms: R+C)
* `C71_pictures_partial` (P_Radiant.v; axioms: R+C)

### C72 Reflection does not amplify light - partial

Proved for (matte reflectance at most 1, mirrors, glass, no lamps, any sky at most L) and for (mirrors, glass and lamps at most L). REFUTED for a dielectric sheet under a uniform sky: it looks up to n*n times as bright as the sky (C72_dielectric_refuted). Matte surfaces lit by lamps are sampled once per lamp, so the one-sample estimate has no such bound.

* `C72_rays_partial` (P_Radiant.v; axioms: R+C)
* `C72_pictures_partial` (P_Radiant.v; axioms: R+C)
* `C72_dielectric_refuted` (P_Radiant.v; axioms: R+C)

### C73 Sunlight falls on a matte surface as the cosine law says - proved

Proved for every scene of flat triangles whose only light is one distant source that shines on both sides, with ambient sampling disabled. The two hypotheses sees_sources and good_perpendiculars are contracts of the geometry3d crate (not in /repo) and are met by the example instance.

* `C73_sunlight` (P_Sunlight.v; axioms: R+C)

### C74 A mirror shows exactly what the reflected ray sees - proved

Every scene of flat triangles and distant sources; the mirror's tint does not enter (C24_mirror_tint_refuted).

* `C74_mirror` (P_Specular.v; axioms: R+C)

### C75 A pane of glass shows the sky behind it, dimmed, and the reflected sky in front of it - proved

Scene with one pane; colour not blacker than 1e-15; pane_optics is the slab series of C23, stated with infinite sums. Proved for hits from either side.

* `C75_pane` (P_Specular.v; axioms: R+C)

### C76 A scene lit by distant sources only, without sky and without glossy materials, can always be rendered - proved

C76_rays and C76_pictures, real arithmetic; a generator that stays in [0,1); geometry3d's perpendiculars and its source intersection are taken to do what their documentation says (perpendicular_ok, good_perpendiculars, sees_sources).

* `C76_rays` (P_Sunlit.v; axioms: R+C)
* `C76_pictures` (P_Sunlit.v; axioms: R+C)

### C77 Asked where a light is, a primitive answers with the way to it - proved

Exact reals. C77_triangle, C77_sphere, C77_rest.

* `C77_triangle` (P_Aim.v; axioms: R)
* `C77_sphere` (P_Aim.v; axioms: R)
* `C77_rest` (P_Aim.v; axioms: R)

### C78 On average, a matte surface reflects exactly its share of the light around it - proved

Exact reals; the mean is a Riemann integral over both draws (Coquelicot; no axioms beyond the standard library's reals and classical logic). Draws in the open unit square (a set of full measure).

* `C78_matte` (P_Unbiased.v; axioms: R+C)

### C79 The samplers draw from the densities they stand for - proved

Exact reals. C79_cosine, C79_hemisphere, C79_disc. The triangle and sphere samplers clamp their draws; their laws are C58.

* `C79_cosine` (P_Unbiased.v; axioms: R+C)
* `C79_hemisphere` (P_Unbiased.v; axioms: R+C)
* `C79_disc` (P_Unbiased.v; axioms: R+C)

### C80 No panic caused by rounding in matte, mirror and glass scenes - proved

C80_no_panic and C80_dark_returns hold for every arithmetic with a strict order (binary64 is one, C03_binary64_order); C80_binary64 discharges the build with C02_binary64, whose rounding analysis uses Flocq. The contract of the library sort is a hypothesis with a satisfying instance.

* `C80_no_panic` (P_FloatTrace.v; axioms: none)
* `C80_dark_returns` (P_FloatTrace.v; axioms: none)
* `C80_binary64` (P_FloatTrace.v; axioms: R+C)

### C81 Query answers do not depend on the order of insertion - proved

Exact reals, library routines through their contracts (externals_ok); off_rims excludes rays within 2^-52 (barycentric) outside a rim, where the box test may or may not let the triangle be tried.

* `C81_order` (P_Order.v; axioms: R+C)

### C82 Adding objects can only bring hits nearer and shadows closer - proved

Exact reals, same provisos as C81.

* `C82_monotone` (P_Order.v; axioms: R+C)

### C83 Moving the scene moves the answers - proved

Exact reals. Scenes of triangles (a sphere's mesh is not turned with the sphere). The sampling densities are not motion invariant: that is C15.

* `C83_motion` (P_Motion.v; axioms: R+C)
* `C83_triangle` (P_Motion.v; axioms: R)
* `C83_camera` (P_Motion.v; axioms: R)

### C84 The expected daylight coefficient is the projected solid angle of the visible part of the sky patch - proved

Exact reals; the mean is an iterated Riemann integral over the pairs of draws. C84_expected (absorbing surfaces), C84_open (nothing in front of the sensor, any materials; there the calculation is also shown to answer), C84_patch (box shaped bins). In C84_expected the estimate is stated for calculations that return.

* `C84_expected` (P_Expected.v; axioms: R+C)
* `C84_open` (P_Expected.v; axioms: R+C)
* `C84_patch` (P_Expected.v; axioms: R+C)

### C85 Concatenated Radiance descriptions read as the scenes side by side - proved

Any arithmetic. Example C85_hyp reads a ball and a lamp description together.

* `C85_append` (P_Append.v; axioms: none)

### C86 One rebuild makes queries see everything ever pushed - proved

Exact reals, library routines through their contracts; up to 2^30 triangles that are not piled up (C06). Example C86_hyp rebuilds the scene of C10_blind_spot_refuted.

* `C86_rebuild` (P_Exact.v; axioms: R+C)

### C87 The ray/triangle test decides exactly - proved

Exact reals. C87_decides (shadow test), C87_decides_full, C87_threshold (what the determinant threshold means), C87_rim.

* `C87_decides` (P_Exact.v; axioms: R)
* `C87_decides_full` (P_Exact.v; axioms: R)
* `C87_threshold` (P_Exact.v; axioms: R)
* `C87_rim` (P_Exact.v; axioms: R)

### C88 Colour scales change gradually, and the perceptual ones keep the order of brightness - proved

Exact reals. C88_rate, C88_shipped, C88_brightness; C88_radiance_scale_refuted is the clause about Radiance's scale.

* `C88_rate` (P_Scale.v; axioms: R)
* `C88_shipped` (P_Scale.v; axioms: R)
* `C88_brightness` (P_Scale.v; axioms: R)
* `C88_radiance_scale_refuted` (P_Scale.v; axioms: R)

### C89 Loading and saving an HDR picture again changes nothing any more - proved

Exact reals (rounding of log2/exp2 not modelled). C89_fading_refuted shows that the gap next to 1e-19 is real.

* `C89_pixel` (P_Resave.v; axioms: R+C)
* `C89_resave` (P_Resave.v; axioms: R+C)
* `C89_fading_refuted` (P_Resave.v; axioms: R+C)

### C90 The order in which a triangle's corners are listed only decides which side is its front - proved

Exact reals. C90_vertex_order, C90_rim_only; Example C90_hyp.

* `C90_vertex_order` (P_Between.v; axioms: R)
* `C90_rim_only` (P_Between.v; axioms: R)

### C91 Whether two points see each other does not depend on which of them looks - proved

Exact reals, library routines through their contracts; the centimetre is not sharp (the code leaves 1e-5 around the target). Example C91_hyp.

* `C91_reversible` (P_Between.v; axioms: R+C)

### C92 Specular light paths can be walked backwards - proved

Exact reals; at a dielectric the ray must travel in air or in the dielectric (|1-ri| >= 1e-7) and must not leave exactly grazing. C92_step_back, C92_route_back (any number of events), C92_same_medium; Examples C92_hyp, C92_hyp_return. Note that the weight of a refraction is (n2/n1)^2 (1-F), see C72_dielectric_refuted.

* `C92_step_back` (P_Reverse.v; axioms: R+C)
* `C92_route_back` (P_Reverse.v; axioms: R+C)
* `C92_same_medium` (P_Reverse.v; axioms: R+C)

### C93 A convex body does not shade itself - proved

Exact reals, flat triangles. C93_nothing_above: both queries. C93_convex_in_the_sun: the traced light.

* `C93_nothing_above` (P_Shade.v; axioms: R+C)
* `C93_convex_in_the_sun` (P_Shade.v; axioms: R+C)

### C94 A surface is not lit through itself - partial

Proved when the shadow ray comes back through the surface obliquely (C94_own_shadow, C94_dark). REFUTED near rims (half a millimetre from an edge the light of a source 45 degrees below arrives) and, in exact arithmetic, for a light exactly opposite (C94_leak_refuted).

* `C94_own_shadow` (P_Shade.v; axioms: R+C)
* `C94_dark` (P_Shade.v; axioms: R+C)
* `C94_leak_refuted` (P_Shade.v; axioms: R+C)

### C95 The ray-triangle test in double precision - proved

Binary64 arithmetic (Flocq), models within 1 to 1024 units, directions unit to one part in a thousand. C95_hit_numbers: everything stored with a hit is finite.

* `C95_hit_sound` (P_FloatHit.v; axioms: R+C)
* `C95_hit_complete` (P_FloatHit.v; axioms: R+C)
* `C95_hit_numbers` (P_FloatQuery.v; axioms: R+C)
* `C95_hit_normal` (P_FloatUnit.v; axioms: R+C)

### C96 A surface made of several triangles has no gaps along the seams - partial

Proved in exact arithmetic (C96_exact). REFUTED in binary64 (C96_seam_refuted): a rectangle cut along its diagonal has a ray, hitting it well inside its outline and far from grazing, that both triangles miss, and both scene queries look through the surface.

* `C96_exact` (P_Leak.v; axioms: R)
* `C96_seam_refuted` (P_Leak.v; axioms: R+C)

### C97 Normalised vectors are unit vectors in double precision - proved

The range is part of the statement; outside it C97_extreme_refuted gives an infinite and a zero result.

* `C97_unit` (P_FloatUnit.v; axioms: R+C)
* `C97_extreme_refuted` (P_FloatUnit.v; axioms: none)

### C98 Scene queries in floating point - proved

Proved of the binary64 model (NumSF) with Flocq's rounding theorems; the contract box_test64 on the external BBox3D::intersect is an explicit hypothesis and C98_slab_test shows that the usual slab test meets it for rays not parallel to an axis plane. C98_pixel: the closest hit of any pixel's camera ray is on the exact line of sight through the pixel's centre, within the stated error. Blur, 1/3000 (MIN_T on the squared distance) and the shadow tolerances are explicit in the statements.

* `C98_closest` (P_FloatQuery.v; axioms: R+C)
* `C98_shadow` (P_FloatQuery.v; axioms: R+C)
* `C98_slab_test` (P_FloatQuery.v; axioms: R+C)
* `C98_pixel` (P_FloatSight.v; axioms: R+C)

### C99 Reflected and camera directions in floating point - proved

Proved of the binary64 model with Flocq's rounding theorems. The film distance is the one the camera computed from its field of view (tan is the platform's); lengths are relative to it.

* `C99_camera` (P_FloatCamera.v; axioms: R+C)
* `C99_distinct` (P_FloatCamera.v; axioms: R+C)
* `C99_mirror` (P_FloatDir.v; axioms: R+C)
* `C99_bounces` (P_FloatDir.v; axioms: R+C)

### C100 Refracted rays in floating point - proved

Proved of the binary64 model with Flocq's rounding theorems. The cosine behind the surface is compared through its square because it is ill-conditioned at the critical angle.

* `C100_refraction` (P_FloatRefract.v; axioms: R+C)
* `C100_route` (P_FloatRefract.v; axioms: R+C)

### C101 Material handles are only names - proved

Proved for every arithmetic (reals, binary64, binary32), every sphere mesher and every generator: a simulation between the two scenes through the builder, the tracer and the daylight tracer.

* `C101_handles` (P_Handles.v; axioms: none)
* `C101_unused` (P_Handles.v; axioms: none)

### C102 Nothing can be asked of a scene before it is built, and it is built once - proved

Panics and the effect of the two functions for every arithmetic; that building always returns in exact arithmetic (C102_buildable, with the library's sorting and selection assumed to permute, as in C02).

* `C102_unbuilt` (P_Life.v; axioms: none)
* `C102_once` (P_Life.v; axioms: none)
* `C102_buildable` (P_Life.v; axioms: R)

### C103 Directions and points drawn in single precision - partial

C103_cosine, C103_sphere, C103_disc: mixed precision (Mixed.v), all draws, any f32 sine/cosine accurate to 2^-24; disc radii between 2^-60 and 512. C103_grazing_refuted: for EVERY correctly rounded f32 sine and cosine (such functions exist: perfect_correct), one concrete pair of draws yields a direction exactly in a horizontal floor; the matte density is 0 and the sample adds NaN to every channel for all surfaces and all lights, so the strict positivity of C52 does not survive rounding. C103_triangle: the triangle sampler (binary64, no f32), within 28 ulp of a point of the triangle. C103_matte: the matte draw in the program's mixed precision, for every frame orthonormal up to rounding and every draw not within 4e-6 of 1: unit direction, positive cosine and positive density, with error bounds. C103_hemisphere: uniform_sample_hemisphere (which the program does not call) for every frame orthonormal up to rounding.

* `C103_cosine` (P_Single.v; axioms: R+C)
* `C103_sphere` (P_Single.v; axioms: R+C)
* `C103_disc` (P_Single.v; axioms: R+C)
* `C103_grazing_refuted` (P_Single2.v; axioms: R+C)
* `C103_matte` (P_SingleMatte.v; axioms: R+C)
* `C103_hemisphere` (P_SingleMatte.v; axioms: R+C)
* `C103_triangle` (P_SingleTri.v; axioms: R+C)

### C104 The accelerator cuts where the surface-area cost is least - proved

C104_split: exact arithmetic, any surface_area / max_extent, provided some cut costs less than 2^1000 (Float::MAX is the start value of the search); C104_few and C104_one_spot: any arithmetic. C104_case: twelve boxes in two groups meet the hypotheses. The cost uses the box around the CENTRES of each side, as the code does (not around the objects, as in the textbook heuristic).

* `C104_split` (P_Split.v; axioms: R)
* `C104_few` (P_Split.v; axioms: none)
* `C104_one_spot` (P_Split.v; axioms: none)

### C105 The defaults are what they say and fit together - proved

C105_view, C105_straight_ahead, C105_settings, C105_default_tracer_safe: exact arithmetic; C105_fresh_ray: any arithmetic.

* `C105_view` (P_Defaults.v; axioms: R)
* `C105_straight_ahead` (P_Defaults.v; axioms: R+C)
* `C105_fresh_ray` (P_Defaults.v; axioms: none)
* `C105_settings` (P_Defaults.v; axioms: R)
* `C105_default_tracer_safe` (P_Defaults.v; axioms: R+C)

## 5. Wrong programs

`seeded/LOG.jsonl` records 852 edits of the model (one per line), each rebuilt in a scratch copy: the definition edited, the edit, the
claim it breaks, the first theorems that failed in each file, and the theorems that were added or tightened because an edit survived.
An edit of the code that survives must also be an edit that leaves every English claim true; the entries say so where this happened.
