(** * SpecTracer: what a ray sees, as a sum of samples (any arithmetic)

    [sees r li pdf]: the light [li] that arrives along the ray r, and the density [pdf] reported with it.  The clauses say which
    terms are added and how each one is weighted; which directions are drawn is left open (any state of the generator), and so is
    the state of the reusable buffers.  What the first surface met is, how a material reflects and how directions are drawn is the
    subject of other properties (C01, C18-C26, C52, C58); here these are used by name. *)
From Verif Require Import Num Geometry Triangle Sphere Colour Ray Bvh Material Scene Samplers Primitives RayTracer.

Section SpecTracer.
  Context {N : Num} {T : Trig N} {E : Ext} {RG : Gen N} {O : Geo}.
  Local Open Scope num_scope.

  (** ** direct light *)
  (** one sample of a light that was not a miss: [x] is what it adds, None when the light is not seen *)
  Definition light_sample (fuel : nat) (s : Scene) (m : Material) (r : Ray) (p normal e1 e2 : Vec) (n : nat) (light : Object) (x : option Spectrum) : Prop :=
    exists g dir g' nodes nodes' colour pdf,
      sample_direction (ob_primitive light) g p = Ret (dir, g') /\
      intersect_light fuel s light (mkRay3D p dir) nodes = Ret (Some (colour, pdf), nodes') /\
      if pdf <? flit 1 (10 ^ 18) then x = None
      else exists bsdf, eval_bsdf is_parallel is_same_direction m normal e1 e2 r (vscale dir (- f1)) = Ret bsdf /\
        x = Some (sdivf (smul (smulf colour (fabs (vdot normal dir))) bsdf) (fofZ (Z.of_nat n) * pdf)).
  Definition add_sample (acc : Spectrum) (x : option Spectrum) : Spectrum := match x with Some v => sadd acc v | None => acc end.
  (** the samples of a list of lights, in order: n for each *)
  Inductive samples_of (fuel : nat) (s : Scene) (m : Material) (r : Ray) (p normal e1 e2 : Vec) (n : nat) : list Object -> list (option Spectrum) -> Prop :=
  | so_nil : samples_of fuel s m r p normal e1 e2 n [] []
  | so_cons l ls xs ys : length xs = n -> Forall (light_sample fuel s m r p normal e1 e2 n l) xs ->
      samples_of fuel s m r p normal e1 e2 n ls ys -> samples_of fuel s m r p normal e1 e2 n (l :: ls) (xs ++ ys).
  (** the light that arrives straight from the lights at the surface point of r: n samples per light *)
  Definition direct_light (fuel : nat) (s : Scene) (m : Material) (r : Ray) (n : nat) (li : Spectrum) : Prop :=
    let '(pt, normal, e1, e2) := get_triad r in
    let p := vadd pt (vscale normal (flit 1 1000)) in
    exists near far, samples_of fuel s m r p normal e1 e2 n (sc_lights s) near /\ samples_of fuel s m r p normal e1 e2 n (sc_distant_lights s) far /\
      li = sadd (fold_left add_sample near BLACK) (fold_left add_sample far BLACK).

  (** ** the first surface *)
  Variables (fuel : nat) (c : Tracer) (s : Scene).
  Definition meets_nothing (r : Ray) : Prop := exists aux r1 aux', cast_ray fuel s r aux = Ret (None, r1, aux').
  (** r1 is r with the data of the hit *)
  Definition meets (r : Ray) (i : nat) (r1 : Ray) : Prop := exists z aux aux', cast_ray fuel s r aux = Ret (Some z, r1, aux') /\ i = Z.to_nat z.
  Definition side_hit (r1 : Ray) : SurfaceSide := i_side (x_shading (r_interaction r1)).
  (** the material of the side that was hit *)
  Definition facing (r1 : Ray) (i : nat) (m : Material) : Prop :=
    exists k, nth_error (sc_materials s) k = Some m /\
      ((side_hit r1 = Front /\ nth_error (a_front (sc_arrays s)) i = Some k) \/ (side_hit r1 = Back /\ nth_error (a_back (sc_arrays s)) i = Some k)).
  (** the normal used for shading is interpolated from the normals of the three corners *)
  Definition shaded (r1 : Ray) (i : nat) (r2 : Ray) : Prop :=
    exists normals, nth_error (a_norm (sc_arrays s)) i = Some normals /\ r2 = set_shading r1 (interpolate_normal (x_shading (r_interaction r1)) normals).
  Definition point_of (r : Ray) : Vec := x_point (r_interaction r).
  Definition normal_of (r : Ray) : Vec := i_normal (x_shading (r_interaction r)).
  Definition deeper (r : Ray) : Ray := set_depth r (S (r_depth r)).
  Definition sky_tint : Spectrum := match sc_sky_colour s with Some k => k | None => gray f1 end.
  Definition shines (m : Material) : Prop := exists col, m = Light col.
  Definition reflects_only (m : Material) : Prop := (exists col, m = Mirror col) \/ (exists col n, m = Dielectric col n) \/ (exists col n, m = Glass col n).
  Definition matte_or_glossy (m : Material) : Prop := (exists col sp ro, m = Plastic col sp ro) \/ (exists col sp ro, m = Metal col sp ro).
  Definition average (xs : list Spectrum) : Spectrum :=
    match xs with [] => BLACK | _ => sdivf (fold_left sadd xs BLACK) (fofZ (Z.of_nat (length xs))) end.

  Inductive sees : Ray -> Spectrum -> F -> Prop :=
  | sees_darkness r : meets_nothing r -> sc_sky s = None -> sees r BLACK f0
  | sees_sky r sky : meets_nothing r -> sc_sky s = Some sky ->
      sees r (smulf sky_tint (sky (direction (r_geometry r)))) (f1 / f2 / fpi)
  | sees_edge r i r1 : meets r i r1 -> side_hit r1 = NonApplicable -> sees r BLACK f0
  | sees_light r i r1 col t : meets r i r1 -> facing r1 i (Light col) -> nth_error (a_tri (sc_arrays s)) i = Some t ->
      sees r col (triangle_solid_angle_pdf t (point_of r1) (normal_of r1) (r_geometry r))
  | sees_too_far r i r1 m : meets r i r1 -> facing r1 i m -> ~ shines m -> (max_depth c < r_depth r)%nat -> sees r BLACK f0
  (** the sum over the (at most two) paths; whether a path counts as a bounce is drawn *)
  | sees_through r i r1 r2 m p1 p2 xs1 xs2 : meets r i r1 -> facing r1 i m -> reflects_only m -> (r_depth r <= max_depth c)%nat -> shaded r1 i r2 ->
      get_possible_paths m (normal_of r1) (point_of r1) r2 = Ret (p1, p2) -> brings p1 xs1 -> brings p2 xs2 ->
      sees r (fold_left sadd (xs1 ++ xs2) BLACK) f0
  (** direct light plus the average of the ambient samples *)
  | sees_surface r i r1 r2 r3 m n q direct xs : meets r i r1 -> facing r1 i m -> matte_or_glossy m -> (r_depth r <= max_depth c)%nat -> shaded r1 i r2 ->
      get_n_ambient_samples r2 (n_ambient_samples c) (max_depth c) (limit_weight c) q = (n, r3) ->
      direct_light fuel s m r3 (if Nat.eqb (r_depth r) 0 then n_shadow_samples c else 1%nat) direct ->
      length xs = n -> Forall (ambient r3 m) xs ->
      sees r (sadd direct (average xs)) f0
  (** what arrives along a path, filtered by the path *)
  with brings : Path -> list Spectrum -> Prop :=
  | brings_none : brings None []
  | brings_some q v q' l pdf : q' = q \/ q' = deeper q -> sees q' l pdf -> brings (Some (q, v)) [smul l v]
  (** an ambient sample: a direction drawn from the material that does not end at a light (or the sky), weighted by reflectance,
      cosine and density *)
  with ambient : Ray -> Material -> Spectrum -> Prop :=
  | ambient_sample r m g bsdf pdf r' g' l lp :
      sample_bsdf_draw fuel m (normal_of r) (i_dpdu (x_shading (r_interaction r))) (i_dpdv (x_shading (r_interaction r))) (point_of r) r g = Ret (bsdf, pdf, r', g') ->
      let cosine := fabs (vdot (normal_of r) (direction (r_geometry r'))) in
      sees (set_value (deeper r') (r_value r' * (radiance bsdf * cosine / pdf))) l lp -> (lp >? f0) = false ->
      ambient r m (sdivf (smulf (smul l bsdf) cosine) pdf).
End SpecTracer.
