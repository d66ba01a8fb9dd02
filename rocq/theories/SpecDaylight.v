(** * SpecDaylight: what a traced ray sends to the bins of the sky (any arithmetic)

    [spreads r ds r']: the ray r ends up sending the amounts ds (each with its bin) to the sky, and is left as r'.  As in SpecTracer,
    which directions are drawn is left open, and the first surface, the reflectances and the paths are used by name. *)
From Verif Require Import Num Geometry Triangle Sphere Colour ColourMatrix Ray Bvh Material Scene Samplers Primitives RayTracer SpecTracer Daylight.

Section SpecDaylight.
  Context {N : Num} {T : Trig N} {E : Ext} {RG : Gen N} {O : Geo}.
  Local Open Scope num_scope.
  Variables (fuel : nat) (d : DCFactory) (s : Scene).
  Definition Deposit : Type := nat * Spectrum.
  Definition escapes (r r1 : Ray) : Prop := exists aux aux', cast_ray fuel s r aux = Ret (None, r1, aux').
  (** an escaped ray gives its colour, divided by the number of primary rays, to the bin of its direction *)
  Definition gift (r : Ray) : Deposit :=
    (dir_to_bin (dc_reinhart d) (direction (r_geometry r)), sdivf (smul ONE (r_colour r)) (fofZ (Z.of_nat (dc_n_ambient_samples d)))).

  Inductive spreads : Ray -> list Deposit -> Ray -> Prop :=
  | spreads_sky r r1 : escapes r r1 -> spreads r [gift r1] r1
  | spreads_too_far r i r1 : meets fuel s r i r1 -> (dc_max_depth d < r_depth r)%nat -> spreads r [] r1
  | spreads_edge r i r1 : meets fuel s r i r1 -> (r_depth r <= dc_max_depth d)%nat -> side_hit r1 = NonApplicable -> spreads r [] r1
  | spreads_light r i r1 m : meets fuel s r i r1 -> (r_depth r <= dc_max_depth d)%nat -> facing s r1 i m -> shines m -> spreads r [] r1
  | spreads_through r i r1 r2 m p1 p2 ds1 ds2 : meets fuel s r i r1 -> facing s r1 i m -> reflects_only m -> (r_depth r <= dc_max_depth d)%nat ->
      shaded s r1 i r2 -> get_possible_paths m (normal_of r1) (point_of r1) r2 = Ret (p1, p2) -> sends p1 ds1 -> sends p2 ds2 ->
      spreads r (ds1 ++ ds2) r2
  | spreads_surface r i r1 r2 r3 r4 m n q ds : meets fuel s r i r1 -> facing s r1 i m -> matte_or_glossy m -> (r_depth r <= dc_max_depth d)%nat ->
      shaded s r1 i r2 -> get_n_ambient_samples r2 (dc_n_ambient_samples d) (dc_max_depth d) (dc_limit_weight d) q = (n, r3) ->
      bounces m r2 n r3 ds r4 -> spreads r ds r4
  (** along a path the ray's colour is multiplied by the weight of the path; whether it counts as a bounce is drawn *)
  with sends : Path -> list Deposit -> Prop :=
  | sends_none : sends None []
  | sends_some q v q1 q2 ds r' : q1 = set_value (set_colour q (smul (r_colour q) v)) (r_value q * radiance v) ->
      q2 = q1 \/ q2 = deeper q1 -> spreads q2 ds r' -> sends (Some (q, v)) ds
  (** n bounces at the surface point of [at_], one after the other: each one multiplies the colour by reflectance x cosine / density and
      is one deeper than the ray that is left by the bounce before it *)
  with bounces : Material -> Ray -> nat -> Ray -> list Deposit -> Ray -> Prop :=
  | bounces_done m at_ r : bounces m at_ 0 r [] r
  | bounces_more m at_ n r g bsdf pdf r1 g' r2 r3 ds1 ds2 : 
      sample_bsdf_draw fuel m (normal_of at_) (i_dpdu (x_shading (r_interaction at_))) (i_dpdv (x_shading (r_interaction at_))) (point_of at_) r g = Ret (bsdf, pdf, r1, g') ->
      let cosine := fabs (vdot (normal_of at_) (direction (r_geometry r1))) in
      spreads (deeper (set_colour r1 (smul (r_colour r1) (sdivf (smulf bsdf cosine) pdf)))) ds1 r2 ->
      bounces m at_ n r2 ds2 r3 -> bounces m at_ (S n) r (ds1 ++ ds2) r3.

  (** what bin j has after some deposits *)
  Definition given (j : nat) (ds : list Deposit) (before : Spectrum) : Spectrum :=
    fold_left sadd (map snd (filter (fun x => Nat.eqb (fst x) j) ds)) before.
  (** a ray from a sensor towards a direction given in the sensor's frame (third axis: the sensor's direction) *)
  Definition leaves (ray : Ray3D) (e2 l : Vec) (r : Ray) : Prop :=
    let n := direction ray in let e1 := vcross e2 n in
    origin (r_geometry r) = origin ray /\
    direction (r_geometry r) = V3 (f0 + vx l * vx e1 + vy l * vx e2 + vz l * vx n) (f0 + vx l * vy e1 + vy l * vy e2 + vz l * vy n) (f0 + vx l * vz e1 + vy l * vz e2 + vz l * vz n) /\
    r_colour r = gray fpi /\ r_depth r = 0%nat /\ r_value r = f1.
End SpecDaylight.
