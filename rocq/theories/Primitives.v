(** * Primitives: model of /repo/src/primitive_samplers.rs and /repo/src/primitive.rs, with an explicit random generator *)
From Verif Require Export Num Geometry Triangle Sphere Colour Ray Bvh Material Scene Samplers.

(** The random generator (rand.rs:25-28): [gen] models `rng.gen()`, one number and the next state.  Both `f32` and `f64` draws
    are modelled by the one float type; a pair is drawn as two successive numbers. *)
Class Gen (N : Num) := { G : Type; gen : G -> F * G }.

Section Primitives.
  Context {N : Num} {T : Trig N} {R : Gen N}.
  Local Open Scope num_scope.

  (** External (crate geometry3d): direction predicates, a perpendicular of a vector (`get_perpendicular`, an error for a zero
      vector), the intersection of a ray with an exact primitive and the area of a Triangle3D. *)
  Class Geo := {
    is_parallel : Vec -> Vec -> bool;
    is_same_direction : Vec -> Vec -> bool;
    get_perpendicular : Vec -> option Vec;
    prim_intersect : Primitive -> Ray3D -> option IntersectionInfo;   (* primitive.rs:64-71 dispatches to geometry3d *)
    triangle3d_area : Triangle -> F
  }.
  Context {O : Geo}.

  (* primitive_samplers.rs:33-36 *)
  Definition uniform_cone_pdf (cos_theta : F) : F := f1 / (f2 * fpi * (f1 - cos_theta)).

  (* primitive_samplers.rs:40-42 with samplers.rs:26: two draws *)
  Definition sample_triangle_surface (t : Triangle) (g : G) : Vec * G :=
    let '(rand1, g) := gen g in
    let '(rand2, g) := gen g in
    (uniform_sample_triangle rand1 rand2 (ta t) (tb t) (tc t), g).
  (* primitive_samplers.rs:44-51; `triangle.a() + triangle.b() + triangle.c()` *)
  Definition triangle_direction (t : Triangle) (point : Vec) : F * Vec :=
    let centroid := vscale (vadd (vadd (ta t) (tb t)) (tc t)) (f1 / fofZ 3) in
    let direction := vsub centroid point in
    let l := vlen direction in
    (l, vdivs direction l).
  (* primitive_samplers.rs:53-67.  As in triangle.rs, the cosine is the dot product of the ray's ORIGIN with the normal. *)
  Definition light_triangle_pdf (t : Triangle) (info : IntersectionInfo) (ray : Ray3D) : F :=
    let d2 := vlen2 (vsub (i_p info) (origin ray)) in
    let cos_theta := vdot (origin ray) (i_normal info) in
    if cos_theta <? flit 1 10000000 then f0
    else d2 / fabs cos_theta / triangle3d_area t.

  (* primitive_samplers.rs:73-79 *)
  Definition sphere_solid_angle_pdf (s : Sphere3D) (ray : Ray3D) : F :=
    let d2 := vlen2 (vsub (s_centre s) (origin ray)) in
    let sin_theta_2 := s_radius s * s_radius s / d2 in
    let cos_theta := fsqrt (fclamp (f1 - sin_theta_2) f0 f1) in
    uniform_cone_pdf cos_theta.
  (* primitive_samplers.rs:81-85 *)
  Definition sphere_direction (s : Sphere3D) (point : Vec) : F * Vec :=
    let direction := vsub (s_centre s) point in
    let t := vlen direction in
    (t - s_radius s, vdivs direction t).
  (* primitive_samplers.rs:87-105; mul_add is a product followed by a sum (its single rounding is not modelled) *)
  Definition sample_sphere_surface (s : Sphere3D) (g : G) : Vec * G :=
    let '(rand1, g) := gen g in
    let '(rand2, g) := gen g in
    let p := uniform_sample_sphere rand1 rand2 in
    let k := s_radius s * (f1 - flit 1 100000) in
    (V3 (vx p * k + vx (s_centre s)) (vy p * k + vy (s_centre s)) (vz p * k + vz (s_centre s)), g).

  (* primitive_samplers.rs:113-120; DistantSource3D::cos_half_alpha is the cosine of half its angle (geometry3d) *)
  Definition cos_half_alpha (s : DistantSource3D) : F := fcos (ds_angle s / f2).
  Definition source_solid_angle_pdf (s : DistantSource3D) : F := uniform_cone_pdf (cos_half_alpha s).
  (* primitive_samplers.rs:123-125 *)
  Definition source_direction (s : DistantSource3D) : F * Vec := (FMAX - f1, ds_direction s).

  (* primitive.rs:86-93 *)
  Definition solid_angle_pdf (p : Primitive) (info : IntersectionInfo) (ray : Ray3D) : outcome F :=
    match p with
    | PSphere s => Ret (sphere_solid_angle_pdf s ray)
    | PTriangle t => Ret (light_triangle_pdf t info ray)
    | PCylinder _ => Crash                                             (* unimplemented!() *)
    | PSource s => Ret (source_solid_angle_pdf s)
    end.
  (* primitive.rs:95-102 *)
  Definition prim_direction (p : Primitive) (point : Vec) : outcome (F * Vec) :=
    match p with
    | PSphere s => Ret (sphere_direction s point)
    | PTriangle t => Ret (triangle_direction t point)
    | PCylinder _ => Crash
    | PSource s => Ret (source_direction s)
    end.
  (* primitive.rs:108-112 with samplers.rs:186-207: a point of a disc facing the source, at distance one *)
  Definition sample_source_disc (s : DistantSource3D) (point : Vec) (g : G) : outcome (Vec * G) :=
    let radius := ftan (ds_angle s / f2) in
    let normal := vnormalized (ds_direction s) in
    let '(r, g) := gen g in
    let '(theta, g) := gen g in
    match get_perpendicular normal with
    | Some e => Ret (uniform_sample_disc (fun _ => e) r theta radius (vadd point normal) normal, g)
    | None => Crash                                                    (* unwrap() *)
    end.
  (* primitive.rs:104-117 *)
  Definition sample_direction (p : Primitive) (g : G) (point : Vec) : outcome (Vec * G) :=
    run (surface_point, g) <-
      match p with
      | PSphere s => Ret (sample_sphere_surface s g)
      | PTriangle t => Ret (sample_triangle_surface t g)
      | PCylinder _ => Crash
      | PSource s => sample_source_disc s point g
      end ;;
    Ret (vnormalized (vsub surface_point point), g).
End Primitives.
