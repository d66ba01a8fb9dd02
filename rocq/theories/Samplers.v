(** * Samplers: model of /repo/src/samplers.rs

    Random numbers are explicit arguments: [rand1], [rand2], ... are the values the calls to `rng.gen()` return (uniform
    in [0,1)).  The code computes parts of these functions in `f32`; here one float type is used for both (the theorems
    about this file are in real-number semantics).  Mixed.v has the same functions with the two types and the casts. *)
From Verif Require Export Num Geometry.

Section Samplers.
  Context {N : Num} {T : Trig N}.
  Local Open Scope num_scope.

  (* samplers.rs:25-39 *)
  Definition TINY8 : F := flit 1 100000000.
  Definition uniform_sample_triangle (rand1 rand2 : F) (a b c : Vec) : Vec :=
    let rand1 := fclamp rand1 TINY8 (f1 - TINY8) in
    let rand2 := fclamp rand2 TINY8 (f1 - TINY8) in
    let aux := fsqrt rand1 in
    let u := f1 - aux in
    let v := rand2 * aux in
    let v1 := vsub b a in
    let v2 := vsub c a in
    vadd (vadd a (vscale v1 u)) (vscale v2 v).

  (* samplers.rs:70-83 *)
  Definition uniform_sample_horizontal_disc (r theta : F) (radius : F) : F * F :=
    let r := radius * fsqrt r in
    let theta := f2 * fpi * theta in
    (r * fsin theta, r * fcos theta).

  (* samplers.rs:105-124 (the debug assertions are not modelled) *)
  Definition local_to_world (e1 e2 normal centre : Vec) (xl yl zl : F) : Vec :=
    V3 (vx centre + xl * vx e1 + yl * vx e2 + zl * vx normal)
       (vy centre + xl * vy e1 + yl * vy e2 + zl * vy normal)
       (vz centre + xl * vz e1 + yl * vz e2 + zl * vz normal).

  Definition vorigin : Vec := V3 f0 f0 f0.                   (* Point3D::new(0., 0., 0.) *)

  (* samplers.rs:128-133 *)
  Definition sample_cosine_weighted_horizontal_hemisphere (r theta : F) : Vec :=
    let '(lx, ly) := uniform_sample_horizontal_disc r theta f1 in
    let aux := fclamp (lx * lx + ly * ly) f0 f1 in
    V3 lx ly (fsqrt (f1 - aux)).

  (* samplers.rs:135-168 *)
  Definition uniform_sample_hemisphere (rand1 rand2 : F) (e1 e2 normal : Vec) : Vec :=
    let sq := fsqrt (f1 - rand1 * rand1) in
    let pie2 := f2 * fpi * rand2 in
    local_to_world e1 e2 normal vorigin (fcos pie2 * sq) (fsin pie2 * sq) rand1.

  (* samplers.rs:170-184 *)
  Definition TINY7 : F := flit 1 10000000.
  Definition uniform_sample_sphere (rand1 rand2 : F) : Vec :=
    let rand1 := fclamp rand1 TINY7 (f1 - TINY7) in
    let rand2 := fclamp rand2 TINY7 (f1 - TINY7) in
    let z := f1 - f2 * rand1 in
    let aux := fsqrt (f1 - z * z) in
    V3 (fcos (f2 * fpi * rand2) * aux) (fsin (f2 * fpi * rand2) * aux) z.

  (* samplers.rs:186-207.  `normal.get_perpendicular().unwrap()` (geometry3d) is the argument [perpendicular]. *)
  Definition uniform_sample_disc (perpendicular : Vec -> Vec) (r theta : F) (radius : F) (centre normal : Vec) : Vec :=
    let '(xl, yl) := uniform_sample_horizontal_disc r theta radius in
    let e2 := perpendicular normal in
    let e1 := vcross e2 normal in
    local_to_world e1 e2 normal centre xl yl f0.
End Samplers.
