(** * Triangle: model of /repo/src/triangle.rs (intersection, area, bounds, meshing) and of
      /repo/src/interaction.rs:61-75 *)
From Verif Require Export Num Geometry.

Section Triangle.
  Context {N : Num}.
  Local Open Scope num_scope.

  (* triangle.rs:8 `[Float; 9]`: the vertices a = t[0..3], b = t[3..6], c = t[6..9] *)
  Record Triangle := mkTri { ta : Vec; tb : Vec; tc : Vec }.

  (* triangle.rs:10-38 (Heron); `powi(2)` is x*x *)
  Definition sq (x : F) : F := x * x.
  Definition side_len (p q : Vec) : F :=
    fsqrt (sq (vx q - vx p) + sq (vy q - vy p) + sq (vz q - vz p)).
  Definition triangle_area (t : Triangle) : F :=
    let ab := side_len (ta t) (tb t) in
    let bc := side_len (tb t) (tc t) in
    let ca := side_len (tc t) (ta t) in
    fsqrt ((ca + bc + ab) * ((ca + bc + ab) / f2 - ab) * ((ca + bc + ab) / f2 - bc)
             * ((ca + bc + ab) / f2 - ca) / f2).

  (* triangle.rs:40-55; also primitive_samplers.rs (same body).  `ray.origin * normal` is a dot product of a
     POINT with the normal (the code does not use the ray's direction). *)
  Definition triangle_solid_angle_pdf (t : Triangle) (point normal : Vec) (ray : Ray3D) : F :=
    let d2 := vlen2 (vsub point (origin ray)) in
    let cos_theta := vdot (origin ray) normal in
    if cos_theta <? flit 1 10000000 then f0
    else d2 / fabs cos_theta / triangle_area t.

  (* triangle.rs:58-67 *)
  Definition world_bounds (t : Triangle) : BBox :=
    box_union_point (box_union_point (box_point (ta t)) (tb t)) (tc t).

  (* triangle.rs:213-272.  [EPS] = Float::EPSILON = 2^-52; TINY = 1e-5.  The array helpers dot/cross
     (triangle.rs:186-207) are vdot/vcross.  `(-EPS..=1+EPS).contains(&u)` is -EPS <= u && u <= 1+EPS. *)
  Definition EPS : F := flit 1 (2 ^ 52).
  Definition TINY5 : F := flit 1 100000.
  Definition baricentric_coordinates (ray : Ray3D) (t : Triangle) : option (Vec * F * F) :=
    let edge1 := vsub (tb t) (ta t) in
    let edge2 := vsub (tc t) (ta t) in
    let d := direction ray in
    let h := vcross d edge2 in
    let a := vdot edge1 h in
    if fabs a <? TINY5 then None else
    let f := f1 / a in
    let s := vsub (origin ray) (ta t) in
    let u := f * vdot s h in
    if negb ((- EPS <=? u) && (u <=? f1 + EPS)) then None else
    let q := vcross s edge1 in
    let v := f * vdot d q in
    if (u + v >? f1 + EPS) || (v <? - EPS) then None else
    let t' := f * vdot edge2 q in
    if t' >? TINY5 then Some (project ray t', u, v) else None.

  (* geometry3d IntersectionInfo, the fields written by new_info (dndu, dndv are constant zero) *)
  Record IntersectionInfo := mkInfo {
    i_p : Vec; i_dpdu : Vec; i_dpdv : Vec; i_normal : Vec; i_side : SurfaceSide; i_u : F; i_v : F }.

  (* triangle.rs:348-389 (the debug_assert!s are not modelled: release build) *)
  Definition new_info (t : Triangle) (point : Vec) (u v : F) (ray_dir : Vec) : IntersectionInfo :=
    let dpdu := vsub (tb t) (ta t) in
    let dpdv := vsub (tc t) (ta t) in
    let normal := vnormalized (vcross dpdu dpdv) in
    let '(normal, side) := get_side normal ray_dir in
    let e1 := vnormalized dpdu in
    let e2 := vnormalized (vcross normal e1) in
    mkInfo point e1 e2 normal side u v.

  (* triangle.rs:276-291 *)
  Definition triangle_intersect (t : Triangle) (ray : Ray3D) : option IntersectionInfo :=
    match baricentric_coordinates ray t with
    | Some (p, u, v) => Some (new_info t p u v (direction ray))
    | None => None
    end.

  (* triangle.rs:295-312 *)
  Definition simple_triangle_intersect (t : Triangle) (ray : Ray3D) : option Vec :=
    match baricentric_coordinates ray t with Some (p, _, _) => Some p | None => None end.

  (* interaction.rs:61-75 *)
  Definition interpolate_normal (g : IntersectionInfo) (n : Vec * Vec * Vec) : IntersectionInfo :=
    let '(n0, n1, n2) := n in
    let u := i_u g in
    let v := i_v g in
    let m := vnormalized (vadd (vadd (vscale n0 u) (vscale n1 v)) (vscale n2 (f1 - u - v))) in
    let m := if side_eqb (i_side g) Back then vscale m (- f1) else m in
    mkInfo (i_p g) (i_dpdu g) (i_dpdv g) m (i_side g) (i_u g) (i_v g).

  (* triangle.rs:393-415 *)
  Definition mesh_triangle (t : Triangle) : list Triangle * list (Vec * Vec * Vec) :=
    let s1 := vsub (tb t) (ta t) in
    let s2 := vsub (tc t) (ta t) in
    let normal := vnormalized (vcross s1 s2) in
    ([mkTri (ta t) (tb t) (tc t)], [(normal, normal, normal)]).
End Triangle.
