(** * Geometry: the part of the external crate `geometry3d` that the renderer calls.

    These are *not* in /repo (dependency `geometry3d`, Cargo.toml); they model its documented
    behaviour: points and vectors with component-wise operations, rays, axis-aligned boxes.
    Points and vectors share one Coq type. *)
From Verif Require Export Num.

Section Geometry.
  Context {N : Num}.
  Local Open Scope num_scope.

  Record Vec := V3 { vx : F; vy : F; vz : F }.

  Definition vadd (a b : Vec) : Vec := V3 (vx a + vx b) (vy a + vy b) (vz a + vz b).
  Definition vsub (a b : Vec) : Vec := V3 (vx a - vx b) (vy a - vy b) (vz a - vz b).
  Definition vscale (a : Vec) (k : F) : Vec := V3 (vx a * k) (vy a * k) (vz a * k).
  Definition vdivs (a : Vec) (k : F) : Vec := V3 (vx a / k) (vy a / k) (vz a / k).
  (* `*` between two vectors (or a point and a vector) is the dot product in geometry3d *)
  Definition vdot (a b : Vec) : F := vx a * vx b + vy a * vy b + vz a * vz b.
  Definition vcross (a b : Vec) : Vec :=
    V3 (vy a * vz b - vz a * vy b) (vz a * vx b - vx a * vz b) (vx a * vy b - vy a * vx b).
  Definition vlen2 (a : Vec) : F := vx a * vx a + vy a * vy a + vz a * vz a.
  Definition vlen (a : Vec) : F := fsqrt (vlen2 a).
  Definition vnormalized (a : Vec) : Vec := vdivs a (vlen a).

  Record Ray3D := mkRay3D { origin : Vec; direction : Vec }.
  (* Ray3D::project *)
  Definition project (r : Ray3D) (t : F) : Vec := vadd (origin r) (vscale (direction r) t).

  (* intersection::SurfaceSide and SurfaceSide::get_side: the normal is turned towards the ray;
     Front when it already faced it. *)
  Inductive SurfaceSide := Front | Back | NonApplicable.
  Definition side_eqb (a b : SurfaceSide) : bool :=
    match a, b with Front, Front | Back, Back | NonApplicable, NonApplicable => true | _, _ => false end.
  Definition get_side (normal ray_dir : Vec) : Vec * SurfaceSide :=
    let d := vdot normal ray_dir in
    if d <? f0 then (normal, Front)
    else if d >? f0 then (vscale normal (- f1), Back)
    else (normal, NonApplicable).

  (* BBox3D *)
  Record BBox := mkBox { bmin : Vec; bmax : Vec }.
  Definition box_point (p : Vec) : BBox := mkBox p p.                  (* from_point *)
  Definition vmin (a b : Vec) : Vec := V3 (fminb (vx a) (vx b)) (fminb (vy a) (vy b)) (fminb (vz a) (vz b)).
  Definition vmax (a b : Vec) : Vec := V3 (fmaxb (vx a) (vx b)) (fmaxb (vy a) (vy b)) (fmaxb (vz a) (vz b)).
  Definition box_union (a b : BBox) : BBox := mkBox (vmin (bmin a) (bmin b)) (vmax (bmax a) (bmax b)).  (* from_union *)
  Definition box_union_point (a : BBox) (p : Vec) : BBox := mkBox (vmin (bmin a) p) (vmax (bmax a) p).  (* from_union_point *)
  Inductive Axis := AX | AY | AZ.
  Definition comp (a : Axis) (v : Vec) : F := match a with AX => vx v | AY => vy v | AZ => vz v end.
End Geometry.
