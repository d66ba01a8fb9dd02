(** * SpecGeom: elementary vocabulary for the geometric properties, in plain real arithmetic.
      Nothing here refers to the model's computations, only to its data types. *)
From Verif Require Import NumR Geometry Triangle.
Open Scope R_scope.

Notation VecR := (@Vec NumR).
Notation TriR := (@Triangle NumR).
Notation RayR := (@Ray3D NumR).
Notation BoxR := (@BBox NumR).
Definition pt (x y z : R) : VecR := V3 (N := NumR) x y z.

Definition dot (a b : VecR) : R := vx a * vx b + vy a * vy b + vz a * vz b.
Definition norm (a : VecR) : R := sqrt (dot a a).
Definition unit (a : VecR) : Prop := dot a a = 1.
Definition minus (a b : VecR) : VecR := pt (vx a - vx b) (vy a - vy b) (vz a - vz b).
Definition plus (a b : VecR) : VecR := pt (vx a + vx b) (vy a + vy b) (vz a + vz b).
Definition times (k : R) (a : VecR) : VecR := pt (k * vx a) (k * vy a) (k * vz a).
Definition cross (a b : VecR) : VecR :=
  pt (vy a * vz b - vz a * vy b) (vz a * vx b - vx a * vz b) (vx a * vy b - vy a * vx b).
Definition dist2 (a b : VecR) : R := dot (minus a b) (minus a b).
Definition dist (a b : VecR) : R := norm (minus a b).

(** the point at parameter s along a ray *)
Definition along (r : RayR) (s : R) : VecR := plus (origin r) (times s (direction r)).
(** barycentric combination of the three vertices *)
Definition bary (t : TriR) (u v : R) : VecR :=
  plus (times (1 - u - v) (ta t)) (plus (times u (tb t)) (times v (tc t))).
(** p belongs to the (closed) triangle *)
Definition on_triangle (t : TriR) (p : VecR) : Prop :=
  exists u v, 0 <= u /\ 0 <= v /\ u + v <= 1 /\ p = bary t u v.
(** triple product (direction, edge2, edge1): the volume the intersection test divides by *)
Definition volume (r : RayR) (t : TriR) : R :=
  dot (minus (tb t) (ta t)) (cross (direction r) (minus (tc t) (ta t))).
(** p lies in the closed box *)
Definition in_box (b : BoxR) (p : VecR) : Prop :=
  vx (bmin b) <= vx p <= vx (bmax b) /\ vy (bmin b) <= vy p <= vy (bmax b) /\ vz (bmin b) <= vz p <= vz (bmax b).
Definition translate (d : VecR) (t : TriR) : TriR := mkTri (plus (ta t) d) (plus (tb t) d) (plus (tc t) d).
(** machine epsilon of binary64, the tolerance of the intersection test *)
Definition epsilon : R := / 2 ^ 52.
