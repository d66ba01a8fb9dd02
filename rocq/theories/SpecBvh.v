(** * SpecBvh: what ray queries should answer, in terms of the scene's triangles only *)
From Coq Require Import Permutation.
From Verif Require Import NumR Geometry Triangle SpecGeom Bvh.
Open Scope R_scope.

(** largest finite binary64 number *)
Definition float_max : R := (2 ^ 53 - 1) * 2 ^ 971.
(** the ray crosses the closed triangle at parameter s, not grazing it (see C12), away from its origin *)
Definition crosses (ray : RayR) (t : TriR) (s : R) : Prop :=
  on_triangle t (along ray s) /\ 1 / 100000 <= Rabs (volume ray t) /\ 1 / 100000 < s.
(** the same with the intersection test's tolerance epsilon = 2^-52 on the barycentric coordinates *)
Definition touches (ray : RayR) (t : TriR) (s : R) : Prop :=
  1 / 100000 <= Rabs (volume ray t) /\ 1 / 100000 < s /\
  exists u v, along ray s = bary t u v /\ - epsilon <= u <= 1 + epsilon /\ - epsilon <= v /\ u + v <= 1 + epsilon.
(** squared distance from the ray's origin to its point at parameter s *)
Definition reach2 (ray : RayR) (s : R) : R := dist2 (along ray s) (origin ray).

(** closest-hit queries ignore what is nearer than sqrt(1e-7) *)
Definition in_sight (ray : RayR) (s : R) : Prop := 1 / 10000000 < reach2 ray s < float_max.
(** shadow queries ignore what is nearer than sqrt(1e-6) and what is at the requested distance up to 1e-4 (on squares) *)
Definition in_the_way (ray : RayR) (d2 s : R) : Prop :=
  1 / 1000000 < reach2 ray s /\ reach2 ray s + 1 / 1000000 < d2 /\ 1 / 10000 < Rabs (d2 - reach2 ray s).

(** bounding-box centre of a triangle, along an axis *)
Definition mid (a b : R) : R := (a + b) / 2.
Definition Rmin3 (a b c : R) : R := Rmin (Rmin a b) c.
Definition Rmax3 (a b c : R) : R := Rmax (Rmax a b) c.
Definition box_centre (ax : Axis) (t : TriR) : R :=
  mid (Rmin3 (comp ax (ta t)) (comp ax (tb t)) (comp ax (tc t))) (Rmax3 (comp ax (ta t)) (comp ax (tb t)) (comp ax (tc t))).
(** no 2^15 triangles have mutually (nearly) coinciding bounding-box centres *)
Definition uncrowded (ts : list TriR) : Prop :=
  forall crowd others, Permutation ts (crowd ++ others) ->
    (forall t t' ax, In t crowd -> In t' crowd -> Rabs (box_centre ax t - box_centre ax t') < 1 / 100000000) ->
    (Z.of_nat (length crowd) < 2 ^ 15)%Z.

(** [well_formed nodes prims i e p q]: positions i..e-1 of the node array hold, in depth-first order, a tree over
    the triangles p..q-1 of the triangle array.  A leaf holds its triangle range; an interior node has its first
    child right after it and records where its second child starts; every box encloses the triangles below it. *)
Definition encloses (b : BoxR) (prims : list TriR) (p q : nat) : Prop :=
  forall j t, (p <= j < q)%nat -> nth_error prims j = Some t -> in_box b (ta t) /\ in_box b (tb t) /\ in_box b (tc t).
Inductive well_formed (nodes : list (@FlatNode NumR)) (prims : list TriR) : nat -> nat -> nat -> nat -> Prop :=
| wf_leaf i p q n : nth_error nodes i = Some n -> (p < q <= length prims)%nat ->
    f_nprims n = Z.of_nat (q - p) -> f_next n = Z.of_nat p -> encloses (f_bounds n) prims p q ->
    well_formed nodes prims i (S i) p q
| wf_inner i j e p m q n : nth_error nodes i = Some n -> f_nprims n = 0%Z -> f_next n = Z.of_nat j ->
    encloses (f_bounds n) prims p q ->
    well_formed nodes prims (S i) j p m -> well_formed nodes prims j e m q ->
    well_formed nodes prims i e p q.
