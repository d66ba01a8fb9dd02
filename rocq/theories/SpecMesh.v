(** * SpecMesh: what a good triangle mesh of a sphere is *)
From Coq Require Import Permutation.
From Verif Require Import NumR Geometry Triangle SpecGeom.
Open Scope R_scope.

(** the directed sides of the triangles, in the order of their vertices *)
Definition sides {N : Num} (t : Triangle) : list (Vec * Vec) := [(ta t, tb t); (tb t, tc t); (tc t, ta t)].
Definition all_sides {N : Num} (ts : list Triangle) : list (Vec * Vec) := flat_map sides ts.
Definition reversed {A} (e : A * A) : A * A := (snd e, fst e).
(** no cracks: the sides can be paired, each with one running the opposite way *)
Definition watertight {N : Num} (ts : list Triangle) : Prop :=
  Permutation (all_sides ts) (map reversed (all_sides ts)).

(** the triangle's own normal (right-hand rule) points away from c, and the triangle is not degenerate *)
Definition faces_away (c : VecR) (t : TriR) : Prop :=
  0 < dot (minus (ta t) c) (cross (minus (tb t) c) (minus (tc t) c)).
Definition on_sphere (c : VecR) (r : R) (p : VecR) : Prop := dist p c = r.
Definition vertices (t : TriR) : list VecR := [ta t; tb t; tc t].
(** the unit vector from c to p *)
Definition outward (c p n : VecR) : Prop := unit n /\ minus p c = times (dist p c) n.
