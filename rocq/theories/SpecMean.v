(** * SpecMean: means over the draws, and integrals over directions and surfaces
      Integrals are Coquelicot's Riemann integrals ([is_RInt f a b I]: the integral of f from a to b exists and is I). *)
From Coquelicot Require Import Coquelicot.
From Verif Require Import NumR Geometry Triangle SpecGeom.
Open Scope R_scope.

(** the mean of a quantity that depends on two numbers drawn uniformly and independently from [0,1) *)
Definition mean_is (f : R -> R -> R) (I : R) : Prop :=
  exists inner, (forall v, 0 < v < 1 -> is_RInt (fun u => f u v) 0 1 (inner v)) /\ is_RInt inner 0 1 I.
(** the same, the second number being integrated first *)
Definition mean_is' (f : R -> R -> R) (I : R) : Prop :=
  exists inner, (forall u, 0 < u < 1 -> is_RInt (fun v => f u v) 0 1 (inner u)) /\ is_RInt inner 0 1 I.

(** the direction at angle theta from n, and at azimuth phi (counted from e2 towards e1) *)
Definition towards (e1 e2 n : VecR) (theta phi : R) : VecR :=
  plus (times (sin theta * sin phi) e1) (plus (times (sin theta * cos phi) e2) (times (cos theta) n)).
(** the integral over the hemisphere around n, with respect to solid angle *)
Definition hemisphere_integral (e1 e2 n : VecR) (f : VecR -> R) (I : R) : Prop :=
  exists inner, (forall phi, 0 < phi < 2 * PI -> is_RInt (fun theta => f (towards e1 e2 n theta phi) * sin theta) 0 (PI / 2) (inner phi)) /\ is_RInt inner 0 (2 * PI) I.
(** the integral over the disc of radius r around c spanned by e1, e2, with respect to area *)
Definition disc_integral (e1 e2 c : VecR) (r : R) (f : VecR -> R) (I : R) : Prop :=
  exists inner, (forall phi, 0 < phi < 2 * PI -> is_RInt (fun rho => f (plus c (plus (times (rho * sin phi) e1) (times (rho * cos phi) e2))) * rho) 0 r (inner phi)) /\ is_RInt inner 0 (2 * PI) I.
