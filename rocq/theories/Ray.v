(** * Ray: model of /repo/src/ray.rs and the data of /repo/src/interaction.rs *)
From Verif Require Export Num Geometry Triangle Colour.

Section Ray.
  Context {N : Num}.
  Local Open Scope num_scope.

  (* interaction.rs:28-44 *)
  Record Interaction := mkInter { x_point : Vec; x_wo : Vec; x_shading : IntersectionInfo }.

  (* ray.rs:30-49 *)
  Record Ray := mkRay {
    r_geometry : Ray3D;
    r_refraction_index : F;
    r_interaction : Interaction;
    r_depth : nat;
    r_value : F;
    r_colour : Spectrum }.

  (* ray.rs:51-65; Interaction::default and IntersectionInfo::default (geometry3d) are all-zero *)
  Definition vzero : Vec := V3 f0 f0 f0.
  Definition ray_default : Ray :=
    mkRay (mkRay3D vzero vzero) f1 (mkInter vzero vzero (mkInfo vzero vzero vzero vzero NonApplicable f0 f0)) 0 f1 ONE.
  (* ray.rs:81-87 get_triad: point, normal, e1, e2 of the last interaction *)
  Definition get_triad (r : Ray) : Vec * Vec * Vec * Vec :=
    (x_point (r_interaction r), i_normal (x_shading (r_interaction r)),
     i_dpdu (x_shading (r_interaction r)), i_dpdv (x_shading (r_interaction r))).

  (* field updates used throughout *)
  Definition set_geometry (r : Ray) (g : Ray3D) : Ray :=
    mkRay g (r_refraction_index r) (r_interaction r) (r_depth r) (r_value r) (r_colour r).
  Definition set_refraction (r : Ray) (n : F) : Ray :=
    mkRay (r_geometry r) n (r_interaction r) (r_depth r) (r_value r) (r_colour r).
  Definition set_interaction (r : Ray) (i : Interaction) : Ray :=
    mkRay (r_geometry r) (r_refraction_index r) i (r_depth r) (r_value r) (r_colour r).
  Definition set_depth (r : Ray) (d : nat) : Ray :=
    mkRay (r_geometry r) (r_refraction_index r) (r_interaction r) d (r_value r) (r_colour r).
  Definition set_value (r : Ray) (v : F) : Ray :=
    mkRay (r_geometry r) (r_refraction_index r) (r_interaction r) (r_depth r) v (r_colour r).
  Definition set_colour (r : Ray) (c : Spectrum) : Ray :=
    mkRay (r_geometry r) (r_refraction_index r) (r_interaction r) (r_depth r) (r_value r) c.
  Definition set_shading (r : Ray) (g : IntersectionInfo) : Ray :=
    set_interaction r (mkInter (x_point (r_interaction r)) (x_wo (r_interaction r)) g).

  (* ray.rs:90-115.  [draw] is the value `rng.gen()` would return if it is called. *)
  Definition get_n_ambient_samples (r : Ray) (max_ambient_samples max_depth : nat) (limit_weight draw : F)
    : nat * Ray :=
    if Nat.eqb max_depth 0 || Nat.eqb max_ambient_samples 0 then (0, r)
    else if Nat.eqb (r_depth r) 0 then (max_ambient_samples, r)
    else if draw >? r_value r / limit_weight then (0, set_value r limit_weight)
    else (1, r).
End Ray.
