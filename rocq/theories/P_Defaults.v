(** * Property C105: the defaults

    What `View::default()`, `RayTracer::default()`, `DCFactory::default()` and a fresh camera ray are, and that the defaults
    fit together: the default view is a proper one, and the default tracer stays inside the default ray buffer. *)
From Coq Require Import Reals Lra Lia List.
From Verif Require Import NumR Geometry Triangle Colour Ray Camera SpecGeom TriangleProofs CameraProofs P_Camera.
From Verif Require Import Bvh Material Scene Samplers Primitives RayTracer TracerSky SpecTracer SpecBvh SpecScene SceneProofs P_Bvh P_Tracer Daylight TracerProofs TracerSafe TracerLights TracerScenes.
Import ListNotations.
Open Scope R_scope.

(** the default camera stands at the origin, looks along +y, keeps +z up and sees 60 degrees; it satisfies the assumptions of C27 *)
Theorem C105_view : let v := @view_default NumR in
  view_point v = pt 0 0 0 /\ view_direction v = pt 0 1 0 /\ view_up v = pt 0 0 1 /\ field_of_view v = 60 /\ proper_view v.
Proof.
  assert (E1 : view_point (@view_default NumR) = pt 0 0 0) by (apply vec_ext; cbn; lra).
  assert (E2 : view_direction (@view_default NumR) = pt 0 1 0) by (apply vec_ext; cbn; lra).
  assert (E3 : view_up (@view_default NumR) = pt 0 0 1) by (apply vec_ext; cbn; lra).
  assert (E4 : field_of_view (@view_default NumR) = 60) by reflexivity.
  cbv zeta. repeat (split; [assumption|]). unfold proper_view. rewrite E2, E3. assert (U1 : unit (pt 0 1 0)) by (unfold unit, dot, pt; cbn [vx vy vz]; lra). assert (U2 : unit (pt 0 0 1)) by (unfold unit, dot, pt; cbn [vx vy vz]; lra). assert (O : dot (pt 0 1 0) (pt 0 0 1) = 0) by (unfold dot, pt; cbn [vx vy vz]; lra).
  split; [exact U1|]. split; [exact U2|]. split; [exact O|]. change (field_of_view (@view_default NumR)) with 60. lra.
Qed.
(** the pixel in the middle of an odd film looks straight ahead *)
Theorem C105_straight_ahead : forall n m, let f := mkFilm (2 * n + 1) (2 * m + 1) in
  pixel_ray view_default f (n, m) = mkRay3D (pt 0 0 0) (pt 0 1 0).
Proof.
  intros n m f. destruct C105_view as (E1 & E2 & E3 & E4 & HV). 
  destruct (C27_rays view_default f n m HV) as (U & HO & s & Hs & A). { split; cbn; lia. }
  destruct (pixel_ray view_default f (n, m)) as [o d]. cbn [origin direction] in *. rewrite E1 in HO. subst o. f_equal.
  rewrite E1, E2, E3, E4 in A.
  assert (X : (2 * INR n + 1) / INR (film_width f) - 1 = 0). { unfold f. cbn [film_width]. rewrite plus_INR, mult_INR. cbn [INR]. pose proof (pos_INR n). field. lra. }
  assert (Z : (INR (film_height f) - 2 * INR m - 1) / INR (film_width f) = 0). { unfold f. cbn [film_height film_width]. rewrite plus_INR, mult_INR. cbn [INR]. unfold Rdiv. apply Rmult_eq_0_compat_r. lra. }
  rewrite X, Z in A. set (k := / tan (60 * PI / 180 / 2)) in A.
  assert (K : 0 < k). { unfold k. apply Rinv_0_lt_compat. replace (60 * PI / 180 / 2) with (PI / 6) by field. rewrite tan_PI6. apply Rdiv_lt_0_compat; [lra|apply sqrt_lt_R0; lra]. }
  destruct d as [x y z]. unfold along, plus, times, pt, unit, dot, cross in *. cbn [vx vy vz origin direction] in *. injection A as A1 A2 A3.
  assert (x = 0) by (apply Rmult_eq_reg_l with s; lra). assert (z = 0) by (apply Rmult_eq_reg_l with s; lra). subst.
  assert (0 < y). { apply Rmult_lt_reg_l with s; [exact Hs|]. lra. }
  f_equal. apply Rmult_eq_reg_l with (y + 1); lra.
Qed.
(** a camera ray starts fresh, in every arithmetic *)
Theorem C105_fresh_ray : forall (N : Num) (T : Trig N) (c : Pinhole) p, let r := fst (gen_ray c p) in
  let nowhere := V3 f0 f0 f0 in
  r_depth r = 0%nat /\ r_value r = f1 /\ r_refraction_index r = f1 /\ r_colour r = mkS f1 f1 f1 /\
  r_interaction r = mkInter nowhere nowhere (mkInfo nowhere nowhere nowhere nowhere NonApplicable f0 f0) /\ snd (gen_ray c p) = f1.
Proof. intros. repeat split; reflexivity. Qed.
(** the numbers of the default tracer and of the default daylight-coefficient calculation *)
Theorem C105_settings : let c := @tracer_default NumR in
  max_depth c = 2%nat /\ n_shadow_samples c = 10%nat /\ n_ambient_samples c = 70%nat /\ limit_weight c = 1 / 1000 /\ count_specular_bounce c = 3 / 10 /\
  forall sky, let d := @dc_default NumR sky in dc_max_depth d = 0%nat /\ dc_n_ambient_samples d = 10%nat /\ dc_limit_weight d = 1 / 10000 /\ dc_count_specular_bounce d = 1 / 2.
Proof. cbv zeta. repeat split; reflexivity. Qed.
(** the default tracer, with the ray buffer rendering gives it, never panics (C45) *)
Theorem C105_default_tracer_safe : forall (E : @Ext NumR) (RG : Gen NumR) (O : @Geo NumR) h s0, externals_ok E -> perpendicular_ok ->
  play scene_new h = Ret s0 -> manageable s0 -> samplable h ->
  exists s, made h s /\ forall r g nest fuel, (2 * length (a_tri (sc_arrays s0)) <= fuel)%nat -> trace_ray nest fuel tracer_default s r helper_default g <> Crash.
Proof.
  intros E RG O h s0 HE HP HH HM HS. destruct (C45_in_bounds_partial E RG O h s0 HE HP HH HM HS) as (s & H1 & H2). exists s. split; [exact H1|].
  intros r g nest fuel Hf. apply H2; [cbn; lia|reflexivity|exact Hf].
Qed.
Print Assumptions C105_straight_ahead.
Print Assumptions C105_default_tracer_safe.
