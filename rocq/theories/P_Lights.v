(** * Properties C48 and C54: sampling the lights; panicking methods (real arithmetic) *)
From Coq Require Import Permutation.
From Verif Require Import NumR Geometry Triangle Sphere Colour Ray Bvh Material Scene Samplers Primitives RayTracer TracerProofs TracerSafe TracerSky SpecTracer TracerLights TracerScenes
  TracerCorridor TracerRefute TracerLone SpecGeom SpecBvh SpecScene SpecOptics TriangleProofs BvhProofs BvhReal BvhReal2 BvhQuery BvhExamples SceneProofs P_Triangle P_Bvh P_Tracer.
Open Scope R_scope.

(** ** C48 - one shadow ray *)
(** the density of a light of the scene's kinds (primitive.rs: spheres, triangles, distant sources) *)
Definition sampled_kind (p : @Primitive NumR) : Prop := forall c, p <> PCylinder c.
(** The answer for one shadow ray towards a light of a scene whose accelerator is up to date: nothing when the exact shape is missed;
    black when a triangle is in the way; otherwise the COLOUR of the material of the side that was hit, and the light's density. *)
Theorem C48_answer : forall (E : @Ext NumR) (RG : Gen NumR) (O : @Geo NumR) h s0, externals_ok E -> play scene_new h = Ret s0 -> manageable s0 ->
  exists s, made h s /\ forall (light : @Object NumR) (ray : RayR) nodes fuel mf mb,
    (2 * length (a_tri (sc_arrays s0)) <= fuel)%nat -> sampled_kind (ob_primitive light) ->
    nth_error (sc_materials s0) (ob_front light) = Some mf -> nth_error (sc_materials s0) (ob_back light) = Some mb ->
    exists res nodes', intersect_light fuel s light ray nodes = Ret (res, nodes') /\
    match prim_intersect (ob_primitive light) ray with
    | None => res = None
    | Some info =>
        let d2 := dist2 (origin ray) (i_p info) in
        ((exists t d, In t (a_tri (sc_arrays s)) /\ crosses ray t d /\ in_the_way ray d2 d) -> res = Some (BLACK, @f0 NumR)) /\
        (~ (exists t d, In t (a_tri (sc_arrays s)) /\ touches ray t d /\ in_the_way ray d2 d) ->
           exists pdf, solid_angle_pdf (ob_primitive light) info ray = Ret pdf /\
           match i_side info with
           | Front => res = Some (mat_colour mf, pdf)
           | Back => res = Some (mat_colour mb, pdf)
           | NonApplicable => res = Some (BLACK, @f0 NumR)
           end)
    end.
Proof.
  intros E RG O h s0 HE HP HM. destruct (rebuilt (HE := HE) h s0 HP HM) as (s & HB & E1 & _ & _ & _ & _ & _ & _ & _ & HQ).
  exists s. split; [exists s0; split; assumption|]. intros light ray nodes fuel mf mb Hf HK Hmf Hmb. destruct (HQ fuel Hf) as [_ HS].
  unfold intersect_light. destruct (prim_intersect (ob_primitive light) ray) as [info|]; [|eauto]. cbv zeta.
  change (@vlen2 NumR (vsub (origin ray) (i_p info))) with (dist2 (origin ray) (i_p info)). set (d2 := dist2 _ _).
  destruct (HS ray d2 nodes) as (cl & nd & -> & H1 & H2). cbn [obind].
  assert (SP : exists pdf, solid_angle_pdf (ob_primitive light) info ray = Ret pdf).
  { destruct (ob_primitive light) as [sp|t|cy|src]; cbn [solid_angle_pdf]; eauto. exfalso. eapply HK. reflexivity. }
  destruct SP as [pdf SP]. rewrite E1. destruct cl; cbn [negb].
  - destruct (i_side info) eqn:SI.
    + rewrite Hmf. cbn [ret_opt obind]. rewrite SP. cbn [obind]. do 2 eexists. split; [reflexivity|]. split; [intros Q; discriminate (H1 Q)|]. intros _. exists pdf. split; reflexivity.
    + rewrite Hmb. cbn [ret_opt obind]. rewrite SP. cbn [obind]. do 2 eexists. split; [reflexivity|]. split; [intros Q; discriminate (H1 Q)|]. intros _. exists pdf. split; reflexivity.
    + do 2 eexists. split; [reflexivity|]. split; [intros _; reflexivity|]. intros _. exists pdf. split; [exact SP|reflexivity].
  - do 2 eexists. split; [reflexivity|]. split; [intros _; reflexivity|]. intros Q. contradiction Q. apply H2. reflexivity.
Qed.
Print Assumptions C48_answer.

(** The emission of an object that shines on one side only: lit from behind, its dark side "emits" the colour of its opaque back
    material. *)
Theorem C48_dark_side_refuted : forall (E : @Ext NumR) (RG : Gen NumR) (O : @Geo NumR) h s0, externals_ok E -> play scene_new h = Ret s0 -> manageable s0 ->
  exists s, made h s /\ forall (light : @Object NumR) (ray : RayR) nodes fuel lum col sp ro info,
    (2 * length (a_tri (sc_arrays s0)) <= fuel)%nat -> sampled_kind (ob_primitive light) ->
    nth_error (sc_materials s0) (ob_front light) = Some (Light lum) -> nth_error (sc_materials s0) (ob_back light) = Some (Plastic col sp ro) ->
    prim_intersect (ob_primitive light) ray = Some info -> i_side info = Back ->
    ~ (exists t d, In t (a_tri (sc_arrays s)) /\ touches ray t d /\ in_the_way ray (dist2 (origin ray) (i_p info)) d) ->
    exists pdf nodes', solid_angle_pdf (ob_primitive light) info ray = Ret pdf /\ intersect_light fuel s light ray nodes = Ret (Some (col, pdf), nodes').
Proof.
  intros E RG O h s0 HE HP HM. destruct (C48_answer E RG O h s0 HE HP HM) as (s & HMd & HA). exists s. split; [exact HMd|].
  intros light ray nodes fuel lum col sp ro info Hf HK H1 H2 HI HS Hno.
  destruct (HA light ray nodes fuel _ _ Hf HK H1 H2) as (res & nd & H & Hres). rewrite HI in Hres. cbv zeta in Hres.
  destruct Hres as [_ Hres]. destruct (Hres Hno) as (pdf & SP & HR). rewrite HS in HR. cbn [mat_colour] in HR. subst res. eauto.
Qed.
Print Assumptions C48_dark_side_refuted.

(** ** C48 - adding up the samples *)
(** The direct light of a surface is the sum, over the lights near and distant, of exactly n samples each; each sample is a direction
    drawn towards the light which reaches its exact shape (see C48_answer), worth emission * cosine * reflectance / (n * density), or
    nothing when its density is below 1e-18. *)
Theorem C48_samples : forall (N : Num) (T : Trig N) (E : Ext) (RG : Gen N) (O : Geo) fuel (s : Scene) (m : Material) (r : Ray) n nodes g res nodes' g',
  get_local_illumination fuel s m r n nodes g = Ret (res, nodes', g') ->
  let '(pt, normal, e1, e2) := get_triad r in
  let origin := vadd pt (vscale normal (flit 1 1000)) in
  exists near far, samples_of fuel s m r origin normal e1 e2 n (sc_lights s) near /\ samples_of fuel s m r origin normal e1 e2 n (sc_distant_lights s) far /\
    length near = (n * length (sc_lights s))%nat /\ length far = (n * length (sc_distant_lights s))%nat /\
    res = sadd (fold_left add_sample near BLACK) (fold_left add_sample far BLACK).
Proof.
  intros N T E RG O fuel s m r n nodes g res nodes' g'. unfold get_local_illumination, sample_light_array.
  destruct (get_triad r) as [[[p nm] e1] e2]. cbv zeta. unfold SHADOW_SHIFT.
  destruct (lights_loop _ _ _ _ _ _ _ _ _ (sc_lights s) _ _ _) as [[[a b] c]| |] eqn:L1; cbn [obind]; try discriminate.
  destruct (lights_loop _ _ _ _ _ _ _ _ _ (sc_distant_lights s) _ _ _) as [[[a' b'] c']| |] eqn:L2; cbn [obind]; try discriminate.
  intros H. injection H as <- <- <-.
  destruct (lights_loop_samples _ _ _ _ _ _ _ _ _ _ _ _ _ _ _ _ L1) as (xs & X1 & X2), (lights_loop_samples _ _ _ _ _ _ _ _ _ _ _ _ _ _ _ _ L2) as (ys & Y1 & Y2).
  exists xs, ys. split; [exact X1|]. split; [exact Y1|].
  assert (LE : forall ls zs, samples_of fuel s m r (vadd p (vscale nm (flit 1 1000))) nm e1 e2 n ls zs -> length zs = (n * length ls)%nat).
  { clear. intros ls zs HS. induction HS as [|l ls xs ys HL _ HS IH]; cbn [length]; [lia|]. rewrite app_length, HL, IH. lia. }
  split; [apply LE; exact X1|]. split; [apply LE; exact Y1|]. rewrite X2, Y2. reflexivity.
Qed.
Print Assumptions C48_samples.

(** When every drawn direction reaches its light's exact shape, n passes per light are enough. *)
Theorem C48_returns_partial : forall (E : @Ext NumR) (RG : Gen NumR) (O : @Geo NumR) h s0, externals_ok E -> perpendicular_ok ->
  play scene_new h = Ret s0 -> manageable s0 -> samplable h ->
  exists s, made h s /\ forall (m : @Material NumR) (r : @Ray NumR) n nodes g fuel, (2 * length (a_tri (sc_arrays s0)) <= fuel)%nat -> (n <= fuel)%nat -> TracerSafe.scatters m ->
    (forall l g p dir g', In l (sc_lights s ++ sc_distant_lights s) -> sample_direction (ob_primitive l) g p = Ret (dir, g') ->
       prim_intersect (ob_primitive l) (mkRay3D p dir) <> None) ->
    exists x, get_local_illumination fuel s m r n nodes g = Ret x.
Proof.
  intros E RG O h s0 HE HPp HP HM HS. destruct (rebuilt_prepared (HE := HE) h s0 HP HM HPp HS) as (s & HB & HPr).
  exists s. split; [exists s0; split; assumption|]. intros m r n nodes g fuel Hf Hn HMs HH. pose proof (HPr fuel Hf) as HPf.
  pose proof HPf as (_ & _ & _ & _ & _ & V1 & V2).
  assert (LR : forall p nm e1 e2 ls acc nd g, Forall (valid_light s) ls -> (forall l, In l ls -> In l (sc_lights s ++ sc_distant_lights s)) ->
    exists x, lights_loop fuel s m r p nm e1 e2 n ls acc nd g = Ret x).
  { induction ls as [|l ls IH]; intros acc nd g1 HF HI; cbn [lights_loop]; [eauto|]. inversion_clear HF as [|? ? HL HR].
    destruct (light_loop_returns fuel s m r p nm e1 e2 n l HPf HL HMs) with (loops := fuel) (i := 0%nat) (acc := acc) (nodes := nd) (g := g1) as [[[a b] c] ->].
    - intros g2 dir g3 SD. eapply HH; [apply HI; left; reflexivity|exact SD].
    - lia.
    - cbn [obind]. apply IH; [exact HR|]. intros l' Hl'. apply HI. right. exact Hl'. }
  unfold get_local_illumination, sample_light_array. destruct (get_triad r) as [[[p nm] e1] e2].
  match goal with |- context [lights_loop _ _ _ _ ?p ?nm ?e1 ?e2 _ (sc_lights s) ?acc ?nd ?g] => destruct (LR p nm e1 e2 (sc_lights s) acc nd g V1) as [[[a b] c] ->] end.
  { intros l Hl. apply in_or_app. left. exact Hl. }
  cbn [obind].
  match goal with |- context [lights_loop _ _ _ _ ?p ?nm ?e1 ?e2 _ (sc_distant_lights s) ?acc ?nd ?g] => destruct (LR p nm e1 e2 (sc_distant_lights s) acc nd g V2) as [[[a' b'] c'] ->] end.
  { intros l Hl. apply in_or_app. right. exact Hl. }
  cbn [obind]. eauto.
Qed.
Print Assumptions C48_returns_partial.

(** ... but a light that no ray from the shaded point meets (a triangular light seen from a point of its own plane, whose samples are
    all parallel to it) is sampled forever. *)
Theorem C48_missed_forever_refuted : forall (N : Num) (T : Trig N) (E : Ext) (RG : Gen N) (O : Geo) fuel (s : Scene) (m : Material) (r : Ray) n light rest nodes g t,
  sc_lights s = light :: rest -> ob_primitive light = PTriangle t -> (0 < n)%nat ->
  (let '(p, normal, _, _) := get_triad r in
   forall dir, prim_intersect (ob_primitive light) (mkRay3D (vadd p (vscale normal (flit 1 1000))) dir) = None) ->
  get_local_illumination fuel s m r n nodes g = Stuck.
Proof.
  intros N T E RG O fuel s m r n light rest nodes g t HL HT Hn HM. unfold get_local_illumination, sample_light_array.
  destruct (get_triad r) as [[[p nm] e1] e2]. rewrite HL. cbn [lights_loop]. unfold SHADOW_SHIFT.
  rewrite light_loop_missed; [reflexivity|exact HM| |exact Hn].
  intros g1. rewrite HT. unfold sample_direction. destruct (sample_triangle_surface t g1) as [q g2]. cbn [obind]. eauto.
Qed.
Print Assumptions C48_missed_forever_refuted.

(** what is assumed of geometry3d's exact intersection with a triangle: the hit is ahead, in the triangle's plane, and the normal is
    a unit normal of that plane turned against the ray *)
Definition exact_triangles (O : @Geo NumR) : Prop := forall (t : TriR) (ray : RayR) info, prim_intersect (PTriangle t) ray = Some info ->
  exists d, 0 < d /\ i_p info = along ray d /\
    unit (i_normal info) /\ dot (i_normal info) (minus (tb t) (ta t)) = 0 /\ dot (i_normal info) (minus (tc t) (ta t)) = 0 /\
    dot (i_normal info) (minus (i_p info) (ta t)) = 0 /\ dot (i_normal info) (direction ray) <= 0.
Lemma ceiling_arith : forall nx ny nz px py pz dx dy dz ax ay bx by_ cx cy height d : R,
  (bx - ax) * (cy - ay) - (by_ - ay) * (cx - ax) <> 0 -> 0 < d -> 0 <= pz < height ->
  nx * nx + ny * ny + nz * nz = 1 ->
  nx * (bx - ax) + ny * (by_ - ay) + nz * (height - height) = 0 -> nx * (cx - ax) + ny * (cy - ay) + nz * (height - height) = 0 ->
  nx * (px + dx * d - ax) + ny * (py + dy * d - ay) + nz * (pz + dz * d - height) = 0 ->
  nx * dx + ny * dy + nz * dz <= 0 -> px * nx + py * ny + pz * nz <= 0.
Proof.
  intros nx ny nz px py pz dx dy dz ax ay bx by_ cx cy height d Hdet Hd Hp U O1 O2 O3 O4.
  assert (A1 : nx * (bx - ax) + ny * (by_ - ay) = 0) by lra. assert (A2 : nx * (cx - ax) + ny * (cy - ay) = 0) by lra.
  assert (B1 : nx = 0). { apply (Rmult_eq_reg_r ((bx - ax) * (cy - ay) - (by_ - ay) * (cx - ax))); [|exact Hdet].
    replace (nx * _) with ((nx * (bx - ax) + ny * (by_ - ay)) * (cy - ay) - (nx * (cx - ax) + ny * (cy - ay)) * (by_ - ay)) by ring. rewrite A1, A2. ring. }
  assert (B2 : ny = 0). { apply (Rmult_eq_reg_r ((bx - ax) * (cy - ay) - (by_ - ay) * (cx - ax))); [|exact Hdet].
    replace (ny * _) with ((nx * (cx - ax) + ny * (cy - ay)) * (bx - ax) - (nx * (bx - ax) + ny * (by_ - ay)) * (cx - ax)) by ring. rewrite A1, A2. ring. }
  subst nx. subst ny. assert (NZ : nz * nz = 1) by lra. assert (Hz : nz * (pz + dz * d - height) = 0) by lra.
  assert (Hz' : pz + dz * d = height) by (destruct (Rmult_integral _ _ Hz); [subst nz; lra|lra]).
  assert (Hdz : 0 < dz) by nra. assert (nz <= 0) by nra. nra.
Qed.
(** A horizontal triangular light above a point of non-negative height gives it no direct light at all, visible or not: its density
    there is computed as 0 (it uses the point's position vector instead of the direction). *)
Theorem C48_ceiling_light_refuted : forall (E : @Ext NumR) (RG : Gen NumR) (O : @Geo NumR) fuel (s : @Scene NumR) (m : @Material NumR) (r : @Ray NumR) (p normal e1 e2 : VecR) n light xs acc (t : TriR) (height : R),
  exact_triangles O -> ob_primitive light = PTriangle t ->
  vz (ta t) = height -> vz (tb t) = height -> vz (tc t) = height -> cross (minus (tb t) (ta t)) (minus (tc t) (ta t)) <> pt 0 0 0 ->
  0 <= vz p < height ->
  Forall (light_sample fuel s m r p normal e1 e2 n light) xs -> fold_left add_sample xs acc = acc.
Proof.
  intros E RG O fuel s m r p normal e1 e2 n light xs acc t height HX HT Za Zb Zc HN Hp HF.
  eapply samples_dark; [|exact HF]. clear xs acc HF. intros dir nodes colour pdf nodes' IL.
  assert (Pos : 0 < IZR 1 / IZR (Zpos (10 ^ 18))).
  { apply Rdiv_lt_0_compat; [lra|]. apply IZR_lt. reflexivity. }
  unfold intersect_light in IL. rewrite HT in IL. destruct (prim_intersect (PTriangle t) (mkRay3D p dir)) as [info|] eqn:PI1; [|discriminate]. cbv zeta in IL.
  destruct (scene_unobstructed_distance _ _ _ _ _) as [[cl nd]| |]; cbn [obind] in IL; try discriminate.
  destruct (negb cl); [injection IL as _ <- _; apply Rltb_is_true; rsimp; lra|].
  destruct (match i_side info with Front => _ | Back => _ | NonApplicable => _ end) as [ix|]; [|injection IL as _ <- _; apply Rltb_is_true; rsimp; lra].
  destruct (ret_opt _) as [mm| |]; cbn [obind] in IL; try discriminate. cbn [solid_angle_pdf obind] in IL. injection IL as _ <- _.
  destruct (HX _ _ _ PI1) as (d & Hd & HP & U & O1 & O2 & O3 & O4). cbn [origin direction] in *.
  unfold light_triangle_pdf. cbn [origin]. cbv zeta. change (@vdot NumR p (i_normal info)) with (dot p (i_normal info)).
  assert (HC : dot p (i_normal info) <= 0).
  { rewrite HP in O3. destruct (i_normal info) as [nx ny nz], p as [px py pz], dir as [dx dy dz], t as [[ax ay az] [bx by_ bz] [cx cy cz]].
    unfold unit, along in *. vunf. cbn [ta tb tc vx vy vz origin direction] in *. subst az. subst bz. subst cz.
    apply (ceiling_arith nx ny nz px py pz dx dy dz ax ay bx by_ cx cy height d).
    - intros Q. apply HN. apply vec_ext; vunf; cbn [ta tb tc vx vy vz]; change (@F NumR) with R in *; rsimp; lra.
    - exact Hd.
    - exact Hp.
    - exact U.
    - exact O1.
    - exact O2.
    - clear - O3; lra.
    - clear - O4; lra. }
  destruct (Rltb_spec (dot p (i_normal info)) (1 / 10000000)) as [L|L]; [|lra].
  change (@fltb NumR (dot p (i_normal info)) (flit 1 10000000)) with (Rltb (dot p (i_normal info)) (1 / 10000000)). rewrite (Rltb_is_true _ _ L).
  apply Rltb_is_true. rsimp. lra.
Qed.
Print Assumptions C48_ceiling_light_refuted.
Example C48_ceiling_hyp : cross (minus (tb (plate 3)) (ta (plate 3))) (minus (tc (plate 3)) (ta (plate 3))) <> pt 0 0 0 /\ 0 <= vz (pt 1 2 (1/1000)) < 3.
Proof. split; [|cbn; lra]. intros Q. apply (f_equal vz) in Q. unfold plate in Q. cbn in Q. lra. Qed.

(* an exact triangle intersection (the one the scene itself uses) meets the hypothesis *)
Definition geo_triangles : @Geo NumR := {| is_parallel := fun _ _ => false; is_same_direction := fun _ _ => false;
  get_perpendicular := fun v => Some v; prim_intersect := fun p ray => match p with PTriangle t => triangle_intersect t ray | _ => None end;
  triangle3d_area := fun _ => (1 : R) |}.
Example C48_exact_triangles_hyp : exact_triangles geo_triangles.
Proof.
  intros t ray info H. cbn [prim_intersect geo_triangles] in H.
  destruct (C11_hit_sound _ _ _ H) as (d & Hd & H1 & H2 & _), (C11_hit_normal _ _ _ H) as (U & D & O1 & O2 & _).
  exists d. split; [lra|]. split; [exact H1|]. split; [exact U|]. split; [exact O1|]. split; [exact O2|]. split; [|lra].
  rewrite H2. replace (dot (i_normal info) (minus (bary t (i_u info) (i_v info)) (ta t))) with
    (i_u info * dot (i_normal info) (minus (tb t) (ta t)) + i_v info * dot (i_normal info) (minus (tc t) (ta t))).
  - rewrite O1, O2. ring.
  - unfold bary. generalize (i_u info : R), (i_v info : R). intros u v. destruct (i_normal info), t as [[] [] []]. vunf. cbn. ring.
Qed.
(* ... and a point of the plane of the light, on a wall that stands on that plane, meets none of its samples *)
Example C48_missed_forever_hyp : forall r : @Ray NumR, get_triad r = (pt 5 5 0, pt 1 0 0, pt 0 1 0, pt 0 0 1) ->
  let '(p, normal, _, _) := get_triad r in
  forall dir, prim_intersect (Geo := geo_triangles) (PTriangle unit_tri) (mkRay3D (vadd p (vscale normal (flit 1 1000))) dir) = None.
Proof.
  intros r ->. intros dir. cbn [prim_intersect geo_triangles]. destruct (triangle_intersect _ _) as [info|] eqn:H; [exfalso|reflexivity].
  destruct (C11_hit_sound _ _ _ H) as (d & Hd & H1 & H2 & _). unfold triangle_intersect in H.
  destruct (baricentric_coordinates _ _) as [[[p u] v]|] eqn:B; [|discriminate]. destruct (bary_sound _ _ _ _ _ B) as (_ & _ & _ & _ & HV & _).
  rewrite H1 in H2. apply (f_equal vz) in H2. unfold volume in HV. revert H2 HV. generalize (i_u info : R), (i_v info : R). intros u' v'.
  destruct dir as [dx dy dz]. unfold along, bary, unit_tri. vunf. cbn [ta tb tc vx vy vz origin direction]. intros H2 HV.
  assert (Hz : dz = 0) by nra. subst dz.
  match goal with HV : _ <= Rabs ?x |- _ => replace x with 0 in HV by ring end. rewrite Rabs_R0 in HV. lra.
Qed.

(** ** C54 - panicking methods *)
(** the methods that panic on some materials panic exactly on the materials the tracer does not use them for *)
Theorem C54_arms : forall (N : Num) (T : Trig N) (m : Material) (normal e1 e2 p v : Vec) (r : Ray) w ip isd,
  (specular_only m = true <-> get_possible_paths m normal p r <> Crash) /\
  (emits_light m = true -> eval_bsdf ip isd m normal e1 e2 r v = Crash) /\
  (emits_light m = false -> eval_bsdf ip isd m normal e1 e2 r v <> Crash) /\
  (specular_only m = true \/ emits_light m = true -> sample_bsdf m normal e1 e2 p r w = Crash).
Proof.
  intros N T m normal e1 e2 p v r w ip isd. destruct m; cbn; repeat split; try discriminate; try contradiction; try congruence; try tauto; intros Q; repeat (destruct Q as [Q|Q]); try discriminate; try contradiction; try (intros; discriminate).
  all: destruct (evaluate_ward _ _ _ _ _ _ _ _); discriminate.
Qed.
Print Assumptions C54_arms.
(** Tracing never panics at all when the ray buffer is longer than max_depth and no light is a cylinder. *)
Theorem C54_no_panic_partial : forall (E : @Ext NumR) (RG : Gen NumR) (O : @Geo NumR) h s0, externals_ok E -> perpendicular_ok ->
  play scene_new h = Ret s0 -> manageable s0 -> samplable h ->
  exists s, made h s /\ forall (c : @Tracer NumR) r aux g nest fuel, (max_depth c < length (h_rays aux))%nat ->
    (2 * length (a_tri (sc_arrays s0)) <= fuel)%nat -> trace_ray nest fuel c s r aux g <> Crash.
Proof.
  intros E RG O h s0 HE HPp HP HM HS. destruct (rebuilt_prepared (HE := HE) h s0 HP HM HPp HS) as (s & HB & HPr).
  exists s. split; [exists s0; split; assumption|]. intros c r aux g nest fuel Ha Hf.
  apply trace_ray_safe; [|apply HPr; exact Hf|exact Ha]. intros x. apply Reqb_true. reflexivity.
Qed.
Print Assumptions C54_no_panic_partial.

(** A luminous cylinder is accepted by push_object as a light; the first surface that any ray meets afterwards panics. *)
Theorem C54_cylinder_light_refuted : forall (E : @Ext NumR) (RG : Gen NumR) (O : @Geo NumR) (t : TriR) (m : @Material NumR) lum (cyl : @Cylinder3D NumR) (c : @Tracer NumR),
  externals_ok E -> TracerSafe.scatters m -> (0 < n_shadow_samples c)%nat ->
  exists s, made [AddMaterial m; AddMaterial (Light lum); AddObject 1 1 (PCylinder cyl); AddObject 0 0 (PTriangle t)] s /\
  forall r aux g d, r_depth r = 0%nat -> crosses (r_geometry r) t d -> in_sight (r_geometry r) d ->
  forall nest fuel, (0 < nest)%nat -> (2 <= fuel)%nat -> trace_ray nest fuel c s r aux g = Crash.
Proof.
  intros E RG O t m lum cyl c HE Hm Hn. set (h := [_; _; _; _]).
  assert (HD : emits_direct_light m = false) by (destruct Hm as [(a & sp & ro & ->)|(a & sp & ro & ->)]; reflexivity).
  assert (P0 : exists s0, play scene_new h = Ret s0 /\ manageable s0 /\ length (a_tri (sc_arrays s0)) = 1%nat /\
      sc_materials s0 = [m; Light lum] /\ sc_lights s0 = [mkObject (PCylinder cyl) 1 1] /\ sc_distant_lights s0 = []).
  { unfold h. cbn [play step push_material fst obind]. unfold push_object. cbn [sc_materials set_materials nth_error scene_new app]. unfold register_light.
    cbn [emits_direct_light orb id_is_source prim_id mesh_primitive obind mesh_triangle length repeat sc_materials sc_arrays set_arrays scene_new empty_arrays
      a_tri a_front a_back a_norm app set_materials set_lights nth_error sc_lights sc_distant_lights]. rewrite HD.
    cbn [orb obind sc_arrays set_arrays set_lights a_tri a_front a_back a_norm app length repeat]. eexists. split; [reflexivity|]. cbn [sc_arrays set_arrays a_tri]. split; [split; [cbn; lia|apply uncrowded_few; cbn; lia]|]. repeat split. }
  destruct P0 as (s0 & HP & HM & HL & H1 & H2 & H3).
  destruct (rebuilt (HE := HE) h s0 HP HM) as (s & HB & E1 & E2 & E3 & _ & _ & Ha & Hp & HL' & HQ).
  exists s. split; [exists s0; split; assumption|].
  unfold h, objects_of, stored in Hp. cbn [flat_map app] in Hp. unfold facets in Hp. cbn [map fst snd app] in Hp. symmetry in Hp. apply Permutation_length_1_inv in Hp.
  assert (A1 : a_tri (sc_arrays s) = [t]) by (rewrite <- (map_records_tri _ Ha), Hp; reflexivity).
  assert (A2 : a_front (sc_arrays s) = [0%nat]) by (rewrite <- (map_records_front _ Ha), Hp; reflexivity).
  assert (A3 : a_back (sc_arrays s) = [0%nat]) by (rewrite <- (map_records_back _ Ha), Hp; reflexivity).
  destruct Ha as (_ & _ & HN). rewrite HL, <- HN in HL'.
  destruct (a_norm (sc_arrays s)) as [|nn [|]] eqn:EN; try discriminate.
  intros r aux g d Hd HC HI nest fuel Hnest Hf. destruct nest as [|nest]; [lia|]. cbn [trace_ray]. rewrite HL in HQ.
  destruct (proj1 (HQ fuel Hf) r (h_nodes aux)) as [(j & t' & d' & x & nd & CR & X1 & _ & _ & _ & X5 & _)|(nd & _ & Hno)].
  2:{ exfalso. apply (Hno t d); [rewrite A1; left; reflexivity|split; assumption]. }
  rewrite A1 in X1. destruct j as [|j]; [|destruct j; discriminate]. injection X1 as <-.
  rewrite CR. cbn [obind]. cbv zeta. rewrite Nat2Z.id. destruct (hit_normal_oriented _ _ _ X5) as [_ NS].
  assert (HMt : hit_material s (set_interaction r x) 0 = Ret (Some m)).
  { unfold hit_material. cbn [r_interaction set_interaction]. rewrite A2, A3, E1, H1. cbn [nth_error ret_opt obind]. destruct (i_side (x_shading x)); [reflexivity|reflexivity|contradiction]. }
  rewrite HMt. cbn [obind]. unfold get_triad.
  assert (EM : emits_light m = false /\ specular_only m = false) by (destruct Hm as [(a & sp & ro & ->)|(a & sp & ro & ->)]; split; reflexivity). destruct EM as [EM SP]. rewrite EM, SP.
  replace (Nat.ltb (max_depth c) (r_depth (set_interaction r x))) with false by (symmetry; apply Nat.ltb_ge; cbn; lia).
  rewrite EN. cbn [nth_error ret_opt obind]. set (r2 := set_shading _ _). unfold scatter.
  destruct (draw_n_ambient_samples c r2 g) as [[na r3] g3] eqn:DN. destruct (draw_n_keeps _ _ _ _ _ _ DN) as (_ & _ & KD & _).
  replace (Nat.eqb (r_depth r3) 0) with true by (symmetry; apply Nat.eqb_eq; rewrite KD; exact Hd).
  unfold get_local_illumination, sample_light_array. rewrite E2, H2. unfold get_triad. cbn [lights_loop].
  destruct fuel as [|fuel]; [lia|]. erewrite cylinder_panics; [reflexivity|reflexivity|exact Hn].
Qed.
Print Assumptions C54_cylinder_light_refuted.
