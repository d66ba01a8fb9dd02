(** * TracerLone: one diffuse triangle under the sky, seen by a camera ray (real arithmetic) *)
From Coq Require Import Permutation.
From Verif Require Import NumR Geometry Triangle Sphere Colour Ray Bvh Material Scene Samplers Primitives RayTracer TracerProofs TracerSafe TracerSky TracerScenes
  SpecGeom SpecBvh SpecScene TriangleProofs BvhProofs BvhReal BvhReal2 BvhQuery BvhExamples SceneProofs SpecOptics MaterialProofs P_Triangle P_Frame P_Bvh P_Material.
Open Scope R_scope.

Definition plane_normal (t : TriR) : VecR := vnormalized (cross (minus (tb t) (ta t)) (minus (tc t) (ta t))).
Lemma hit_nondegenerate t ray info : triangle_intersect t ray = Some info -> cross (minus (tb t) (ta t)) (minus (tc t) (ta t)) <> pt 0 0 0.
Proof.
  intros H Q. unfold triangle_intersect in H. destruct (baricentric_coordinates ray t) as [[[p u] v]|] eqn:B; [|discriminate].
  destruct (bary_sound _ _ _ _ _ B) as (_ & _ & _ & _ & HV & _). rewrite volume_winding, Q in HV.
  replace (dot (pt 0 0 0) (direction ray)) with 0 in HV by (destruct (direction ray); vunf; ring). rewrite Ropp_0, Rabs_R0 in HV. lra.
Qed.
Lemma hit_normal_oriented t ray info : triangle_intersect t ray = Some info ->
  i_normal info = oriented info (plane_normal t) /\ i_side info <> NonApplicable.
Proof.
  intros H. destruct (C11_hit_normal t ray info H) as (_ & D & _).
  unfold triangle_intersect in H. destruct (baricentric_coordinates ray t) as [[[p u] v]|] eqn:B; [|discriminate].
  destruct (bary_sound _ _ _ _ _ B) as (_ & _ & _ & _ & HV & _). rewrite volume_winding in HV.
  injection H as <-. unfold new_info in *. cbv zeta in *.
  change (@vcross NumR (vsub (tb t) (ta t)) (vsub (tc t) (ta t))) with (cross (minus (tb t) (ta t)) (minus (tc t) (ta t))) in *.
  fold (plane_normal t) in *. unfold get_side in *. cbv zeta in *. unfold oriented.
  destruct (fltb (vdot (plane_normal t) (direction ray)) f0) eqn:A1; cbn [i_normal i_side] in *; [split; [reflexivity|discriminate]|].
  destruct (fltb f0 (vdot (plane_normal t) (direction ray))) eqn:A2; cbn [i_normal i_side] in *.
  - split; [|discriminate]. destruct (plane_normal t). apply vec_ext; vunf; rsimp; field.
  - exfalso. change (Rltb (0/1) (dot (plane_normal t) (direction ray)) = false) in A2. change (Rltb (dot (plane_normal t) (direction ray)) (0/1) = false) in A1.
    apply Rltb_false in A2. apply Rltb_false in A1. lra.
Qed.

Section Lone.
  Context {E : @Ext NumR} {HE : externals_ok E} {RG : Gen NumR} {O : @Geo NumR}.
  Variable t : TriR.
  Variable m : @Material NumR.
  Variable sky : VecR -> R.
  Definition lone : list (@op NumR) := [AddMaterial m; AddObject 0 0 (PTriangle t); SetSky (Some sky)].
  Hypothesis Hm : TracerSafe.scatters m.

  Lemma lone_ready : exists s, play scene_new (lone ++ [Rebuild]) = Ret s /\ sc_materials s = [m] /\ sc_lights s = [] /\ sc_distant_lights s = [] /\
    sc_sky s = Some sky /\ a_tri (sc_arrays s) = [t] /\ a_front (sc_arrays s) = [0%nat] /\ a_back (sc_arrays s) = [0%nat] /\
    a_norm (sc_arrays s) = [(plane_normal t, plane_normal t, plane_normal t)] /\
    forall fuel, (2 <= fuel)%nat -> forall r aux, finds s fuel r aux.
  Proof.
    assert (HD : emits_direct_light m = false) by (destruct Hm as [(c & sp & ro & ->)|(c & sp & ro & ->)]; reflexivity).
    assert (P0 : exists s0, play scene_new lone = Ret s0 /\ manageable s0 /\ length (a_tri (sc_arrays s0)) = 1%nat /\
      sc_materials s0 = [m] /\ sc_lights s0 = [] /\ sc_distant_lights s0 = [] /\ sc_sky s0 = Some sky).
    { unfold lone. cbn [play step push_material fst obind]. unfold push_object. cbn [sc_materials set_materials nth_error scene_new app]. unfold register_light.
      rewrite HD. cbn [orb mesh_primitive obind mesh_triangle length repeat sc_materials sc_arrays set_arrays scene_new empty_arrays a_tri a_front a_back a_norm app set_materials nth_error].
      eexists. split; [reflexivity|]. cbn [sc_arrays set_arrays set_sky a_tri]. split; [split; [cbn; lia|apply uncrowded_few; cbn; lia]|]. repeat split. }
    destruct P0 as (s0 & HP & HM & HL & H1 & H2 & H3 & H4).
    destruct (rebuilt (HE := HE) lone s0 HP HM) as (s & HB & E1 & E2 & E3 & E4 & _ & Ha & Hp & HL' & HQ).
    exists s. split.
    { assert (PA : forall h1 h2 s1, play s1 (h1 ++ h2) = run s2 <- play s1 h1 ;; play s2 h2).
      { induction h1 as [|o h1 IH]; intros h2 s1; cbn; [reflexivity|]. destruct (step s1 o); cbn; auto. }
      rewrite PA, HP. cbn [obind play step]. rewrite HB. reflexivity. }
    split; [congruence|]. split; [congruence|]. split; [congruence|]. split; [congruence|].
    unfold lone, objects_of, stored in Hp. cbn [flat_map app] in Hp. unfold facets in Hp. cbn [map fst snd app] in Hp. 
    change (@vcross NumR (vsub (tb t) (ta t)) (vsub (tc t) (ta t))) with (cross (minus (tb t) (ta t)) (minus (tc t) (ta t))) in Hp.
    fold (plane_normal t) in Hp. symmetry in Hp. apply Permutation_length_1_inv in Hp.
    rewrite <- (map_records_tri _ Ha), <- (map_records_front _ Ha), <- (map_records_back _ Ha), Hp. cbn [map fst snd].
    do 3 (split; [reflexivity|]). split.
    { destruct Ha as (A1 & A2 & A3). rewrite HL, <- A3 in HL'. destruct (a_norm (sc_arrays s)) as [|n1 [|]] eqn:EN; try discriminate.
      destruct (a_tri (sc_arrays s)) as [|t1 [|]] eqn:ET; try discriminate. destruct (a_front (sc_arrays s)) as [|f1 [|]] eqn:EF; try discriminate.
      destruct (a_back (sc_arrays s)) as [|b1 [|]] eqn:EB; try discriminate. unfold records in Hp. rewrite ET, EF, EB, EN in Hp. cbn in Hp. congruence. }
    intros fuel Hf r aux. rewrite HL in HQ. apply (HQ fuel Hf).
  Qed.

  Variable colour : @Spectrum NumR.
  Variable rough : R.
  Hypothesis Hmat : m = Plastic colour (0 : R) rough \/ m = Metal colour (0 : R) rough.
  Hypothesis Hdraws : forall g, 0 <= fst (gen g) < 1.

  Lemma diffuse_draw (n e1 e2 p : VecR) (r : @Ray NumR) fuel g : frame e1 e2 n -> exists v w r' g',
    sample_bsdf_draw fuel m n e1 e2 p r g = Ret (v, w, r', g') /\
    0 < dot (dir_of r') n /\ start_of r' = plus p (times (1 / 100000) n).
  Proof.
    intros HF. pose proof (Hdraws g) as Q0. destruct (gen g) as [q g1] eqn:G0. cbn [fst] in Q0.
    pose proof (Hdraws g1) as Q1. destruct (gen g1) as [x1 g2] eqn:G1. cbn [fst] in Q1. destruct (gen g2) as [x2 g3] eqn:G2.
    destruct (C26_diffuse_branch m colour 0 rough n e1 e2 p r q [] x1 x2 Hmat HF (proj1 Q0) Q1) as (pdf & r' & HS & _ & P1 & _ & _ & _ & P2).
    exists (smulf colour ((1 - 0) / PI)), pdf, r', g3. split; [|split; assumption].
    assert (QF : @fltb NumR q 0 = false) by (change (Rltb q 0 = false); apply Rltb_is_false; lra).
    destruct Hmat as [-> | ->]; cbn [sample_bsdf_draw sample_bsdf] in *; unfold sample_ward_draw; rewrite G0, QF, G1, G2;
      (destruct (sample_ward _ _ _ _ _ _ _ _ _) as [[[[a b] w] r1]| |]; cbn [obind] in *; [|discriminate|discriminate]); congruence.
  Qed.

  Variable c : @Tracer NumR.
  Hypothesis Hdepth : (0 < max_depth c)%nat.
  Hypothesis Hn : (0 < n_ambient_samples c)%nat.

  Lemma lone_stuck : exists s, play scene_new (lone ++ [Rebuild]) = Ret s /\
    forall fuel, (2 <= fuel)%nat -> forall nest r aux g d, r_depth r = 0%nat -> unit (direction (r_geometry r)) -> (0 < length (h_rays aux))%nat ->
    crosses (r_geometry r) t d -> in_sight (r_geometry r) d -> trace_ray nest fuel c s r aux g = Stuck.
  Proof.
    destruct lone_ready as (s & HP & E1 & E2 & E3 & E4 & A1 & A2 & A3 & A4 & HQ). exists s. split; [exact HP|].
    intros fuel Hf nest r aux g d Hd Ud HL HC HI. destruct nest as [|nest]; [reflexivity|]. cbn [trace_ray].
    destruct (HQ fuel Hf r (h_nodes aux)) as [(j & t' & d' & x & nd & CR & X1 & X2 & X3 & X4 & X5 & X6 & _)|(nd & _ & Hno)].
    2:{ exfalso. apply (Hno t d); [rewrite A1; left; reflexivity|split; assumption]. }
    rewrite A1 in X1. destruct j as [|j]; [|destruct j; discriminate]. injection X1 as <-.
    rewrite CR. cbn [obind]. cbv zeta. rewrite Nat2Z.id.
    destruct (hit_normal_oriented _ _ _ X5) as [ON NS]. pose proof (proj1 (C11_hit_frame _ _ _ X5)) as FR. pose proof (hit_nondegenerate _ _ _ X5) as ND.
    assert (HMt : hit_material s (set_interaction r x) 0 = Ret (Some m)).
    { unfold hit_material. cbn [r_interaction set_interaction]. rewrite A2, A3, E1. cbn [nth_error ret_opt obind]. destruct (i_side (x_shading x)); [reflexivity|reflexivity|contradiction]. }
    rewrite HMt. cbn [obind]. unfold get_triad. cbn [r_interaction set_interaction].
    assert (EM : emits_light m = false /\ specular_only m = false) by (destruct Hmat as [-> | ->]; split; reflexivity). destruct EM as [EM SP]. rewrite EM, SP.
    replace (Nat.ltb (max_depth c) (r_depth (set_interaction r x))) with false by (symmetry; apply Nat.ltb_ge; cbn; lia).
    rewrite A4. cbn [nth_error ret_opt obind]. set (r2 := set_shading _ _).
    assert (RN : i_normal (x_shading (r_interaction r2)) = i_normal (x_shading x)).
    { change (i_normal (interpolate_normal (x_shading x) (plane_normal t, plane_normal t, plane_normal t)) = i_normal (x_shading x)).
      rewrite interpolate_constant by (apply normalized_unit; exact ND). rewrite ON. reflexivity. }
    assert (D2 : r_depth r2 = 0%nat) by exact Hd.
    unfold scatter, draw_n_ambient_samples, get_n_ambient_samples. rewrite D2.
    replace (Nat.eqb (max_depth c) 0) with false by (symmetry; apply Nat.eqb_neq; lia).
    replace (Nat.eqb (n_ambient_samples c) 0) with false by (symmetry; apply Nat.eqb_neq; lia). cbn [orb Nat.eqb].
    unfold get_local_illumination, sample_light_array. rewrite E2, E3. unfold get_triad. cbn [lights_loop obind].
    unfold get_global_illumination. replace (Nat.eqb (n_ambient_samples c) 0) with false by (symmetry; apply Nat.eqb_neq; lia).
    unfold get_triad, store_ray. rewrite D2. cbn [h_rays]. replace (Nat.ltb 0 (length (h_rays aux))) with true by (symmetry; apply Nat.ltb_lt; exact HL). cbn [obind].
    rewrite RN. destruct nest as [|nest].
    { destruct fuel as [|fuel]; [lia|]. cbn [ambient_loop]. destruct (Nat.ltb_spec 0 (n_ambient_samples c)); [|lia].
      match goal with |- context [sample_bsdf_draw ?fu m ?n ?e1 ?e2 ?p ?r ?g] => destruct (diffuse_draw n e1 e2 p r fu g FR) as (v & w & r3 & g3 & -> & _) end. reflexivity. }
    rewrite (ambient_loop_escapes (trace_ray (S nest) fuel c s)); [reflexivity| |lia|].
    2:{ cbn [h_rays]. apply set_nth_same. exact HL. }
    intros fuel' aux' g' Ha'. 
    destruct (diffuse_draw (i_normal (x_shading x)) (i_dpdu (x_shading (r_interaction r2))) (i_dpdv (x_shading (r_interaction r2))) (x_point (r_interaction r2)) r2 fuel' g' FR)
      as (v & w & r3 & g3 & SB & V1 & V2).
    set (r4 := set_value (set_depth r3 (S (r_depth r3))) (fmul (r_value r3) (fdiv (fmul (radiance v) (fabs (vdot (i_normal (x_shading x)) (direction (r_geometry r3))))) w))).
    assert (HR4 : r_geometry r4 = r_geometry r3) by reflexivity.
    destruct (HQ fuel Hf r4 (h_nodes aux')) as [(j & t' & d4 & x4 & nd4 & CR4 & Y1 & Y2 & _)|(nd4 & CR4 & _)].
    - exfalso. rewrite A1 in Y1. destruct j as [|j]; [|destruct j; discriminate]. injection Y1 as <-.
      destruct Y2 as (_ & Y2 & u & v' & Y3 & _). rewrite HR4 in Y3.
      assert (XP : x_point (r_interaction r2) = along (r_geometry r) d') by exact (X6 Ud). rewrite XP in V2.
      destruct X2 as (_ & _ & u0 & v0 & X2 & _). rewrite X2 in V2.
      destruct (C11_hit_normal _ _ _ X5) as (Un & _ & O1 & O2 & _).
      set (n := i_normal (x_shading x)) in *. clearbody n.
      assert (K1 : dot n (minus (along (r_geometry r3) d4) (bary t u v')) = 0).
      { rewrite Y3. destruct (bary t u v'), n. vunf. ring. }
      assert (K2 : dot n (minus (bary t u0 v0) (bary t u v')) = 0).
      { replace (dot n _) with ((u0 - u) * dot n (minus (tb t) (ta t)) + (v0 - v') * dot n (minus (tc t) (ta t))); [rewrite O1, O2; ring|].
        unfold bary. destruct n, (ta t), (tb t), (tc t). vunf. ring. }
      unfold along in K1. unfold start_of, dir_of in *. rewrite V2 in K1. unfold unit in Un.
      assert (K3 : dot n (minus (plus (plus (bary t u0 v0) (times (1 / 100000) n)) (times d4 (direction (r_geometry r3)))) (bary t u v')) =
                   dot n (minus (bary t u0 v0) (bary t u v')) + 1 / 100000 * dot n n + d4 * dot (direction (r_geometry r3)) n).
      { generalize (bary t u0 v0) (bary t u v') (direction (r_geometry r3)). intros [a1 a2 a3] [b1 b2 b3] [c1 c2 c3]. destruct n. vunf. ring. }
      rewrite K3, K2, Un in K1. nra.
    - assert (exists q1 q2, trace_ray (S nest) fuel c s r4 aux' g3 = Ret (q1, fdiv (fdiv f1 f2) fpi, q2, mkHelper (h_rays aux') nd4, g3)) as (q1 & q2 & TR).
      { cbn [trace_ray]. rewrite CR4. cbn [obind]. cbv zeta. unfold see_sky. rewrite E4. do 2 eexists. reflexivity. }
      exists v, w, r3, g3, q1, (fdiv (fdiv f1 f2) fpi), q2, (mkHelper (h_rays aux') nd4), g3. split; [exact SB|]. split; [exact TR|]. split; [|exact Ha'].
      change (Rltb (0/1) (1 / 1 / (2 / 1) / PI) = true). apply Rltb_is_true. pose proof PI_RGT_0 as HPI. assert (0 < / PI) by (apply Rinv_0_lt_compat; exact HPI). unfold Rdiv. nra.
  Qed.
End Lone.
