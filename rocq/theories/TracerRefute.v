(** * TracerRefute: runs of the tracer that never return, that panic, or that discard all their samples *)
From Coq Require Import Permutation.
From Verif Require Import NumR Geometry Triangle Sphere Colour Ray Bvh Material Scene Samplers Primitives RayTracer TracerProofs TracerSafe TracerScenes TracerCorridor
  SpecGeom SpecBvh SpecScene TriangleProofs BvhProofs BvhReal BvhReal2 BvhQuery BvhExamples SceneProofs SpecOptics MaterialProofs P_Triangle P_Frame P_Bvh P_Material.
Open Scope R_scope.

Lemma squares_zero (a b d : R) : a * a + b * b + d * d = 0 -> a = 0 /\ b = 0 /\ d = 0.
Proof. intros H. pose proof (Rle_0_sqr a). pose proof (Rle_0_sqr b). pose proof (Rle_0_sqr d). unfold Rsqr in *.
  assert (a * a = 0) by lra. assert (b * b = 0) by lra. assert (d * d = 0) by lra. repeat split; nra. Qed.

Section Refute.
  Context {E : @Ext NumR} {HE : externals_ok E} {RG : Gen NumR} {O : @Geo NumR}.

  (** a bounce off a plate of a corridor lands inside it again *)
  Lemma inside_again k : (k = 1 \/ k = -1) -> inside (target k + - k * @SHIFT NumR) (- k).
  Proof.
    intros Hk. change (@SHIFT NumR) with (1 / 100000). unfold inside, target. destruct Hk as [-> | ->].
    - rewrite (Rltb_is_false 1 0) by lra. rewrite Rltb_is_true by lra. rewrite Rabs_left by lra. repeat split; lra.
    - rewrite (Rltb_is_true (-1) 0) by lra. rewrite Rltb_is_false by lra. rewrite Rabs_pos_eq by lra. repeat split; lra.
  Qed.
  Lemma bounce_point k : vadd (pt (1/4) (1/4) (target k)) (vscale (pt 0 0 (- k)) (@SHIFT NumR)) = pt (1/4) (1/4) (target k + - k * @SHIFT NumR).
  Proof. apply vec_ext; vunf; ring. Qed.
  Lemma bounce_mirror k : (k = 1 \/ k = -1) -> mirror_direction (pt 0 0 k) (pt 0 0 (- k)) = pt 0 0 (- k).
  Proof.
    intros Hk. unfold mirror_direction. cbv zeta. replace (vsub _ _) with (pt 0 0 (- k)).
    - apply normalized_of_unit. unfold unit. vunf. destruct Hk as [-> | ->]; ring.
    - apply vec_ext; vunf; rsimp; destruct Hk as [-> | ->]; lra.
  Qed.

  Section MirrorCorridor.
    Variable colour : Spectrum.
    Variable c : @Tracer NumR.
    Hypothesis Hnever : forall g, @fltb NumR (fst (gen g)) (count_specular_bounce c) = false.
    Lemma mirror_corridor_stuck : exists s, play scene_new (corridor (Mirror colour) ++ [Rebuild]) = Ret s /\
      forall fuel, (4 <= fuel)%nat -> forall nest r aux g z k, r_geometry r = vertical (1/4) (1/4) z k -> inside z k ->
      (r_depth r <= max_depth c)%nat -> trace_ray nest fuel c s r aux g = Stuck.
    Proof.
      destruct (corridor_ready (HE := HE) (Mirror colour) eq_refl) as (s & HP & _ & _ & _ & _ & HQ).
      exists s. split; [exact HP|]. intros fuel Hf. induction nest as [|nest IH]; intros r aux g z k Hr Hi Hd; [reflexivity|].
      cbn [trace_ray]. destruct (HQ fuel Hf r (h_nodes aux) z k Hr Hi) as (j & x & nd & -> & X1 & X2 & XF & X3 & X4 & X5). cbn [obind]. cbv zeta.
      rewrite Nat2Z.id, X5. cbn [obind]. unfold get_triad. cbn [r_interaction set_interaction emits_light].
      replace (Nat.ltb (max_depth c) (r_depth (set_interaction r x))) with false by (symmetry; apply Nat.ltb_ge; exact Hd).
      rewrite X3. cbn [ret_opt obind specular_only]. unfold specular_bounce. cbn [get_possible_paths obind]. unfold mirror_paths, mirror_bsdf.
      set (r2 := set_shading _ _). cbn [obind]. unfold specular_path.
      pose proof (Hnever g) as Hg. destruct (gen g) as [q g1]. cbn [fst] in Hg. rewrite Hg. 
      match goal with |- context [trace_ray nest fuel c s ?r' _ _] => set (r3 := r') end.
      assert (HG : r_geometry r3 = vertical (1/4) (1/4) (target k + - k * @SHIFT NumR) (- k)).
      { unfold r3, r2, set_ray3d. cbn [r_geometry set_geometry set_shading set_interaction]. rewrite X1, X2, bounce_point, Hr. unfold vertical. cbn [direction].
        rewrite bounce_mirror by (destruct Hi; assumption). reflexivity. }
      rewrite (IH r3 _ g1 _ _ HG); [reflexivity|apply inside_again; destruct Hi; assumption|exact Hd].
    Qed.
  End MirrorCorridor.


  Section DiffuseCorridor.
    Variable colour : @Spectrum NumR.
    Variable roughness : R.
    Hypothesis Hcol : 0 <= @radiance NumR colour.
    Variable c : @Tracer NumR.
    Hypothesis Hzero : forall g, fst (gen g) = 0.
    Hypothesis Hlimit : 0 < @limit_weight NumR c.
    Hypothesis Hn : (0 < n_ambient_samples c)%nat.
    Let m : @Material NumR := Plastic colour (0 : R) roughness.

    Lemma radiance_scaled (k : R) : @radiance NumR (smulf colour k) = k * @radiance NumR colour.
    Proof. unfold radiance, smulf, smap. destruct colour as [a b d]. cbn [sr sg sb]. rsimp. field. Qed.

    Lemma zero_diffuse (n e1 e2 p : VecR) (r : @Ray NumR) fuel g : frame e1 e2 n -> exists g' r',
      sample_bsdf_draw fuel m n e1 e2 p r g = Ret (smulf colour ((1 - 0) / PI), 1 / PI, r', g') /\
      r_geometry r' = mkRay3D (vadd p (vscale n (@SHIFT NumR))) n /\ r_depth r' = r_depth r /\ r_value r' = r_value r.
    Proof.
      intros HF. destruct (C26_diffuse_branch m colour 0 roughness n e1 e2 p r 0 [] 0 0 (or_introl eq_refl) HF (Rle_refl 0) ltac:(lra))
        as (pdf & r' & HS & U & P1 & P2 & P3 & P4 & P5).
      unfold sample_bsdf_draw, sample_ward_draw, m. pose proof (Hzero g) as Q0. destruct (gen g) as [q g1]. cbn [fst] in Q0. subst q.
      change (@fltb NumR 0 0) with (Rltb 0 0). rewrite (Rltb_is_false 0 0) by lra.
      pose proof (Hzero g1) as Q1. destruct (gen g1) as [q g2]. cbn [fst] in Q1. subst q. pose proof (Hzero g2) as Q2. destruct (gen g2) as [q g3]. cbn [fst] in Q2. subst q.
      unfold sample_bsdf, m in HS. destruct (sample_ward _ _ _ _ _ _ _ _ _) as [[[[a b] w] r1]| |] eqn:SW; cbn [obind] in HS; try discriminate.
      cbn [obind]. assert (HB : plastic_bsdf colour a b = smulf colour ((1 - 0) / PI) /\ w = pdf /\ r1 = r') by (split; [|split]; congruence).
      destruct HB as (HB & -> & <-). rewrite HB. exists g3, r1.
      assert (D1 : dot (dir_of r1) n = 1) by (rewrite P4, Rminus_0_r; apply sqrt_1).
      split; [rewrite P3, D1; reflexivity|]. unfold sample_ward in SW. cbv zeta in SW. 
      cbn [wd_prob wd_disc] in SW. change (@fltb NumR 0 0) with (Rltb 0 0) in SW. rewrite (Rltb_is_false 0 0) in SW by lra.
      injection SW as _ _ _ ER. split; [|rewrite <- ER; split; reflexivity].
      assert (EN : dir_of r1 = n).
      { destruct HF as (_ & _ & Un & _). unfold dir_of in *. clear - Un U D1. generalize dependent (direction (r_geometry r1)). intros [x y z] U D1. destruct n as [nx ny nz]. unfold unit, pt in *. vunf.
        assert (Q : (x - nx) * (x - nx) + (y - ny) * (y - ny) + (z - nz) * (z - nz) = 0) by lra.
        destruct (squares_zero _ _ _ Q) as (A1 & A2 & A3). apply vec_ext; cbn [vx vy vz]; lra. }
      unfold dir_of in EN. rewrite <- EN at 2. rewrite <- ER. reflexivity.
    Qed.

    Lemma diffuse_corridor_crash : exists s, play scene_new (corridor m ++ [Rebuild]) = Ret s /\
      forall fuel, (4 <= fuel)%nat -> forall todo nest r aux g z k,
      (length (h_rays aux) = r_depth r + todo)%nat -> (0 < length (h_rays aux) <= max_depth c)%nat -> (todo < nest)%nat -> 0 <= @r_value NumR r ->
      r_geometry r = vertical (1/4) (1/4) z k -> inside z k -> trace_ray nest fuel c s r aux g = Crash.
    Proof.
      destruct (corridor_ready (HE := HE) m eq_refl) as (s & HP & _ & EL & ED & _ & HQ).
      exists s. split; [exact HP|]. intros fuel Hf. induction todo as [|todo IH]; intros nest r aux g z k HL HM Hnest Hv Hr Hi; (destruct nest as [|nest]; [lia|]).
      all: cbn [trace_ray]; destruct (HQ fuel Hf r (h_nodes aux) z k Hr Hi) as (j & x & nd & -> & X1 & X2 & XF & X3 & X4 & X5); cbn [obind]; cbv zeta.
      all: rewrite Nat2Z.id, X5; cbn [obind]; unfold get_triad; cbn [r_interaction set_interaction emits_light m].
      all: replace (Nat.ltb (max_depth c) (r_depth (set_interaction r x))) with false by (symmetry; apply Nat.ltb_ge; cbn; lia).
      all: rewrite X3; cbn [ret_opt obind specular_only m]; unfold scatter.
      all: set (r2 := set_shading _ _).
      all: assert (DN : exists na g', draw_n_ambient_samples c r2 g = (S na, r2, g')).
      1,3: unfold draw_n_ambient_samples, get_n_ambient_samples;
           replace (Nat.eqb (max_depth c) 0) with false by (symmetry; apply Nat.eqb_neq; lia);
           replace (Nat.eqb (n_ambient_samples c) 0) with false by (symmetry; apply Nat.eqb_neq; lia); cbn [orb];
           destruct (Nat.eqb (r_depth r2) 0);
           [destruct (n_ambient_samples c); [lia|]; do 2 eexists; reflexivity|];
           pose proof (Hzero g) as Q0; destruct (gen g) as [q g1]; cbn [fst] in Q0; subst q;
           change (@fltb NumR (fdiv (r_value r2) (limit_weight c)) 0) with (Rltb (r_value r / limit_weight c) 0);
           rewrite Rltb_is_false by (apply Rmult_le_pos; [exact Hv|left; apply Rinv_0_lt_compat; exact Hlimit]);
           exists 0%nat, g1; reflexivity.
      all: destruct DN as (na & g1 & ->); unfold get_local_illumination, sample_light_array; rewrite EL, ED; unfold get_triad; cbn [lights_loop obind].
      all: unfold get_global_illumination; cbn [Nat.eqb]; unfold get_triad, store_ray; cbn [h_rays].
      - replace (Nat.ltb (r_depth r2) (length (h_rays aux))) with false; [reflexivity|]. symmetry. apply Nat.ltb_ge. cbn. lia.
      - replace (Nat.ltb (r_depth r2) (length (h_rays aux))) with true by (symmetry; apply Nat.ltb_lt; cbn; lia). cbn [obind].
        destruct fuel as [|fuel]; [lia|]. cbn [ambient_loop]. 
        replace (Nat.ltb 0 (S na)) with true by (symmetry; apply Nat.ltb_lt; lia).
        assert (A1 : i_normal (x_shading (r_interaction r2)) = pt 0 0 (- k)) by exact X4.
        assert (A2 : x_point (r_interaction r2) = pt (1/4) (1/4) (target k)) by exact X1.
        rewrite A1, A2.
        match goal with |- context [sample_bsdf_draw _ _ _ ?e1 ?e2 ?p ?r ?g] =>
          destruct (zero_diffuse (pt 0 0 (- k)) e1 e2 p r (S fuel) g XF) as (g3 & r3 & SB & G1 & G2 & G3) end.
        rewrite SB. cbn [obind].
        match goal with |- context [trace_ray nest (S fuel) c s ?r' ?a' _] => set (r4 := r'); set (aux4 := a') end.
        rewrite (IH nest r4 aux4 g3 (target k + - k * @SHIFT NumR) (- k)); [reflexivity|..].
        + unfold aux4, r4. cbn. rewrite set_nth_length, G2. cbn. lia.
        + unfold aux4. cbn. rewrite set_nth_length. exact HM.
        + lia.
        + unfold r4. cbn [r_value set_value set_depth]. rewrite G3. change (r_value r2) with (r_value r). rewrite radiance_scaled.
          apply Rmult_le_pos; [exact Hv|]. pose proof PI_RGT_0 as HPI.
          assert (0 < / PI) by (apply Rinv_0_lt_compat; exact HPI).
          apply Rmult_le_pos; [apply Rmult_le_pos|].
          * apply Rmult_le_pos; [|exact Hcol]. unfold Rdiv. nra.
          * apply Rabs_pos.
          * left. apply Rinv_0_lt_compat. unfold Rdiv. nra.
        + unfold r4. cbn [r_geometry set_value set_depth]. rewrite G1, bounce_point. reflexivity.
        + apply inside_again. destruct Hi; assumption.
    Qed.
  End DiffuseCorridor.
End Refute.
