(** * Property C66: the light along a ray is the sum it should be (any arithmetic) *)
From Verif Require Import Num Geometry Triangle Sphere Colour Ray Bvh Material Scene Samplers Primitives RayTracer SpecTracer TracerProofs TracerSafe TracerLights.
From Verif Require Import NumR TriangleProofs TracerScenes TracerCorridor SpecScene SpecBvh BvhExamples SceneProofs P_Bvh P_Tracer.

Section Sees.
  Context {N : Num} {T : Trig N} {E : Ext} {RG : Gen N} {O : Geo}.
  Variables (fuel : nat) (c : Tracer) (s : Scene).
  Definition right (trace : Trace) : Prop := forall r aux g li pdf r' aux' g', trace r aux g = Ret (li, pdf, r', aux', g') -> sees fuel c s r li pdf.

  Lemma ambient_loop_sees trace m r0 n : frames trace -> right trace ->
    forall loops count global aux g x r' aux' g', nth_error (h_rays aux) (r_depth r0) = Some r0 ->
    ambient_loop trace loops fuel m (point_of r0) (normal_of r0) (i_dpdu (x_shading (r_interaction r0))) (i_dpdv (x_shading (r_interaction r0))) (r_depth r0) n count global r0 aux g = Ret (x, r', aux', g') ->
    exists xs, length xs = (n - count)%nat /\ Forall (ambient fuel c s r0 m) xs /\ x = fold_left sadd xs global.
  Proof.
    intros HF HR. induction loops as [|loops IH]; intros count global aux g x r' aux' g' H0; cbn [ambient_loop]; destruct (Nat.ltb_spec count n) as [L|L].
    - discriminate.
    - intros H. injection H as <- <- <- <-. exists []. split; [cbn; lia|]. split; [constructor|reflexivity].
    - destruct (sample_bsdf_draw _ _ _ _ _ _ _ _) as [[[[bv pdf] r1] g1]| |] eqn:SB; cbn [obind]; try discriminate.
      pose proof (sample_bsdf_keeps _ _ _ _ _ _ _ _ _ _ _ _ SB) as (K & _). cbv zeta.
      set (r2 := set_value _ _).
      destruct (trace r2 aux g1) as [[[[[li lp] r3] aux3] g3]| |] eqn:TR; cbn [obind]; try discriminate.
      pose proof (HF _ _ _ _ _ _ _ _ TR) as SBel. replace (r_depth r2) with (S (r_depth r0)) in SBel by (cbn; congruence).
      assert (H3 : nth_error (h_rays aux3) (r_depth r0) = Some r0) by (destruct SBel as [_ ->]; [exact H0|lia]).
      rewrite H3. cbn [ret_opt obind]. apply HR in TR. destruct (fltb f0 lp) eqn:Q; intros H; apply IH in H; try exact H3; [exact H|].
      destruct H as (xs & X1 & X2 & X3). eexists (_ :: xs). split; [cbn; lia|]. split; [|exact X3]. constructor; [|exact X2].
      econstructor; [exact SB|exact TR|exact Q].
    - intros H. injection H as <- <- <- <-. exists []. split; [cbn; lia|]. split; [constructor|reflexivity].
  Qed.
  Lemma global_sees trace m r n aux g x r' aux' g' : frames trace -> right trace ->
    get_global_illumination trace fuel n m r aux g = Ret (x, r', aux', g') ->
    exists xs, length xs = n /\ Forall (ambient fuel c s r m) xs /\ x = average xs.
  Proof.
    intros HF HR. unfold get_global_illumination. destruct (Nat.eqb_spec n 0) as [->|Hn].
    - intros H. injection H as <- <- <- <-. exists []. split; [reflexivity|]. split; [constructor|reflexivity].
    - unfold get_triad. destruct (store_ray aux (r_depth r) r) as [aux1| |] eqn:SR; cbn [obind]; try discriminate.
      destruct (store_ray_spec _ _ _ _ SR) as (_ & S1 & _).
      destruct (ambient_loop _ _ _ _ _ _ _ _ _ _ _ _ _ _ _) as [[[[gl r2] aux2] g2]| |] eqn:AL; cbn [obind]; try discriminate.
      intros H. injection H as <- <- <- <-. destruct (ambient_loop_sees trace m r n HF HR _ _ _ _ _ _ _ _ _ S1 AL) as (xs & X1 & X2 & X3).
      exists xs. split; [lia|]. split; [exact X2|]. unfold average. destruct xs as [|y xs]; [cbn in X1; lia|]. rewrite X3, X1, Nat.sub_0_r. reflexivity.
  Qed.
  Lemma local_sees m r n nodes g x nodes' g' : get_local_illumination fuel s m r n nodes g = Ret (x, nodes', g') -> direct_light fuel s m r n x.
  Proof.
    unfold get_local_illumination, sample_light_array, direct_light. destruct (get_triad r) as [[[p nm] e1] e2]. cbv zeta. unfold SHADOW_SHIFT.
    destruct (lights_loop _ _ _ _ _ _ _ _ _ (sc_lights s) _ _ _) as [[[a b] d]| |] eqn:L1; cbn [obind]; try discriminate.
    destruct (lights_loop _ _ _ _ _ _ _ _ _ (sc_distant_lights s) _ _ _) as [[[a' b'] d']| |] eqn:L2; cbn [obind]; try discriminate.
    intros H. injection H as <- <- <-.
    destruct (lights_loop_samples _ _ _ _ _ _ _ _ _ _ _ _ _ _ _ _ L1) as (xs & X1 & X2), (lights_loop_samples _ _ _ _ _ _ _ _ _ _ _ _ _ _ _ _ L2) as (ys & Y1 & Y2).
    exists xs, ys. split; [exact X1|]. split; [exact Y1|]. rewrite <- X2, <- Y2. reflexivity.
  Qed.
  Lemma path_sees trace p li r aux g x r' aux' g' : right trace -> specular_path trace c p li r aux g = Ret (x, r', aux', g') ->
    exists xs, brings fuel c s p xs /\ x = fold_left sadd xs li.
  Proof.
    intros HR. destruct p as [[q v]|]; cbn [specular_path].
    - cbv zeta. destruct (gen g) as [d g1]. destruct (trace _ _ _) as [[[[[l lp] r3] aux3] g3]| |] eqn:TR; cbn [obind]; try discriminate.
      intros H. injection H as <- <- <- <-. apply HR in TR. exists [smul l v]. split; [|reflexivity]. econstructor; [|exact TR].
      destruct (fltb d _); [right|left]; reflexivity.
    - intros H. injection H as <- <- <- <-. exists []. split; [constructor|reflexivity].
  Qed.
  Theorem trace_ray_sees nest : right (trace_ray nest fuel c s).
  Proof.
    induction nest as [|nest IH]; intros r aux g li pdf r' aux' g'; cbn [trace_ray]; [discriminate|].
    destruct (cast_ray fuel s r (h_nodes aux)) as [[[hit r1] nodes]| |] eqn:CR; cbn [obind]; try discriminate. cbv zeta.
    pose proof (cast_keeps _ _ _ _ _ _ _ CR) as (K1 & K2 & K3 & K4 & K5).
    destruct hit as [z|].
    2:{ assert (MN : meets_nothing fuel s r) by (do 3 eexists; exact CR). unfold see_sky. destruct (sc_sky s) as [sky|] eqn:SK; intros H; injection H as <- <- <- <- <-.
        - rewrite K1. apply sees_sky; assumption.
        - apply sees_darkness; assumption. }
    assert (ME : meets fuel s r (Z.to_nat z) r1) by (exists z, (h_nodes aux), nodes; split; [exact CR|reflexivity]).
    destruct (hit_material s r1 (Z.to_nat z)) as [[m|]| |] eqn:HM; cbn [obind]; try discriminate.
    2:{ unfold hit_material in HM. destruct (i_side _) eqn:SI; [destruct (nth_error (a_front _) _); cbn in HM; try discriminate; destruct (nth_error _ _); discriminate
        |destruct (nth_error (a_back _) _); cbn in HM; try discriminate; destruct (nth_error _ _); discriminate|].
        intros H. injection H as <- <- <- <- <-. eapply sees_edge; eassumption. }
    assert (FA : facing s r1 (Z.to_nat z) m).
    { unfold hit_material in HM. unfold facing, side_hit. destruct (i_side (x_shading (r_interaction r1))) eqn:SI; [| |discriminate].
      - destruct (nth_error (a_front (sc_arrays s)) (Z.to_nat z)) as [k|] eqn:Q; cbn [ret_opt obind] in HM; [|discriminate]. destruct (nth_error (sc_materials s) k) as [mm|] eqn:Q2; cbn [ret_opt obind] in HM; [|discriminate].
        injection HM as HM. subst mm. exists k. split; [exact Q2|]. left. split; [reflexivity|reflexivity].
      - destruct (nth_error (a_back (sc_arrays s)) (Z.to_nat z)) as [k|] eqn:Q; cbn [ret_opt obind] in HM; [|discriminate]. destruct (nth_error (sc_materials s) k) as [mm|] eqn:Q2; cbn [ret_opt obind] in HM; [|discriminate].
        injection HM as HM. subst mm. exists k. split; [exact Q2|]. right. split; [reflexivity|reflexivity]. }
    clear HM. unfold get_triad at 1. destruct (emits_light m) eqn:EL.
    { destruct (nth_error (a_tri _) _) as [t|] eqn:Ht; cbn [ret_opt obind]; [|discriminate]. intros H. injection H as <- <- <- <- <-.
      destruct m; cbn in EL; try discriminate. rewrite K1. eapply sees_light; eassumption. }
    destruct (Nat.ltb_spec (max_depth c) (r_depth r1)) as [L|L].
    { intros H. injection H as <- <- <- <- <-. eapply sees_too_far; try eassumption; [intros (col & ->); discriminate|lia]. }
    destruct (nth_error (a_norm _) _) as [normals|] eqn:Hn; cbn [ret_opt obind]; [|discriminate].
    set (r2 := set_shading r1 _). assert (SH : shaded s r1 (Z.to_nat z) r2) by (exists normals; split; [exact Hn|reflexivity]).
    assert (D2 : r_depth r2 = r_depth r) by exact K3. clearbody r2. destruct (specular_only m) eqn:SO.
    - unfold specular_bounce. destruct (get_possible_paths _ _ _ _) as [[p1 p2]| |] eqn:PP; cbn [obind]; try discriminate.
      destruct (specular_path _ _ p1 _ _ _ _) as [[[[l1 s1] a1] g1]| |] eqn:Q1; cbn [obind]; try discriminate.
      destruct (specular_path _ _ p2 _ _ _ _) as [[[[l2 s2] a2] g2]| |] eqn:Q2; cbn [obind]; try discriminate.
      intros H. injection H as <- <- <- <- <-. destruct (path_sees _ _ _ _ _ _ _ _ _ _ IH Q1) as (xs & X1 & ->), (path_sees _ _ _ _ _ _ _ _ _ _ IH Q2) as (ys & Y1 & ->).
      rewrite <- fold_left_app. eapply sees_through; try eassumption; [|lia].
      destruct m; cbn in SO; try discriminate; [left; eauto|right; left; eauto|right; right; eauto].
    - unfold scatter. unfold draw_n_ambient_samples.
      match goal with |- (let '(_, _) := ?e in _) = _ -> _ => destruct e as [[n r3] g1] eqn:DN end.
      assert (HN : exists q, get_n_ambient_samples r2 (n_ambient_samples c) (max_depth c) (limit_weight c) q = (n, r3)).
      { destruct (_ || _); [injection DN as DN _; exists f0; exact DN|]. destruct (gen g) as [q g2]. injection DN as DN _. exists q; exact DN. }
      destruct HN as (q & HN).
      assert (D3 : r_depth r3 = r_depth r).
      { rewrite <- D2. unfold get_n_ambient_samples in HN. repeat match type of HN with context [if ?b then _ else _] => destruct b end; injection HN as _ <-; reflexivity. }
      rewrite D3. destruct (get_local_illumination _ _ _ _ _ _ _) as [[[loc nd] g2]| |] eqn:LO; cbn [obind]; try discriminate.
      destruct (get_global_illumination _ _ _ _ _ _ _) as [[[[gl r4] a4] g4]| |] eqn:GL; cbn [obind]; try discriminate.
      intros H. injection H as <- <- <- <- <-. destruct (global_sees _ _ _ _ _ _ _ _ _ _ (trace_ray_frame fuel c s nest) IH GL) as (xs & X1 & X2 & ->).
      eapply sees_surface; try eassumption; [|lia|eapply local_sees; exact LO].
      destruct m; cbn in SO, EL; try discriminate; [left; eauto|right; eauto].
  Qed.
End Sees.
(** Whatever tracing a ray returns, in any scene and arithmetic and for any draws, is the sum described by [sees]. *)
Theorem C66_radiance : forall (N : Num) (T : Trig N) (E : Ext) (RG : Gen N) (O : Geo) nest fuel (c : Tracer) (s : Scene) r aux g li pdf r' aux' g',
  trace_ray nest fuel c s r aux g = Ret (li, pdf, r', aux', g') -> sees fuel c s r li pdf.
Proof. intros N T E RG O nest fuel c s. apply trace_ray_sees. Qed.
Print Assumptions C66_radiance.
(* a dark corridor (two facing grey walls): every ray is traced, so every ray has its sum; a ray inside that goes up meets a wall, and
   it sees "direct light (none) plus the average of the ambient samples" *)
Example C66_hyp : exists s, made (E := ext_example) (corridor gray_wall) s /\ forall (r : @Ray NumR) fuel,
  (70 <= fuel)%nat -> forall g : @G NumR (constant (1/2)), exists li r' aux' g',
  trace_ray (E := ext_example) (O := geo_example) 4 fuel (@mkTracer NumR 2 10 70 (1/1000 : R) (1 : R)) s r helper_default g = Ret (li, @f0 NumR, r', aux', g').
Proof.
  destruct C44_dark_hyp as (s0 & H1 & H2 & H3 & H4 & H5 & H6 & H7).
  destruct (corridor_plays (E := ext_example) gray_wall eq_refl) as (s1 & HP & _ & HL & _). rewrite H1 in HP. injection HP as <-.
  destruct (C44_dark_returns_partial ext_example (constant (1/2)) geo_example _ s0 externals_ok_satisfiable geo_perpendicular H1 H2 H3 H4 H5 H6 H7) as (s & HM & HR).
  exists s. split; [exact HM|]. intros r fuel F2 g. apply HR; cbn; try lia.
  - intros g1. apply Rltb_is_true. cbn. lra.
Qed.
