(** * Property C70: every random decision uses the next random numbers (any arithmetic) *)
From Verif Require Import Num Geometry Triangle Sphere Colour Ray Bvh Material Scene Samplers Primitives RayTracer SpecTracer SpecDraws TracerProofs TracerSafe TracerLights TracerSky P_Radiance_Sum.

Section Draws.
  Context {N : Num} {T : Trig N} {E : Ext} {RG : Gen N} {O : Geo}.
  Lemma number_S g k : number g (S k) = number (snd (gen g)) k.
  Proof. reflexivity. Qed.
  Lemma after_2 g k : after g (S (S k)) = after (after g 2) k.
  Proof. reflexivity. Qed.
  Lemma pairs_S g : forall n k, pairs g (S k) n = pairs (snd (gen g)) k n.
  Proof. induction n as [|n IH]; intros k; cbn [pairs]; [reflexivity|]. rewrite IH. reflexivity. Qed.
  Lemma pairs_2 g n : pairs g 2 n = pairs (after g 2) 0 n.
  Proof. rewrite pairs_S, pairs_S. reflexivity. Qed.
  Lemma pairs_0 g n : pairs g 0 (S n) = (number g 0, number g 1) :: pairs (after g 2) 0 n.
  Proof. cbn [pairs]. rewrite pairs_2. reflexivity. Qed.
  Lemma ward_draw_with normal e1 e2 sp al be ray : forall fuel g x g', ward_draw fuel normal e1 e2 sp al be ray g = Ret (x, g') ->
    exists n, g' = after g (2 + 2 * n) /\ ward_loop normal e1 e2 sp al be ray (pairs g 0 n) = Stuck /\ ward_loop normal e1 e2 sp al be ray (pairs g 0 (S n)) = Ret x.
  Proof.
    induction fuel as [|fuel IH]; intros g x g'; cbn [ward_draw]; [discriminate|].
    destruct (gen g) as [x1 g1] eqn:G1, (gen g1) as [x2 g2] eqn:G2.
    assert (A : (number g 0, number g 1) = (x1, x2)) by (unfold number; cbn [after]; rewrite G1; cbn [fst snd]; rewrite G2; reflexivity).
    assert (B : after g 2 = g2) by (cbn [after]; rewrite G1; cbn [snd]; rewrite G2; reflexivity).
    destruct (ward_loop _ _ _ _ _ _ _ _) as [y| |] eqn:W; try discriminate.
    - intros H. injection H as <- <-. exists 0%nat. split; [exact (eq_sym B)|]. split; [reflexivity|]. cbn [pairs]. rewrite A. exact W.
    - intros H. destruct (IH _ _ _ H) as (n & F1 & F2 & F3). exists (S n). rewrite <- B in F1, F2, F3.
      split; [replace (2 + 2 * S n)%nat with (S (S (2 + 2 * n))) by lia; rewrite after_2; exact F1|].
      split; rewrite pairs_0, A, ward_loop_skip by exact W; [exact F2|exact F3].
  Qed.
  Lemma sample_ward_with fuel normal e1 e2 p s ro r g x g' : sample_ward_draw fuel normal e1 e2 p s ro ro r g = Ret (x, g') ->
    (fltb (number g 0) s = false /\ g' = after g 3 /\ sample_ward normal e1 e2 p s ro ro r (mkWD (number g 0) [] (number g 1, number g 2)) = Ret x) \/
    (fltb (number g 0) s = true /\ exists n, g' = after g (3 + 2 * n) /\ forall d, 
      sample_ward normal e1 e2 p s ro ro r (mkWD (number g 0) (pairs g 1 n) d) = Stuck /\ sample_ward normal e1 e2 p s ro ro r (mkWD (number g 0) (pairs g 1 (S n)) d) = Ret x).
  Proof.
    unfold sample_ward_draw. destruct (gen g) as [q g1] eqn:G0. assert (A : number g 0 = q) by (unfold number; cbn [after]; rewrite G0; reflexivity).
    assert (B : snd (gen g) = g1) by (rewrite G0; reflexivity). rewrite A. destruct (fltb q s) eqn:Q.
    - intros H. right. split; [reflexivity|]. destruct (ward_draw_with _ _ _ _ _ _ _ _ _ _ _ H) as (n & F1 & F2 & F3). exists n.
      split; [cbn [Nat.add after]; rewrite B; exact F1|]. intros d. unfold sample_ward. cbn [wd_prob wd_pairs]. rewrite Q, !pairs_S, B. split; [exact F2|exact F3].
    - destruct (gen g1) as [x1 g2] eqn:G1, (gen g2) as [x2 g3] eqn:G2. destruct (sample_ward _ _ _ _ _ _ _ _ _) as [y| |] eqn:SW; cbn [obind]; try discriminate.
      intros H. injection H as <- <-. left. split; [reflexivity|]. unfold number. cbn [after]. rewrite B, G1. cbn [fst snd]. rewrite G2. cbn [fst snd]. split; [reflexivity|exact SW].
  Qed.
  Lemma sample_bsdf_with fuel m normal e1 e2 p r g bsdf pdf r' g' : sample_bsdf_draw fuel m normal e1 e2 p r g = Ret (bsdf, pdf, r', g') ->
    scatters_with m (specularity_of m) normal e1 e2 p r g bsdf pdf r' g'.
  Proof.
    destruct m; cbn [sample_bsdf_draw]; try discriminate.
    all: match goal with |- context [sample_ward_draw _ _ _ _ _ ?s ?ro _ _ _] =>
           destruct (sample_ward_draw fuel normal e1 e2 p s ro ro r g) as [[[[[a b] d] r1] g1]| |] eqn:SW; cbn [obind]; try discriminate end;
      intros H; injection H as <- <- <- <-; unfold scatters_with; cbn [specularity_of sample_bsdf];
      destruct (sample_ward_with _ _ _ _ _ _ _ _ _ _ _ SW) as [(H1 & H2 & H3)|(H1 & n & H2 & H3)];
      [left; rewrite H3; auto|right; split; [exact H1|]; exists n; split; [exact H2|]; intros w; destruct (H3 w) as [-> ->]; auto].
  Qed.
  Lemma aims_with l g p dir g' : sample_direction (ob_primitive l) g p = Ret (dir, g') -> aims l p g dir g'.
  Proof.
    unfold sample_direction, aims, number. cbn [after]. destruct (ob_primitive l) as [b|t|cy|d]; cbn [obind]; try discriminate.
    - unfold sample_sphere_surface. destruct (gen g) as [a g1], (gen g1) as [b1 g2] eqn:G1. intros H. injection H as <- <-. cbn [fst snd]. rewrite G1.
      split; [reflexivity|]. eexists. split; reflexivity.
    - unfold sample_triangle_surface. destruct (gen g) as [a g1], (gen g1) as [b1 g2] eqn:G1. intros H. injection H as <- <-. cbn [fst snd]. rewrite G1.
      split; [reflexivity|]. eexists. split; reflexivity.
    - unfold sample_source_disc. destruct (gen g) as [a g1], (gen g1) as [b1 g2] eqn:G1. cbn [fst snd]. rewrite G1. cbn [fst snd].
      destruct (get_perpendicular _) as [e|] eqn:GP; cbn [obind]; [|discriminate]. intros H. injection H as <- <-. split; [reflexivity|]. eexists. split; [reflexivity|].
      exists e. split; [reflexivity|reflexivity].
  Qed.
  Lemma light_loop_with fuel s m r p normal e1 e2 n l : forall loops i acc nodes g res nodes' g',
    light_loop loops fuel s m r p normal e1 e2 n l i acc nodes g = Ret (res, nodes', g') ->
    exists xs, lit_by fuel s m r p normal e1 e2 n l (n - i) g xs g' /\ res = fold_left add_sample xs acc.
  Proof.
    induction loops as [|loops IH]; intros i acc nodes g res nodes' g'; cbn [light_loop]; destruct (Nat.ltb_spec i n) as [L|L]; try discriminate.
    1,3: intros H; injection H as <- <- <-; exists []; replace (n - i)%nat with 0%nat by lia; split; [constructor|reflexivity].
    destruct (sample_direction _ _ _) as [[dir g1]| |] eqn:SD; cbn [obind]; try discriminate. cbv zeta. apply aims_with in SD.
    replace (n - i)%nat with (S (n - S i)) by lia.
    destruct (intersect_light _ _ _ _ _) as [[[[lc pdf]|] nd]| |] eqn:IL; cbn [obind]; try discriminate.
    2:{ intros H. destruct (IH _ _ _ _ _ _ _ H) as (xs & H1 & H2). replace (n - i)%nat with (S (n - S i)) in H1 by lia. exists xs. split; [eapply lit_miss; eassumption|exact H2]. }
    destruct (fltb pdf TINY18) eqn:Q.
    - intros H. destruct (IH _ _ _ _ _ _ _ H) as (xs & H1 & H2). exists (None :: xs). split; [eapply lit_unseen; eassumption|exact H2].
    - destruct (eval_bsdf _ _ _ _ _ _ _ _) as [bv| |] eqn:EB; cbn [obind]; try discriminate.
      intros H. destruct (IH _ _ _ _ _ _ _ H) as (xs & H1 & H2). eexists (Some _ :: xs). split; [eapply lit_seen; eassumption|exact H2].
  Qed.
  Lemma lights_loop_with fuel s m r p normal e1 e2 n : forall ls acc nodes g res nodes' g',
    lights_loop fuel s m r p normal e1 e2 n ls acc nodes g = Ret (res, nodes', g') ->
    exists xs, lit_by_all fuel s m r p normal e1 e2 n ls g xs g' /\ res = fold_left add_sample xs acc.
  Proof.
    induction ls as [|l ls IH]; intros acc nodes g res nodes' g'; cbn [lights_loop].
    - intros H. injection H as <- <- <-. exists []. split; [constructor|reflexivity].
    - destruct (light_loop _ _ _ _ _ _ _ _ _ _ _ _ _ _ _) as [[[a b] c]| |] eqn:LL; cbn [obind]; try discriminate.
      intros H. destruct (IH _ _ _ _ _ _ H) as (ys & Y1 & Y2). destruct (light_loop_with _ _ _ _ _ _ _ _ _ _ _ _ _ _ _ _ _ _ LL) as (xs & X1 & X2).
      exists (xs ++ ys). rewrite Nat.sub_0_r in X1. split; [econstructor; eassumption|]. rewrite fold_left_app, <- X2. exact Y2.
  Qed.
  Lemma local_with fuel s m r n nodes g x nodes' g' : get_local_illumination fuel s m r n nodes g = Ret (x, nodes', g') -> lit_directly fuel s m r n g x g'.
  Proof.
    unfold get_local_illumination, sample_light_array, lit_directly. unfold get_triad, point_of, normal_of. cbv zeta. unfold SHADOW_SHIFT.
    destruct (lights_loop _ _ _ _ _ _ _ _ _ (sc_lights s) _ _ _) as [[[a b] d]| |] eqn:L1; cbn [obind]; try discriminate.
    destruct (lights_loop _ _ _ _ _ _ _ _ _ (sc_distant_lights s) _ _ _) as [[[a' b'] d']| |] eqn:L2; cbn [obind]; try discriminate.
    intros H. injection H as <- <- <-.
    destruct (lights_loop_with _ _ _ _ _ _ _ _ _ _ _ _ _ _ _ _ L1) as (xs & X1 & X2), (lights_loop_with _ _ _ _ _ _ _ _ _ _ _ _ _ _ _ _ L2) as (ys & Y1 & Y2).
    exists xs, d, ys. split; [exact X1|]. split; [exact Y1|]. rewrite <- X2, <- Y2. reflexivity.
  Qed.

  Variables (fuel : nat) (c : Tracer) (s : Scene).
  Definition right_with (trace : Trace) : Prop := forall r aux g li pdf r' aux' g', trace r aux g = Ret (li, pdf, r', aux', g') -> sees_with fuel c s r g li pdf g'.
  Lemma ambient_loop_with trace m r0 n : frames trace -> right_with trace ->
    forall loops count global aux g x r' aux' g', nth_error (h_rays aux) (r_depth r0) = Some r0 ->
    ambient_loop trace loops fuel m (point_of r0) (normal_of r0) (i_dpdu (x_shading (r_interaction r0))) (i_dpdv (x_shading (r_interaction r0))) (r_depth r0) n count global r0 aux g = Ret (x, r', aux', g') ->
    exists xs, length xs = (n - count)%nat /\ ambient_with fuel c s m r0 (n - count) g xs g' /\ x = fold_left sadd xs global.
  Proof.
    intros HF HR. induction loops as [|loops IH]; intros count global aux g x r' aux' g' H0; cbn [ambient_loop]; destruct (Nat.ltb_spec count n) as [L|L].
    - discriminate.
    - intros H. injection H as <- <- <- <-. exists []. replace (n - count)%nat with 0%nat by lia. split; [reflexivity|]. split; [constructor|reflexivity].
    - destruct (sample_bsdf_draw _ _ _ _ _ _ _ _) as [[[[bv pdf] r1] g1]| |] eqn:SB; cbn [obind]; try discriminate.
      pose proof (sample_bsdf_keeps _ _ _ _ _ _ _ _ _ _ _ _ SB) as (K & _). cbv zeta. apply sample_bsdf_with in SB.
      set (r2 := set_value _ _).
      destruct (trace r2 aux g1) as [[[[[li lp] r3] aux3] g3]| |] eqn:TR; cbn [obind]; try discriminate.
      pose proof (HF _ _ _ _ _ _ _ _ TR) as SBel. replace (r_depth r2) with (S (r_depth r0)) in SBel by (cbn; congruence).
      assert (H3 : nth_error (h_rays aux3) (r_depth r0) = Some r0) by (destruct SBel as [_ ->]; [exact H0|lia]).
      rewrite H3. cbn [ret_opt obind]. apply HR in TR. destruct (fltb f0 lp) eqn:Q; intros H; apply IH in H; try exact H3; destruct H as (xs & X1 & X2 & X3).
      + exists xs. split; [exact X1|]. split; [|exact X3]. replace (n - count)%nat with (S (n - S count)) in * by lia. eapply aw_light; eassumption.
      + eexists (_ :: xs). split; [cbn; lia|]. split; [|exact X3]. replace (n - count)%nat with (S (n - S count)) by lia. eapply aw_sample; eassumption.
    - intros H. injection H as <- <- <- <-. exists []. replace (n - count)%nat with 0%nat by lia. split; [reflexivity|]. split; [constructor|reflexivity].
  Qed.
  Lemma global_with trace m r n aux g x r' aux' g' : frames trace -> right_with trace ->
    get_global_illumination trace fuel n m r aux g = Ret (x, r', aux', g') ->
    exists xs, ambient_with fuel c s m r n g xs g' /\ x = average xs.
  Proof.
    intros HF HR. unfold get_global_illumination. destruct (Nat.eqb_spec n 0) as [->|Hn].
    - intros H. injection H as <- <- <- <-. exists []. split; [constructor|reflexivity].
    - unfold get_triad. destruct (store_ray aux (r_depth r) r) as [aux1| |] eqn:SR; cbn [obind]; try discriminate.
      destruct (store_ray_spec _ _ _ _ SR) as (_ & S1 & _).
      destruct (ambient_loop _ _ _ _ _ _ _ _ _ _ _ _ _ _ _) as [[[[gl r2] aux2] g2]| |] eqn:AL; cbn [obind]; try discriminate.
      intros H. injection H as <- <- <- <-. destruct (ambient_loop_with trace m r n HF HR _ _ _ _ _ _ _ _ _ S1 AL) as (xs & X1 & X2 & X3).
      rewrite Nat.sub_0_r in X1, X2. exists xs. split; [exact X2|]. unfold average. destruct xs as [|y xs]; [cbn in X1; lia|]. rewrite X3, X1. reflexivity.
  Qed.
  Lemma path_with trace p li r aux g x r' aux' g' : right_with trace -> specular_path trace c p li r aux g = Ret (x, r', aux', g') ->
    exists xs, brings_with fuel c s p g xs g' /\ x = fold_left sadd xs li.
  Proof.
    intros HR. destruct p as [[q v]|]; cbn [specular_path].
    - cbv zeta. destruct (gen g) as [d g1] eqn:G0. destruct (trace _ _ _) as [[[[[l lp] r3] aux3] g3]| |] eqn:TR; cbn [obind]; try discriminate.
      intros H. injection H as <- <- <- <-. apply HR in TR. exists [smul l v]. split; [|reflexivity]. econstructor.
      unfold number. cbn [after]. rewrite G0. cbn [fst snd]. exact TR.
    - intros H. injection H as <- <- <- <-. exists []. split; [constructor|reflexivity].
  Qed.
  Theorem trace_ray_with nest : right_with (trace_ray nest fuel c s).
  Proof.
    induction nest as [|nest IH]; intros r aux g li pdf r' aux' g'; cbn [trace_ray]; [discriminate|].
    destruct (cast_ray fuel s r (h_nodes aux)) as [[[hit r1] nodes]| |] eqn:CR; cbn [obind]; try discriminate. cbv zeta.
    pose proof (cast_keeps _ _ _ _ _ _ _ CR) as (K1 & K2 & K3 & K4 & K5).
    destruct hit as [z|].
    2:{ assert (MN : meets_nothing fuel s r) by (do 3 eexists; exact CR). unfold see_sky. destruct (sc_sky s) as [sky|] eqn:SK; intros H; injection H as <- <- <- <- <-.
        - rewrite K1. apply sw_sky; assumption.
        - apply sw_darkness; assumption. }
    assert (ME : meets fuel s r (Z.to_nat z) r1) by (exists z, (h_nodes aux), nodes; split; [exact CR|reflexivity]).
    destruct (hit_material s r1 (Z.to_nat z)) as [[m|]| |] eqn:HM; cbn [obind]; try discriminate.
    2:{ unfold hit_material in HM. destruct (i_side _) eqn:SI; [destruct (nth_error (a_front _) _); cbn in HM; try discriminate; destruct (nth_error _ _); discriminate
        |destruct (nth_error (a_back _) _); cbn in HM; try discriminate; destruct (nth_error _ _); discriminate|].
        intros H. injection H as <- <- <- <- <-. eapply sw_edge; eassumption. }
    assert (FA : facing s r1 (Z.to_nat z) m).
    { unfold hit_material in HM. unfold facing, side_hit. destruct (i_side (x_shading (r_interaction r1))) eqn:SI; [| |discriminate].
      - destruct (nth_error (a_front (sc_arrays s)) (Z.to_nat z)) as [k|] eqn:Q; cbn [ret_opt obind] in HM; [|discriminate]. destruct (nth_error (sc_materials s) k) as [mm|] eqn:Q2; cbn [ret_opt obind] in HM; [|discriminate].
        injection HM as HM. subst mm. exists k. split; [exact Q2|]. left. split; [reflexivity|reflexivity].
      - destruct (nth_error (a_back (sc_arrays s)) (Z.to_nat z)) as [k|] eqn:Q; cbn [ret_opt obind] in HM; [|discriminate]. destruct (nth_error (sc_materials s) k) as [mm|] eqn:Q2; cbn [ret_opt obind] in HM; [|discriminate].
        injection HM as HM. subst mm. exists k. split; [exact Q2|]. right. split; [reflexivity|reflexivity]. }
    clear HM. unfold get_triad at 1. destruct (emits_light m) eqn:EL.
    { destruct (nth_error (a_tri _) _) as [t|] eqn:Ht; cbn [ret_opt obind]; [|discriminate]. intros H. injection H as <- <- <- <- <-.
      destruct m; cbn in EL; try discriminate. rewrite K1. eapply sw_light; eassumption. }
    destruct (Nat.ltb_spec (max_depth c) (r_depth r1)) as [L|L].
    { intros H. injection H as <- <- <- <- <-. eapply sw_too_far; try eassumption; [intros (col & ->); discriminate|lia]. }
    destruct (nth_error (a_norm _) _) as [normals|] eqn:Hn; cbn [ret_opt obind]; [|discriminate].
    set (r2 := set_shading r1 _). assert (SH : shaded s r1 (Z.to_nat z) r2) by (exists normals; split; [exact Hn|reflexivity]).
    assert (D2 : r_depth r2 = r_depth r) by exact K3. clearbody r2. destruct (specular_only m) eqn:SO.
    - unfold specular_bounce. destruct (get_possible_paths _ _ _ _) as [[p1 p2]| |] eqn:PP; cbn [obind]; try discriminate.
      destruct (specular_path _ _ p1 _ _ _ _) as [[[[l1 s1] a1] g1]| |] eqn:Q1; cbn [obind]; try discriminate.
      destruct (specular_path _ _ p2 _ _ _ _) as [[[[l2 s2] a2] g2]| |] eqn:Q2; cbn [obind]; try discriminate.
      intros H. injection H as <- <- <- <- <-. destruct (path_with _ _ _ _ _ _ _ _ _ _ IH Q1) as (xs & X1 & ->), (path_with _ _ _ _ _ _ _ _ _ _ IH Q2) as (ys & Y1 & ->).
      rewrite <- fold_left_app. eapply sw_through; try eassumption; [|lia].
      destruct m; cbn in SO; try discriminate; [left; eauto|right; left; eauto|right; right; eauto].
    - unfold scatter. unfold draw_n_ambient_samples.
      match goal with |- (let '(_, _) := ?e in _) = _ -> _ => destruct e as [[n r3] g1] eqn:DN end.
      assert (HN : exists q, counts c r g q g1 /\ get_n_ambient_samples r2 (n_ambient_samples c) (max_depth c) (limit_weight c) q = (n, r3)).
      { unfold counts. rewrite <- D2. destruct (_ || _); [injection DN as DN <-; exists f0; auto|]. unfold number. cbn [after]. destruct (gen g) as [q g2]. injection DN as DN <-. exists q; auto. }
      destruct HN as (q & HC & HN).
      assert (D3 : r_depth r3 = r_depth r).
      { rewrite <- D2. unfold get_n_ambient_samples in HN. repeat match type of HN with context [if ?b then _ else _] => destruct b end; injection HN as _ <-; reflexivity. }
      rewrite D3. destruct (get_local_illumination _ _ _ _ _ _ _) as [[[loc nd] g2]| |] eqn:LO; cbn [obind]; try discriminate.
      destruct (get_global_illumination _ _ _ _ _ _ _) as [[[[gl r4] a4] g4]| |] eqn:GL; cbn [obind]; try discriminate.
      intros H. injection H as <- <- <- <- <-. destruct (global_with _ _ _ _ _ _ _ _ _ _ (trace_ray_frame fuel c s nest) IH GL) as (xs & X1 & ->).
      eapply sw_surface; try eassumption; [|lia|eapply local_with; exact LO].
      destruct m; cbn in SO, EL; try discriminate; [left; eauto|right; eauto].
  Qed.
End Draws.
(** Whatever tracing a ray returns is the sum described by [sees_with] for the numbers that follow the given state of the generator. *)
Theorem C70_draws : forall (N : Num) (T : Trig N) (E : Ext) (RG : Gen N) (O : Geo) nest fuel (c : Tracer) (s : Scene) r aux g li pdf r' aux' g',
  trace_ray nest fuel c s r aux g = Ret (li, pdf, r', aux', g') -> sees_with fuel c s r g li pdf g'.
Proof. intros N T E RG O nest fuel c s. apply trace_ray_with. Qed.
Print Assumptions C70_draws.
(* a generator that alternates between two numbers, in a dark corridor: every ray is traced *)
From Verif Require Import NumR TriangleProofs TracerScenes TracerCorridor SpecScene SpecBvh BvhExamples SceneProofs P_Bvh P_Tracer.
Open Scope R_scope.
Definition alternating : Gen NumR := {| G := bool; gen := fun b => ((if b then 1/3 else 1/2 : R) : @F NumR, negb b) |}.
Example C70_hyp : exists s, made (E := ext_example) (corridor gray_wall) s /\ forall (r : @Ray NumR) fuel,
  (70 <= fuel)%nat -> forall g : @G NumR alternating, exists li r' aux' g',
  trace_ray (E := ext_example) (O := geo_example) 4 fuel (@mkTracer NumR 2 10 70 (1/1000 : R) (1 : R)) s r helper_default g = Ret (li, @f0 NumR, r', aux', g').
Proof.
  destruct C44_dark_hyp as (s0 & H1 & H2 & H3 & H4 & H5 & H6 & _).
  destruct (corridor_plays (E := ext_example) gray_wall eq_refl) as (s1 & HP & _ & HA & HL & _). rewrite H1 in HP. injection HP as <-.
  assert (H7 : Forall (@plain NumR alternating) (sc_materials s0)).
  { rewrite HL. constructor; [|constructor]. intros [|]; apply Rltb_is_false; cbn; lra. }
  destruct (C44_dark_returns_partial ext_example alternating geo_example _ s0 externals_ok_satisfiable geo_perpendicular H1 H2 H3 H4 H5 H6 H7) as (s & HM & HR).
  exists s. split; [exact HM|]. intros r fuel F2 g. apply HR; cbn; try lia.
  intros [|]; apply Rltb_is_true; cbn; lra.
Qed.
