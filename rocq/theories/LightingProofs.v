(** * LightingProofs: tracing is linear in the lighting (real arithmetic) *)
From Verif Require Import NumR Geometry Triangle Sphere Colour ColourProofs Ray Bvh Material Scene Samplers Primitives RayTracer SpecLighting.
Open Scope R_scope.

Lemma uniform_bind {A B} (go : Lighting -> outcome A) (k : Lighting -> A -> outcome B) (P : (Lighting -> A) -> Prop) (Q : (Lighting -> B) -> Prop) :
  uniform go P -> (forall f, P f -> (forall w, go w = Ret (f w)) -> uniform (fun w => k w (f w)) Q) -> uniform (fun w => obind (go w) (k w)) Q.
Proof.
  intros [H|[H|(f & HP & H)]] HK.
  - left. intros w. rewrite H. reflexivity.
  - right. left. intros w. rewrite H. reflexivity.
  - destruct (HK f HP H) as [K|[K|(h & HQ & K)]].
    + left. intros w. rewrite H. apply K.
    + right. left. intros w. rewrite H. apply K.
    + right. right. exists h. split; [exact HQ|]. intros w. rewrite H. apply K.
Qed.
Lemma uniform_same {A B} (x : outcome A) (k : Lighting -> A -> outcome B) (Q : (Lighting -> B) -> Prop) :
  (forall a, x = Ret a -> uniform (fun w => k w a) Q) -> uniform (fun w => obind x (k w)) Q.
Proof. destruct x; cbn; intros H; [apply H; reflexivity|left; reflexivity|right; left; reflexivity]. Qed.
Lemma uniform_ret {A} (f : Lighting -> A) (Q : (Lighting -> A) -> Prop) : Q f -> uniform (fun w => Ret (f w)) Q.
Proof. intros H. right. right. exists f. split; [exact H|reflexivity]. Qed.
Lemma uniform_ext {A} (a b : Lighting -> outcome A) Q : (forall w, a w = b w) -> uniform b Q -> uniform a Q.
Proof.
  intros H [K|[K|(f & HQ & K)]]; [left|right; left|right; right; exists f; split; [exact HQ|]]; intros w; rewrite H; apply K.
Qed.

Lemma linear_black : linear (fun _ => BLACK).
Proof. intros a u b v. apply spec_ext; unfold spectrum_mix; spec_tac; field. Qed.
Lemma linear_add f g : linear f -> linear g -> linear (fun w => sadd (f w) (g w)).
Proof. intros Hf Hg a u b v. rewrite Hf, Hg. apply spec_ext; unfold spectrum_mix, sadd, smap2; cbn [sr sg sb]; rsimp; ring. Qed.
Lemma linear_mul f k : linear f -> linear (fun w => smul (f w) k).
Proof. intros Hf a u b v. rewrite Hf. apply spec_ext; unfold spectrum_mix, smul, smap2; cbn [sr sg sb]; rsimp; ring. Qed.
Lemma linear_mulf f k : linear f -> linear (fun w => smulf (f w) k).
Proof. intros Hf a u b v. rewrite Hf. apply spec_ext; unfold spectrum_mix, smulf, smap; cbn [sr sg sb]; rsimp; ring. Qed.
Lemma linear_divf f k : linear f -> linear (fun w => sdivf (f w) k).
Proof. intros Hf a u b v. rewrite Hf. apply spec_ext; unfold spectrum_mix, sdivf, smap; cbn [sr sg sb]; rsimp; unfold Rdiv; ring. Qed.
Lemma linear_lamp i : linear (fun w => lamp w i).
Proof. intros a u b v. reflexivity. Qed.
Lemma linear_sky k d : linear (fun w => smulf k (heaven w d)).
Proof. intros a u b v. cbn [heaven mix]. apply spec_ext; unfold spectrum_mix, smulf, smap; cbn [sr sg sb]; rsimp; ring. Qed.

Lemma nth_number_from {A B} (f : nat -> A -> B) : forall l i j, nth_error (number_from f i l) j = option_map (f (i + j)%nat) (nth_error l j).
Proof.
  induction l as [|a l IH]; intros i [|j]; cbn; try reflexivity.
  - rewrite Nat.add_0_r. reflexivity.
  - rewrite IH. replace (S i + j)%nat with (i + S j)%nat by lia. reflexivity.
Qed.
Lemma relit_material w s i : nth_error (sc_materials (relight w s)) i = option_map (relight_material w i) (nth_error (sc_materials s) i).
Proof. apply (nth_number_from _ _ 0). Qed.

Section Linear.
  Context {E : @Ext NumR} {RG : Gen NumR} {O : @Geo NumR}.
  Variables (fuel : nat) (c : @Tracer NumR) (s : @Scene NumR).
  Hypothesis Hboth : shines_both_sides s.

  (** one shadow ray: everything but the colour is the same *)
  Definition lit_hit (f : Lighting -> option (@Spectrum NumR * @F NumR) * list Z) : Prop :=
    (exists nodes, forall w, f w = (None, nodes)) \/ (exists h pdf nodes, linear h /\ forall w, f w = (Some (h w, pdf), nodes)).
  Lemma light_answer l ray nodes : In l (sc_lights s ++ sc_distant_lights s) ->
    uniform (fun w => intersect_light fuel (relight w s) l ray nodes) lit_hit.
  Proof.
    intros Hl. destruct (Hboth l Hl) as [(cf & Hf) (cb & Hb)]. unfold intersect_light.
    destruct (prim_intersect (ob_primitive l) ray) as [info|]; [|apply uniform_ret; left; eauto]. cbv zeta.
    eapply uniform_ext; [intros w; change (scene_unobstructed_distance fuel (relight w s)) with (scene_unobstructed_distance fuel s); reflexivity|].
    apply uniform_same. intros [clear nd] _. destruct (negb clear).
    { apply (uniform_ret (fun _ => (Some (BLACK, @f0 NumR), nd))). right. exists (fun _ => BLACK), (@f0 NumR), nd. split; [apply linear_black|reflexivity]. }
    assert (K : forall i, (exists co, nth_error (sc_materials s) i = Some (Light co)) ->
      uniform (fun w => run m <- ret_opt (nth_error (sc_materials (relight w s)) i) ;; run pdf <- solid_angle_pdf (ob_primitive l) info ray ;; Ret (Some (mat_colour m, pdf), nd)) lit_hit).
    { intros i (co & Hi). eapply uniform_ext. { intros w. rewrite relit_material, Hi. cbn [option_map ret_opt obind relight_material mat_colour]. reflexivity. }
      apply uniform_same. intros pdf _. apply uniform_ret. right. exists (fun w => lamp w i), pdf, nd. split; [apply linear_lamp|reflexivity]. }
    destruct (i_side info); [apply K; eauto|apply K; eauto|].
    apply (uniform_ret (fun _ => (Some (BLACK, @f0 NumR), nd))). right. exists (fun _ => BLACK), (@f0 NumR), nd. split; [apply linear_black|reflexivity].
  Qed.
  Definition lit_sum (f : Lighting -> @Spectrum NumR * list Z * G) : Prop := exists h nodes g, linear h /\ forall w, f w = (h w, nodes, g).
  Lemma light_loop_linear m r p nm e1 e2 n l : In l (sc_lights s ++ sc_distant_lights s) -> forall loops i acc nodes g, linear acc ->
    uniform (fun w => light_loop loops fuel (relight w s) m r p nm e1 e2 n l i (acc w) nodes g) lit_sum.
  Proof.
    intros Hl. induction loops as [|loops IH]; intros i acc nodes g HA; cbn [light_loop]; destruct (Nat.ltb i n).
    - right. left. reflexivity.
    - apply uniform_ret. exists acc, nodes, g. split; [exact HA|reflexivity].
    - apply uniform_same. intros [dir g1] _. eapply uniform_bind; [apply light_answer; exact Hl|].
      intros f [(nd & Hf)|(h & pdf & nd & Hh & Hf)] _.
      + eapply uniform_ext; [intros w; rewrite Hf; reflexivity|]. apply IH. exact HA.
      + eapply uniform_ext; [intros w; rewrite Hf; reflexivity|]. destruct (fltb pdf TINY18); [apply IH; exact HA|].
        apply uniform_same. intros bs _.
        apply (IH (S i) (fun w => sadd (acc w) (sdivf (smul (smulf (h w) (fabs (vdot nm dir))) bs) (fmul (fofZ (Z.of_nat n)) pdf)))).
        apply linear_add; [exact HA|]. apply linear_divf, linear_mul, linear_mulf, Hh.
    - apply uniform_ret. exists acc, nodes, g. split; [exact HA|reflexivity].
  Qed.
  Lemma lights_loop_linear m r p nm e1 e2 n : forall ls acc nodes g, (forall l, In l ls -> In l (sc_lights s ++ sc_distant_lights s)) -> linear acc ->
    uniform (fun w => lights_loop fuel (relight w s) m r p nm e1 e2 n ls (acc w) nodes g) lit_sum.
  Proof.
    induction ls as [|l ls IH]; intros acc nodes g Hls HA; cbn [lights_loop].
    - apply uniform_ret. exists acc, nodes, g. split; [exact HA|reflexivity].
    - eapply uniform_bind; [apply light_loop_linear; [apply Hls; left; reflexivity|exact HA]|].
      intros f (h & nd & g1 & Hh & Hf) _. eapply uniform_ext; [intros w; rewrite Hf; reflexivity|]. apply IH; [|exact Hh].
      intros l' Hl'. apply Hls. right. exact Hl'.
  Qed.
  Lemma local_linear m r n nodes g : uniform (fun w => get_local_illumination fuel (relight w s) m r n nodes g) lit_sum.
  Proof.
    unfold get_local_illumination, sample_light_array. destruct (get_triad r) as [[[p nm] e1] e2]. cbv zeta.
    eapply uniform_bind.
    { apply (lights_loop_linear m r _ nm e1 e2 n (sc_lights s) (fun _ => BLACK)); [|apply linear_black]. intros l Hl. apply in_or_app. left. exact Hl. }
    intros f (h & nd & g1 & Hh & Hf) _. eapply uniform_ext; [intros w; rewrite Hf; reflexivity|].
    eapply uniform_bind.
    { apply (lights_loop_linear m r _ nm e1 e2 n (sc_distant_lights s) (fun _ => BLACK)); [|apply linear_black]. intros l Hl. apply in_or_app. right. exact Hl. }
    intros f2 (h2 & nd2 & g2 & Hh2 & Hf2) _. eapply uniform_ext; [intros w; rewrite Hf2; reflexivity|].
    apply (uniform_ret (fun w => (sadd (h w) (h2 w), nd2, g2))). exists (fun w => sadd (h w) (h2 w)), nd2, g2. split; [apply linear_add; assumption|reflexivity].
  Qed.

  (** a traced ray: only the light (and the colour noted in the ray) depends on the lighting *)
  Definition traced (f : Lighting -> Traced) : Prop :=
    exists h pdf r aux g, linear h /\ forall w, f w = (h w, pdf, r w, aux, g).
  Definition lit (f : Lighting -> @Spectrum NumR * @Ray NumR * Helper * G) : Prop := exists h r aux g, linear h /\ forall w, f w = (h w, r, aux, g).
  Definition respects (trace : Lighting -> Trace) : Prop := forall r aux g, uniform (fun w => trace w r aux g) traced.

  Lemma ambient_linear trace m p nm e1 e2 depth n : respects trace -> forall loops count acc r aux g, linear acc ->
    uniform (fun w => ambient_loop (trace w) loops fuel m p nm e1 e2 depth n count (acc w) r aux g) lit.
  Proof.
    intros HT. induction loops as [|loops IH]; intros count acc r aux g HA; cbn [ambient_loop]; destruct (Nat.ltb count n).
    - right. left. reflexivity.
    - apply (uniform_ret (fun w => (acc w, r, aux, g))). exists acc, r, aux, g. split; [exact HA|reflexivity].
    - apply uniform_same. intros [[[bv pdf] r1] g1] _. cbv zeta. eapply uniform_bind; [apply HT|].
      intros f (h & lp & r2 & aux2 & g2 & Hh & Hf) _. eapply uniform_ext; [intros w; rewrite Hf; reflexivity|].
      apply uniform_same. intros saved _. destruct (fltb f0 lp); [apply IH; exact HA|].
      apply (IH (S count) (fun w => sadd (acc w) (sdivf (smulf (smul (h w) bv) (fabs (vdot nm (direction (r_geometry r1))))) pdf))).
      apply linear_add; [exact HA|]. apply linear_divf, linear_mulf, linear_mul, Hh.
    - apply (uniform_ret (fun w => (acc w, r, aux, g))). exists acc, r, aux, g. split; [exact HA|reflexivity].
  Qed.
  Lemma global_linear trace n m r aux g : respects trace -> uniform (fun w => get_global_illumination (trace w) fuel n m r aux g) lit.
  Proof.
    intros HT. unfold get_global_illumination. destruct (Nat.eqb n 0).
    { apply (uniform_ret (fun w => (BLACK, r, aux, g))). exists (fun _ => BLACK), r, aux, g. split; [apply linear_black|reflexivity]. }
    destruct (get_triad r) as [[[p nm] e1] e2]. cbv zeta. apply uniform_same. intros aux1 _.
    eapply uniform_bind; [apply (ambient_linear trace m p nm e1 e2 (r_depth r) n HT fuel 0 (fun _ => BLACK)); apply linear_black|].
    intros f (h & r2 & aux2 & g2 & Hh & Hf) _. eapply uniform_ext; [intros w; rewrite Hf; reflexivity|].
    apply (uniform_ret (fun w => (sdivf (h w) (fofZ (Z.of_nat n)), r2, aux2, g2))). exists (fun w => sdivf (h w) (fofZ (Z.of_nat n))), r2, aux2, g2.
    split; [apply linear_divf, Hh|reflexivity].
  Qed.
  Lemma path_linear trace p acc r aux g : respects trace -> linear acc -> uniform (fun w => specular_path (trace w) c p (acc w) r aux g) lit.
  Proof.
    intros HT HA. destruct p as [[q v]|]; cbn [specular_path].
    - cbv zeta. destruct (gen g) as [d g1]. eapply uniform_bind; [apply HT|].
      intros f (h & lp & r2 & aux2 & g2 & Hh & Hf) _. eapply uniform_ext; [intros w; rewrite Hf; reflexivity|].
      apply (uniform_ret (fun w => (sadd (acc w) (smul (h w) v), set_value r (fmul (r_value r) (radiance v)), aux2, g2))).
      exists (fun w => sadd (acc w) (smul (h w) v)). do 3 eexists. split; [apply linear_add; [exact HA|apply linear_mul, Hh]|reflexivity].
    - apply (uniform_ret (fun w => (acc w, r, aux, g))). exists acc, r, aux, g. split; [exact HA|reflexivity].
  Qed.
  Lemma dark_result pdf (r : Lighting -> Ray) aux g : uniform (fun w => Ret (BLACK, pdf, r w, aux, g)) traced.
  Proof. apply (uniform_ret (fun w => (BLACK, pdf, r w, aux, g))). exists (fun _ => BLACK), pdf, r, aux, g. split; [apply linear_black|reflexivity]. Qed.

  Lemma trace_linear nest : respects (fun w => trace_ray nest fuel c (relight w s)).
  Proof.
    induction nest as [|nest IH]; intros r aux g; cbn [trace_ray]; [right; left; reflexivity|].
    eapply uniform_ext; [intros w; change (cast_ray fuel (relight w s) r (h_nodes aux)) with (cast_ray fuel s r (h_nodes aux)); reflexivity|].
    apply uniform_same. intros [[hit r1] nodes] _. cbv zeta. destruct hit as [z|].
    2:{ unfold see_sky, relight. cbn [sc_sky sc_sky_colour]. destruct (sc_sky s) as [sky|]; [|apply (dark_result _ (fun _ => r1))].
        set (k := match sc_sky_colour s with Some c0 => c0 | None => _ end).
        apply (uniform_ret (fun w => (smulf k (heaven w (direction (r_geometry r1))), fdiv (fdiv f1 f2) fpi, set_colour r1 (smul (r_colour r1) (smulf k (heaven w (direction (r_geometry r1))))), mkHelper (h_rays aux) nodes, g))).
        exists (fun w => smulf k (heaven w (direction (r_geometry r1)))), (fdiv (fdiv f1 f2) fpi),
          (fun w => set_colour r1 (smul (r_colour r1) (smulf k (heaven w (direction (r_geometry r1)))))), (mkHelper (h_rays aux) nodes), g.
        split; [apply linear_sky|reflexivity]. }
    set (index := Z.to_nat z).
    assert (HM : forall Q (K : Lighting -> @Material NumR -> outcome Traced),
      (forall i m, nth_error (sc_materials s) i = Some m -> uniform (fun w => K w (relight_material w i m)) Q) ->
      uniform (fun w => Ret (BLACK, @f0 NumR, r1, mkHelper (h_rays aux) nodes, g)) Q ->
      uniform (fun w => run material <- hit_material (relight w s) r1 index ;; match material with None => Ret (BLACK, @f0 NumR, r1, mkHelper (h_rays aux) nodes, g) | Some m => K w m end) Q).
    { intros Q K HK HB. unfold hit_material.
      assert (LK : forall l, uniform (fun w => run material <- (run i <- ret_opt (nth_error l index) ;; run m <- ret_opt (nth_error (sc_materials (relight w s)) i) ;; Ret (Some m)) ;;
        match material with None => Ret (BLACK, @f0 NumR, r1, mkHelper (h_rays aux) nodes, g) | Some m => K w m end) Q).
      { intros l. destruct (nth_error l index) as [i|]; cbn [ret_opt obind]; [|left; reflexivity].
        destruct (nth_error (sc_materials s) i) as [m|] eqn:Hi.
        - eapply uniform_ext; [intros w; rewrite relit_material, Hi; reflexivity|]. apply HK. exact Hi.
        - left. intros w. rewrite relit_material, Hi. reflexivity. }
      destruct (i_side (x_shading (r_interaction r1))); [exact (LK (a_front (sc_arrays s)))|exact (LK (a_back (sc_arrays s)))|]. exact HB. }
    apply HM; [|apply (dark_result _ (fun _ => r1))]. clear HM. intros i m Hi.
    destruct (get_triad r1) as [[[p nm] e1] e2].
    assert (HS : forall mm, emits_light mm = false -> uniform (fun w =>
      if emits_light mm then run t <- ret_opt (nth_error (a_tri (sc_arrays (relight w s))) index) ;;
        Ret (mat_colour mm, triangle_solid_angle_pdf t p (i_normal (x_shading (r_interaction r1))) (r_geometry r1), r1, mkHelper (h_rays aux) nodes, g)
      else if (max_depth c <? r_depth r1)%nat then Ret (BLACK, @f0 NumR, r1, mkHelper (h_rays aux) nodes, g)
      else run normals <- ret_opt (nth_error (a_norm (sc_arrays (relight w s))) index) ;;
        let r := set_shading r1 (interpolate_normal (x_shading (r_interaction r1)) normals) in
        if specular_only mm then specular_bounce (trace_ray nest fuel c (relight w s)) c mm nm p r (mkHelper (h_rays aux) nodes) g
        else scatter (trace_ray nest fuel c (relight w s)) fuel c (relight w s) mm r (mkHelper (h_rays aux) nodes) g) traced).
    { intros mm EM. rewrite EM. destruct (Nat.ltb (max_depth c) (r_depth r1)); [apply (dark_result _ (fun _ => r1))|].
      eapply uniform_ext; [intros w; change (sc_arrays (relight w s)) with (sc_arrays s); reflexivity|].
      apply uniform_same. intros normals _. cbv zeta. set (r2 := set_shading r1 _). clearbody r2. destruct (specular_only mm).
      - unfold specular_bounce. apply uniform_same. intros [p1 p2] _.
        eapply uniform_bind; [apply (path_linear (fun w => trace_ray nest fuel c (relight w s)) p1 (fun _ => BLACK) r2 (mkHelper (h_rays aux) nodes) g IH linear_black)|].
        intros f (h & r3 & aux3 & g3 & Hh & Hf) _. eapply uniform_ext; [intros w; rewrite Hf; reflexivity|].
        eapply uniform_bind; [apply (path_linear (fun w => trace_ray nest fuel c (relight w s)) p2 h r3 aux3 g3 IH Hh)|].
        intros f2 (h2 & r4 & aux4 & g4 & Hh2 & Hf2) _. eapply uniform_ext; [intros w; rewrite Hf2; reflexivity|].
        apply (uniform_ret (fun w => (h2 w, @f0 NumR, set_colour r4 (smul (r_colour r4) (h2 w)), aux4, g4))).
        exists h2, (@f0 NumR), (fun w => set_colour r4 (smul (r_colour r4) (h2 w))), aux4, g4. split; [exact Hh2|reflexivity].
      - unfold scatter. destruct (draw_n_ambient_samples c r2 g) as [[n r3] g3].
        eapply uniform_bind; [apply local_linear|]. intros f (h & nd & g4 & Hh & Hf) _. eapply uniform_ext; [intros w; rewrite Hf; reflexivity|].
        eapply uniform_bind; [apply (global_linear (fun w => trace_ray nest fuel c (relight w s)) n mm r3 _ g4 IH)|].
        intros f2 (h2 & r5 & aux5 & g5 & Hh2 & Hf2) _. eapply uniform_ext; [intros w; rewrite Hf2; reflexivity|].
        apply (uniform_ret (fun w => (sadd (h w) (h2 w), @f0 NumR, r5, aux5, g5))).
        exists (fun w => sadd (h w) (h2 w)), (@f0 NumR), (fun _ => r5), aux5, g5. split; [apply linear_add; assumption|reflexivity]. }
    destruct m as [col sp ro|col sp ro|co|col|col n|col n];
      [exact (HS (Plastic col sp ro) eq_refl)|exact (HS (Metal col sp ro) eq_refl)| |exact (HS (Mirror col) eq_refl)|exact (HS (Dielectric col n) eq_refl)|exact (HS (Glass col n) eq_refl)].
    clear HS. cbn [relight_material emits_light mat_colour].
    eapply uniform_ext; [intros w; change (sc_arrays (relight w s)) with (sc_arrays s); reflexivity|].
    apply uniform_same. intros t _.
    apply (uniform_ret (fun w => (lamp w i, triangle_solid_angle_pdf t p (i_normal (x_shading (r_interaction r1))) (r_geometry r1), r1, mkHelper (h_rays aux) nodes, g))).
    exists (fun w => lamp w i), (triangle_solid_angle_pdf t p (i_normal (x_shading (r_interaction r1))) (r_geometry r1)), (fun _ => r1), (mkHelper (h_rays aux) nodes), g.
    split; [apply linear_lamp|reflexivity].
  Qed.
End Linear.

(** ** a whole picture *)
From Verif Require Import Image Render.
Section Picture.
  Context {E : @Ext NumR} {RG : Gen NumR} {O : @Geo NumR}.
  Variables (nest fuel : nat) (c : @Tracer NumR) (s : @Scene NumR) (width height : nat) (camera : nat * nat -> @Ray NumR * @F NumR).
  Hypothesis Hboth : shines_both_sides s.
  Notation Glow := (Lighting -> @Spectrum NumR).
  Record GWorker := mkGW { gw_pindex : nat; gw_left : nat; gw_traced : option Glow; gw_aux : @Helper NumR; gw_gen : G }.
  Definition worker_at (w : Lighting) (k : GWorker) : @Worker NumR RG :=
    mkWorker (gw_pindex k) (gw_left k) (option_map (fun f => f w) (gw_traced k)) (gw_aux k) (gw_gen k).
  Definition picture_at (ps : list Glow) (ws : list GWorker) (w : Lighting) : @Rendering NumR RG :=
    mkRendering (map (fun f => f w) ps) (map (worker_at w) ws).
  Definition good_worker (k : GWorker) : Prop := forall f, gw_traced k = Some f -> linear f.
  Definition in_progress (f : Lighting -> @Rendering NumR RG) : Prop :=
    exists ps ws, Forall linear ps /\ Forall good_worker ws /\ forall w, f w = picture_at ps ws w.
  Lemma map_set_nth {A B} (f : A -> B) : forall l k x, map f (set_nth k x l) = set_nth k (f x) (map f l).
  Proof. induction l as [|a l IH]; intros [|k] x; cbn; try reflexivity. rewrite IH. reflexivity. Qed.
  Lemma Forall_set_nth {A} (P : A -> Prop) : forall l k x, P x -> Forall P l -> Forall P (set_nth k x l).
  Proof. induction l as [|a l IH]; intros [|k] x Hx HF; cbn; inversion HF; subst; auto. Qed.

  Lemma step_linear k ps ws : Forall linear ps -> Forall good_worker ws ->
    uniform (fun w => render_step nest fuel c (relight w s) width camera k (picture_at ps ws w)) in_progress.
  Proof.
    intros HP HW. unfold render_step, picture_at. cbn [rd_workers rd_pixels].
    eapply uniform_ext; [intros w; rewrite nth_error_map; reflexivity|].
    destruct (nth_error ws k) as [u|] eqn:HU; cbn [option_map].
    2:{ apply (uniform_ret (fun w => picture_at ps ws w)). exists ps, ws. auto. }
    assert (Hu : good_worker u) by (rewrite Forall_forall in HW; apply HW; eapply nth_error_In; exact HU).
    cbn [worker_at w_traced w_pindex w_left w_aux w_gen]. destruct (gw_traced u) as [f|] eqn:HT; cbn [option_map].
    - eapply uniform_ext. { intros w. rewrite <- (map_set_nth (fun h : Glow => h w) ps (gw_pindex u) f).
        change (mkWorker (S (gw_pindex u)) (gw_left u - 1) None (gw_aux u) (gw_gen u)) with (worker_at w (mkGW (S (gw_pindex u)) (gw_left u - 1) None (gw_aux u) (gw_gen u))).
        rewrite <- (map_set_nth (worker_at w)). reflexivity. }
      apply (uniform_ret (fun w => picture_at (set_nth (gw_pindex u) f ps) (set_nth k (mkGW (S (gw_pindex u)) (gw_left u - 1) None (gw_aux u) (gw_gen u)) ws) w)).
      do 2 eexists. split; [|split; [|reflexivity]]; apply Forall_set_nth; try assumption; [exact (Hu f HT)|]. intros h Hh. discriminate.
    - destruct (Nat.eqb (gw_left u) 0). { apply (uniform_ret (fun w => picture_at ps ws w)). exists ps, ws. auto. }
      unfold render_pixel. destruct (pixel_position width (gw_pindex u)) as [pos| |]; cbn [obind]; [|left; reflexivity|right; left; reflexivity].
      destruct (camera pos) as [ray weight].
      apply (uniform_bind (fun w => run (v, _, _, aux, g) <- trace_ray nest fuel c (relight w s) (set_value ray weight) (gw_aux u) (gw_gen u) ;; Ret (v, aux, g))
        (fun w '(v, aux, g) => Ret (mkRendering (map (fun f => f w) ps) (set_nth k (mkWorker (gw_pindex u) (gw_left u) (Some v) aux g) (map (worker_at w) ws))))
        (fun f => exists h aux g, linear h /\ forall w, f w = (h w, aux, g))).
      { eapply uniform_bind; [apply (trace_linear fuel c s Hboth nest)|]. intros f (h & pdf & r & aux & g & Hh & Hf) _. eapply uniform_ext; [intros w; rewrite Hf; reflexivity|].
        apply (uniform_ret (fun w => (h w, aux, g))). exists h, aux, g. auto. }
      intros f (h & aux & g & Hh & Hf) _. eapply uniform_ext. { intros w. rewrite Hf.
        change (mkWorker (gw_pindex u) (gw_left u) (Some (h w)) aux g) with (worker_at w (mkGW (gw_pindex u) (gw_left u) (Some h) aux g)).
        rewrite <- (map_set_nth (worker_at w)). reflexivity. }
      apply (uniform_ret (fun w => picture_at ps (set_nth k (mkGW (gw_pindex u) (gw_left u) (Some h) aux g) ws) w)).
      do 2 eexists. split; [exact HP|split; [|reflexivity]]. apply Forall_set_nth; [|exact HW]. intros f' Hf'. injection Hf' as <-. exact Hh.
  Qed.
  Lemma steps_linear : forall ks ps ws, Forall linear ps -> Forall good_worker ws ->
    uniform (fun w => render_steps nest fuel c (relight w s) width camera ks (picture_at ps ws w)) in_progress.
  Proof.
    induction ks as [|k ks IH]; intros ps ws HP HW; cbn [render_steps].
    - apply (uniform_ret (fun w => picture_at ps ws w)). exists ps, ws. auto.
    - eapply uniform_bind; [apply step_linear; assumption|]. intros f (ps' & ws' & HP' & HW' & Hf) _.
      eapply uniform_ext; [intros w; rewrite Hf; reflexivity|]. apply IH; assumption.
  Qed.
  Lemma picture_linear seed : uniform (fun w => render_sequential nest fuel c (relight w s) width height camera seed)
    (fun f => exists ps, Forall linear ps /\ forall w, f w = mkImage width height (map (fun p => p w) ps)).
  Proof.
    unfold render_sequential. eapply uniform_bind.
    { eapply uniform_ext. 2:{ apply (steps_linear (one_by_one width height) (repeat (fun _ => BLACK) (width * height))
        (map (fun k => mkGW (k * CHUNK) (chunk_length (width * height) k) None helper_default (seed k)) (seq 0 (n_chunks (width * height))))).
        - apply Forall_forall. intros f Hf. apply repeat_spec in Hf. subst f. apply linear_black.
        - apply Forall_forall. intros u Hu. apply in_map_iff in Hu. destruct Hu as (k & <- & _). intros f Hf. discriminate. }
      intros w. f_equal. unfold render_start, picture_at. rewrite map_map.
      assert (MR : forall n, map (fun f : Glow => f w) (repeat (fun _ => BLACK) n) = repeat BLACK n) by (induction n as [|n IHn]; cbn; [reflexivity|f_equal; exact IHn]).
      rewrite MR. reflexivity. }
    intros f (ps & ws & HP & _ & Hf) _. eapply uniform_ext; [intros w; rewrite Hf; reflexivity|].
    unfold from_pixels, picture_at. cbn [rd_pixels]. eapply uniform_ext; [intros w; rewrite map_length; reflexivity|].
    match goal with |- uniform (fun w => if ?b then _ else _) _ => destruct b end; [left; reflexivity|].
    apply (uniform_ret (fun w => mkImage width height (map (fun p => p w) ps))). exists ps. auto.
  Qed.
End Picture.
