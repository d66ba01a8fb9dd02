(** * TracerSky: what the tracer does with samples that escape to the sky (any arithmetic) *)
From Verif Require Import Num Geometry Triangle Sphere Colour Ray Bvh Material Scene Samplers Primitives RayTracer TracerProofs TracerSafe.

Section Sky.
  Context {N : Num} {T : Trig N} {E : Ext} {RG : Gen N} {O : Geo}.

  (** the numbers a material sample used are numbers the generator produced *)
  Definition drawn (x : F) : Prop := exists g : G, x = fst (gen g).
  Lemma ward_loop_skip normal e1 e2 sp al be ray p ps :
    ward_loop normal e1 e2 sp al be ray [p] = Stuck ->
    ward_loop normal e1 e2 sp al be ray (p :: ps) = ward_loop normal e1 e2 sp al be ray ps.
  Proof.
    destruct p as [x1 x2]. cbn [ward_loop]. cbv zeta. destruct (orb _ _); [|reflexivity]. destruct (evaluate_ward _ _ _ _ _ _ _ _) as [a b].
    destruct (negb _); discriminate.
  Qed.
  Lemma ward_loop_first normal e1 e2 sp al be ray p ps x :
    ward_loop normal e1 e2 sp al be ray [p] = Ret x -> ward_loop normal e1 e2 sp al be ray (p :: ps) = Ret x.
  Proof.
    destruct p as [x1 x2]. cbn [ward_loop]. cbv zeta. destruct (orb _ _); [|discriminate]. destruct (evaluate_ward _ _ _ _ _ _ _ _) as [a b].
    destruct (negb _); [discriminate|]. trivial.
  Qed.
  Lemma ward_draw_value normal e1 e2 sp al be ray : forall fuel g x g', ward_draw fuel normal e1 e2 sp al be ray g = Ret (x, g') ->
    exists ps, Forall (fun p => drawn (fst p) /\ drawn (snd p)) ps /\ ward_loop normal e1 e2 sp al be ray ps = Ret x.
  Proof.
    induction fuel as [|fuel IH]; intros g x g'; cbn [ward_draw]; [discriminate|].
    destruct (gen g) as [x1 g1] eqn:G1, (gen g1) as [x2 g2] eqn:G2.
    assert (D : drawn x1 /\ drawn x2) by (split; [exists g|exists g1]; [rewrite G1|rewrite G2]; reflexivity).
    destruct (ward_loop _ _ _ _ _ _ _ _) as [y| |] eqn:W; try discriminate.
    - intros H. injection H as <- <-. exists [(x1, x2)]. split; [repeat constructor; apply D|exact W].
    - intros H. destruct (IH _ _ _ H) as (ps & F1 & F2). exists ((x1, x2) :: ps). split; [constructor; [exact D|exact F1]|].
      rewrite ward_loop_skip by exact W. exact F2.
  Qed.
  (** a sample drawn while tracing is a sample of the material in the sense of properties C18-C26 *)
  Lemma sample_bsdf_draw_value fuel m normal e1 e2 p r g v w r' g' :
    sample_bsdf_draw fuel m normal e1 e2 p r g = Ret (v, w, r', g') -> exists wd,
    sample_bsdf m normal e1 e2 p r wd = Ret (v, w, r') /\ drawn (wd_prob wd) /\ drawn (fst (wd_disc wd)) /\ drawn (snd (wd_disc wd)) /\
    Forall (fun p => drawn (fst p) /\ drawn (snd p)) (wd_pairs wd).
  Proof.
    assert (W : forall s ro x g', sample_ward_draw fuel normal e1 e2 p s ro ro r g = Ret (x, g') -> exists wd,
      sample_ward normal e1 e2 p s ro ro r wd = Ret x /\ drawn (wd_prob wd) /\ drawn (fst (wd_disc wd)) /\ drawn (snd (wd_disc wd)) /\
      Forall (fun p => drawn (fst p) /\ drawn (snd p)) (wd_pairs wd)).
    { intros s ro x g1. unfold sample_ward_draw. destruct (gen g) as [q g2] eqn:G0.
      assert (D0 : drawn q) by (exists g; rewrite G0; reflexivity). destruct (fltb q s) eqn:Q.
      - intros H. destruct (ward_draw_value _ _ _ _ _ _ _ _ _ _ _ H) as (ps & F1 & F2). exists (mkWD q ps (q, q)).
        split; [unfold sample_ward; cbn [wd_prob wd_pairs]; rewrite Q; exact F2|]. cbn. auto.
      - destruct (gen g2) as [x1 g3] eqn:G2, (gen g3) as [x2 g4] eqn:G3. destruct (sample_ward _ _ _ _ _ _ _ _ _) as [y| |] eqn:SW; cbn [obind]; try discriminate.
        intros H. injection H as <- <-. exists (mkWD q [] (x1, x2)). split; [exact SW|]. cbn. split; [exact D0|].
        split; [exists g2; rewrite G2; reflexivity|]. split; [exists g3; rewrite G3; reflexivity|constructor]. }
    destruct m; cbn [sample_bsdf_draw sample_bsdf]; try discriminate.
    all: match goal with |- context [sample_ward_draw _ _ _ _ _ ?s ?ro _ _ _] =>
           destruct (sample_ward_draw fuel normal e1 e2 p s ro ro r g) as [[[[[a b] d] r1] g1]| |] eqn:SW; cbn [obind]; try discriminate;
           intros H; injection H as <- <- <- <-; destruct (W s ro _ _ SW) as (wd & H1 & H2); exists wd; rewrite H1; split; [reflexivity|exact H2] end.
  Qed.

  (** ** two scenes that differ in their sky only *)
  Variable f : Vec -> F.
  Variable col : option Spectrum.
  Definition under (s : Scene) : Scene := set_sky_colour (set_sky s (Some f)) col.
  Lemma light_loop_sky fuel s m r p normal e1 e2 n l : forall loops i acc nodes g,
    light_loop loops fuel (under s) m r p normal e1 e2 n l i acc nodes g = light_loop loops fuel s m r p normal e1 e2 n l i acc nodes g.
  Proof.
    induction loops as [|loops IH]; intros i acc nodes g; cbn [light_loop]; destruct (Nat.ltb i n); try reflexivity.
    destruct (sample_direction _ _ _) as [[d g']| |]; try reflexivity. cbn [obind]. cbv zeta.
    change (intersect_light fuel (under s)) with (intersect_light fuel s).
    destruct (intersect_light _ _ _ _ _) as [[[[lc pdf]|] nd]| |]; cbn [obind]; try reflexivity; [|apply IH].
    destruct (fltb pdf _); [apply IH|]. destruct (eval_bsdf _ _ _ _ _ _ _ _); cbn [obind]; try reflexivity. apply IH.
  Qed.
  Lemma lights_loop_sky fuel s m r p normal e1 e2 n : forall ls acc nodes g,
    lights_loop fuel (under s) m r p normal e1 e2 n ls acc nodes g = lights_loop fuel s m r p normal e1 e2 n ls acc nodes g.
  Proof.
    induction ls as [|l ls IH]; intros acc nodes g; cbn [lights_loop]; [reflexivity|]. rewrite light_loop_sky.
    destruct (light_loop _ _ _ _ _ _ _ _ _ _ _ _ _ _) as [[[a b] c]| |]; cbn [obind]; try reflexivity. apply IH.
  Qed.
  Lemma local_sky fuel s m r n nodes g : get_local_illumination fuel (under s) m r n nodes g = get_local_illumination fuel s m r n nodes g.
  Proof.
    unfold get_local_illumination, sample_light_array. destruct (get_triad r) as [[[p nm] e1] e2].
    change (sc_lights (under s)) with (sc_lights s). change (sc_distant_lights (under s)) with (sc_distant_lights s).
    rewrite lights_loop_sky. destruct (lights_loop _ _ _ _ _ _ _ _ _ _ _ _ _) as [[[a b] c]| |]; cbn [obind]; try reflexivity.
    rewrite lights_loop_sky. reflexivity.
  Qed.

  Definition alike (a b : outcome Traced) : Prop :=
    match a, b with
    | Ret (li1, pdf1, r1, aux1, g1), Ret (li2, pdf2, r2, aux2, g2) =>
        pdf1 = pdf2 /\ aux1 = aux2 /\ g1 = g2 /\ (fltb f0 pdf1 = true \/ li1 = li2 /\ r1 = r2)
    | Crash, Crash | Stuck, Stuck => True
    | _, _ => False
    end.
  Lemma alike_refl a : alike a a.
  Proof. destruct a as [[[[[a b] c] d] e]| |]; cbn; auto 6. Qed.
  Definition alikes (t1 t2 : Trace) : Prop := forall r aux g, alike (t1 r aux g) (t2 r aux g).
  Lemma ambient_loop_alike t1 t2 fuel m p normal e1 e2 depth n : alikes t1 t2 -> forall loops count global r aux g,
    ambient_loop t1 loops fuel m p normal e1 e2 depth n count global r aux g = ambient_loop t2 loops fuel m p normal e1 e2 depth n count global r aux g.
  Proof.
    intros HA. induction loops as [|loops IH]; intros count global r aux g; cbn [ambient_loop]; destruct (Nat.ltb count n); try reflexivity.
    destruct (sample_bsdf_draw _ _ _ _ _ _ _ _) as [[[[bv pdf] r1] g1]| |]; cbn [obind]; try reflexivity. cbv zeta.
    set (r2 := set_value _ _). pose proof (HA r2 aux g1) as H.
    destruct (t1 r2 aux g1) as [[[[[l1 p1] q1] a1] h1]| |], (t2 r2 aux g1) as [[[[[l2 p2] q2] a2] h2]| |]; cbn in H; try contradiction; try reflexivity.
    cbn [obind]. destruct H as (-> & -> & -> & H). destruct (ret_opt _) as [sv| |]; cbn [obind]; try reflexivity.
    destruct (fltb f0 p2) eqn:P; [apply IH|]. destruct H as [H|[-> ->]]; [discriminate|]. apply IH.
  Qed.

  Hypothesis Hdensity : fltb f0 (fdiv (fdiv f1 f2) fpi) = true.
  Theorem sky_unseen fuel c s : sc_sky s <> None -> Forall (fun m => specular_only m = false) (sc_materials s) ->
    forall nest, alikes (trace_ray nest fuel c s) (trace_ray nest fuel c (under s)) /\
    forall r aux g i r1 nodes, cast_ray fuel s r (h_nodes aux) = Ret (Some i, r1, nodes) ->
      trace_ray nest fuel c (under s) r aux g = trace_ray nest fuel c s r aux g.
  Proof.
    intros HS HM. induction nest as [|nest [IH _]].
    { split; [intros r aux g; exact I|reflexivity]. }
    assert (Hit : forall r aux g i r1 nodes, cast_ray fuel s r (h_nodes aux) = Ret (Some i, r1, nodes) ->
      trace_ray (S nest) fuel c (under s) r aux g = trace_ray (S nest) fuel c s r aux g).
    { intros r aux g i r1 nodes CR. cbn [trace_ray]. change (cast_ray fuel (under s)) with (cast_ray fuel s). rewrite CR. cbn [obind]. cbv zeta.
      change (hit_material (under s)) with (hit_material s).
      destruct (hit_material s r1 (Z.to_nat i)) as [[m|]| |] eqn:HMat; cbn [obind]; try reflexivity.
      assert (Sp : specular_only m = false).
      { rewrite Forall_forall in HM. apply HM. unfold hit_material in HMat. cbv zeta in HMat. destruct (i_side _); try discriminate.
        all: match type of HMat with context [nth_error ?l ?i] => destruct (nth_error l i) as [j|] eqn:E1 end; cbn [ret_opt obind] in HMat; try discriminate.
        all: destruct (nth_error (sc_materials s) j) as [m'|] eqn:E2; cbn [ret_opt obind] in HMat; try discriminate; injection HMat as <-; eapply nth_error_In; exact E2. }
      destruct (get_triad r1) as [[[p nm] e1] e2]. change (sc_arrays (under s)) with (sc_arrays s). rewrite Sp.
      destruct (emits_light m); [reflexivity|]. destruct (Nat.ltb _ _); [reflexivity|]. destruct (ret_opt _) as [ns| |]; cbn [obind]; try reflexivity.
      set (r2 := set_shading _ _). unfold scatter. destruct (draw_n_ambient_samples c r2 g) as [[na r3] g3].
      rewrite local_sky. destruct (get_local_illumination _ _ _ _ _ _ _) as [[[lo nd] g4]| |]; cbn [obind]; try reflexivity.
      unfold get_global_illumination. destruct (Nat.eqb na 0); [reflexivity|]. destruct (get_triad r3) as [[[p3 nm3] e13] e23].
      destruct (store_ray _ _ _) as [aux3| |]; cbn [obind]; try reflexivity. rewrite (ambient_loop_alike _ _ _ _ _ _ _ _ _ _ IH). reflexivity. }
    split; [|exact Hit].
    intros r aux g. destruct (cast_ray fuel s r (h_nodes aux)) as [[[[i|] r1] nodes]| |] eqn:CR.
    - rewrite (Hit _ _ _ _ _ _ CR). apply alike_refl.
    - cbn [trace_ray]. change (cast_ray fuel (under s)) with (cast_ray fuel s). rewrite CR. cbn [obind]. cbv zeta. unfold see_sky.
      cbn [under sc_sky set_sky_colour set_sky]. destruct (sc_sky s); [|contradiction]. cbn. rewrite Hdensity. auto.
    - cbn [trace_ray]. change (cast_ray fuel (under s)) with (cast_ray fuel s). rewrite CR. exact I.
    - cbn [trace_ray]. change (cast_ray fuel (under s)) with (cast_ray fuel s). rewrite CR. exact I.
  Qed.

  (** ** samples that always escape *)
  (** if every sample comes back with a positive density, the loop never ends *)
  Definition escapes (trace : Trace) (m : Material) (normal e1 e2 p : Vec) (depth : nat) (r0 : Ray) : Prop :=
    forall fuel aux g, nth_error (h_rays aux) depth = Some r0 -> exists v w r1 g1 li pdf r2 aux2 g2,
      sample_bsdf_draw fuel m normal e1 e2 p r0 g = Ret (v, w, r1, g1) /\
      trace (set_value (set_depth r1 (S (r_depth r1))) (fmul (r_value r1) (fdiv (fmul (radiance v) (fabs (vdot normal (direction (r_geometry r1))))) w))) aux g1
        = Ret (li, pdf, r2, aux2, g2) /\
      fltb f0 pdf = true /\ nth_error (h_rays aux2) depth = Some r0.
  Lemma ambient_loop_escapes trace m p normal e1 e2 depth n r0 fuel : escapes trace m normal e1 e2 p depth r0 ->
    forall loops count global aux g, (count < n)%nat -> nth_error (h_rays aux) depth = Some r0 ->
    ambient_loop trace loops fuel m p normal e1 e2 depth n count global r0 aux g = Stuck.
  Proof.
    intros HE. induction loops as [|loops IH]; intros count global aux g Hc Ha; cbn [ambient_loop];
      (replace (Nat.ltb count n) with true by (symmetry; apply Nat.ltb_lt; exact Hc)); [reflexivity|].
    destruct (HE fuel aux g Ha) as (v & w & r1 & g1 & li & pdf & r2 & aux2 & g2 & -> & TR & HP & Ha2). cbn [obind]. cbv zeta.
    change (r_value (set_depth r1 (S (r_depth r1)))) with (r_value r1).
    rewrite TR. cbn [obind]. rewrite Ha2. cbn [ret_opt obind]. rewrite HP. apply IH; assumption.
  Qed.
End Sky.
