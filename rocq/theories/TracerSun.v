(** * TracerSun: tracing returns in scenes lit by distant sources only *)
From Verif Require Import Num Geometry Triangle Sphere Colour Ray Bvh BvhProofs Material Scene Samplers Primitives RayTracer TracerProofs TracerSafe TracerLights.

Section Sun.
  Context {N : Num} {T : Trig N} {E : Ext} {R : Gen N} {O : Geo}.

  (** no light near, no sky, no luminous triangle, and no sample of a distant source misses it *)
  Definition always_met (l : Object) : Prop := forall g p dir g', sample_direction (ob_primitive l) g p = Ret (dir, g') -> prim_intersect (ob_primitive l) (mkRay3D p dir) <> None.
  Definition sunlit (s : Scene) : Prop :=
    sc_lights s = [] /\ sc_sky s = None /\
    (forall i j m, nth_error (a_front (sc_arrays s)) i = Some j \/ nth_error (a_back (sc_arrays s)) i = Some j -> nth_error (sc_materials s) j = Some m -> plain m) /\
    Forall always_met (sc_distant_lights s).

  Lemma sun_loop fuel s m r p normal e1 e2 n : prepared fuel s -> scatters m -> (n <= fuel)%nat ->
    forall ls acc nodes g, Forall (valid_light s) ls -> Forall always_met ls -> returns (lights_loop fuel s m r p normal e1 e2 n ls acc nodes g).
  Proof.
    intros HP HM Hn. induction ls as [|l ls IH]; intros acc nodes g HV HA; cbn [lights_loop]; [apply returns_ret|].
    inversion_clear HV as [|? ? V1 V2]. inversion_clear HA as [|? ? A1 A2].
    apply returns_bind; [|intros [[a b] d] _; apply IH; assumption].
    destruct (light_loop_returns fuel s m r p normal e1 e2 n l HP V1 HM (fun g0 dir g1 H0 => A1 g0 p dir g1 H0) fuel 0 acc nodes g ltac:(lia)) as [x Hx]. exists x. exact Hx.
  Qed.

  Theorem sunlit_trace_returns (Z0 : fltb f0 f0 = false) fuel c s : prepared fuel s -> sunlit s -> counted c ->
    (n_ambient_samples c <= fuel)%nat -> (n_shadow_samples c <= fuel)%nat -> (0 < fuel)%nat ->
    forall nest r aux g, (max_depth c < length (h_rays aux))%nat -> (max_depth c + 2 <= nest + r_depth r)%nat -> (0 < nest)%nat ->
    exists li r' aux' g', trace_ray nest fuel c s r aux g = Ret (li, f0, r', aux', g').
  Proof.
    intros HP (DL & DS & DM & DD) HC Hfa Hfs Hf. induction nest as [|nest IH]; intros r aux g Hk Hn H0; [lia|]. cbn [trace_ray].
    pose proof HP as (HQ & _ & (A1 & A2 & A3) & _). destruct (HQ r (h_nodes aux)) as (o & r1 & nodes & CR & Hi). rewrite CR. cbn [obind]. cbv zeta.
    destruct (cast_keeps _ _ _ _ _ _ _ CR) as (_ & _ & KD & _).
    destruct o as [i|].
    2:{ unfold see_sky. rewrite DS. eauto. }
    destruct (hit_material_returns fuel s r1 _ HP Hi) as (o & HM). rewrite HM. cbn [obind]. destruct o as [m|]; [|eauto].
    assert (Pm : plain m).
    { unfold hit_material in HM. cbv zeta in HM.
      destruct (i_side _); try discriminate.
      all: match type of HM with context [nth_error ?l ?i] => destruct (nth_error l i) as [j|] eqn:E1 end; cbn [ret_opt obind] in HM; try discriminate.
      all: destruct (nth_error (sc_materials s) j) as [m'|] eqn:E2; cbn [ret_opt obind] in HM; try discriminate; injection HM as <-; eapply DM; [|exact E2]; first [left; exact E1|right; exact E1]. }
    destruct (get_triad r1) as [[[p nm] e1] e2].
    destruct (emits_light m) eqn:EL; [destruct m; cbn in EL, Pm; [discriminate|discriminate|contradiction|discriminate..]|].
    destruct (Nat.ltb_spec (max_depth c) (r_depth r1)) as [L|L]; [eauto|].
    assert (Hnn : nth_error (a_norm (sc_arrays s)) (Z.to_nat i) <> None) by (apply nth_error_Some; rewrite A3; exact Hi).
    destruct (ret_opt_some _ Hnn) as [ns En]. rewrite En. cbn [ret_opt obind].
    set (r2 := set_shading r1 _). assert (D2 : r_depth r2 = r_depth r) by (cbn; exact KD).
    assert (GD : good (S (r_depth r)) (length (h_rays aux)) (trace_ray nest fuel c s)).
    { intros r' aux' g' Hd Hl. apply IH; lia. }
    pose proof (trace_ray_frame fuel c s nest) as FR.
    destruct (specular_only m) eqn:SO.
    - unfold specular_bounce. destruct (get_possible_paths m nm p r2) as [[p1 p2]| |] eqn:PP; cbn [obind].
      2,3: destruct m; cbn in SO, PP; discriminate.
      destruct (possible_paths_depth _ _ _ _ _ _ PP) as [P1 P2]. rewrite D2 in P1, P2.
      assert (SPR : forall q li r' aux' g', path_depth (r_depth r) q -> length (h_rays aux') = length (h_rays aux) ->
              exists l3 r3 a3 g3, specular_path (trace_ray nest fuel c s) c q li r' aux' g' = Ret (l3, r3, a3, g3) /\ length (h_rays a3) = length (h_rays aux)).
      { intros q li r' aux' g' HPq Hl. destruct q as [[nr bv]|]; cbn [specular_path]; [|repeat eexists; exact Hl]. cbn [path_depth] in HPq.
        pose proof (HC g') as Hcg. destruct (gen g') as [x g1]. cbn [fst] in Hcg. rewrite Hcg.
        destruct (GD (set_depth nr (S (r_depth nr))) aux' g1) as (l3 & r3 & a3 & g3 & TR); [cbn; lia|exact Hl|].
        rewrite TR. cbn [obind]. repeat eexists. destruct (FR _ _ _ _ _ _ _ _ TR) as [LL _]. congruence. }
      destruct (SPR p1 BLACK r2 (mkHelper (h_rays aux) nodes) g P1 eq_refl) as (l3 & r3 & a3 & g3 & -> & L3). cbn [obind].
      destruct (SPR p2 l3 r3 a3 g3 P2 L3) as (l4 & r4 & a4 & g4 & -> & L4). cbn [obind]. eauto 10.
    - unfold scatter. destruct (draw_n_ambient_samples c r2 g) as [[na r3] g3] eqn:DN.
      destruct (draw_n_keeps _ _ _ _ _ _ DN) as (_ & _ & KD3 & _). pose proof (not_special m EL SO) as HMs.
      assert (Hna : (na <= fuel)%nat).
      { unfold draw_n_ambient_samples, get_n_ambient_samples in DN.
        destruct (Nat.eqb (max_depth c) 0); cbn [orb] in DN; [injection DN as <- _ _; lia|].
        destruct (Nat.eqb (n_ambient_samples c) 0); cbn [orb] in DN; [injection DN as <- _ _; lia|].
        destruct (Nat.eqb (r_depth r2) 0); cbn [orb] in DN; [injection DN as <- _ _; lia|].
        destruct (gen g) as [q g1]. destruct (fltb _ q); injection DN as <- _ _; lia. }
      assert (LR : returns (get_local_illumination fuel s m r3 (if Nat.eqb (r_depth r3) 0 then n_shadow_samples c else 1%nat) nodes g3)).
      { unfold get_local_illumination, sample_light_array. rewrite DL. destruct (get_triad r3) as [[[p3 nm3] e13] e23]. cbn [lights_loop obind].
        apply returns_bind; [|intros [[a b] d] _; apply returns_ret]. pose proof HP as (_ & _ & _ & _ & _ & _ & VD).
        apply sun_loop; [exact HP|exact HMs|destruct (Nat.eqb (r_depth r3) 0); lia|exact VD|exact DD]. }
      cbn [h_nodes]. destruct LR as [[[lo nd4] g4] ->]. cbn [obind]. destruct (get_triad r3) as [[[p3 nm3] e13] e23] eqn:GT.
      match goal with |- context [get_global_illumination ?t ?f ?n ?m ?r ?a ?g] => assert (GR : returns (get_global_illumination t f n m r a g)) end.
      { unfold get_global_illumination. destruct (Nat.eqb_spec na 0) as [Z|Z]; [apply returns_ret|]. rewrite GT. 
        unfold store_ray. cbn [h_rays]. destruct (Nat.ltb_spec (r_depth r3) (length (h_rays aux))) as [L3|L3]; [|lia]. cbn [obind].
        apply returns_bind; [|intros [[[gl r5] a5] g5] _; apply returns_ret].
        eapply ambient_loop_returns with (k := length (h_rays aux)); try assumption; cbn [h_rays].
        - rewrite KD3, D2. exact GD.
        - reflexivity.
        - apply set_nth_length.
        - exists r3. split; [apply set_nth_same; exact L3|reflexivity]. }
      destruct GR as [[[[gl r5] a5] g5] ->]. cbn [obind]. eauto.
  Qed.
End Sun.
