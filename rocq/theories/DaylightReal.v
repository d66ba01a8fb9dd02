(** * DaylightReal: physical materials on flat triangles never make a ray's colour negative (real arithmetic) *)
From Coq Require Import Permutation.
From Verif Require Import NumR Geometry Triangle Sphere Colour ColourMatrix SpecMatrix MatrixProofs Ray Bvh BvhProofs Material Scene Samplers Primitives RayTracer Daylight DaylightProofs
  TracerProofs TracerSafe TracerScenes TracerLone SpecColour SpecGeom SpecBvh SpecScene TriangleProofs BvhReal BvhQuery SceneProofs SpecOptics MaterialProofs
  P_Triangle P_Frame P_Bvh P_Material P_Tracer.
Open Scope R_scope.

Definition nonneg (c : @Spectrum NumR) : Prop := all_channels (fun x => 0 <= x) c.
(** physically meaningful parameters; glossy materials without their specular lobe *)
Definition physical (m : @Material NumR) : Prop :=
  match m with
  | Plastic c s _ | Metal c s _ => nonneg c /\ s = 0
  | Light _ | Mirror _ => True
  | Dielectric c ri => nonneg c /\ 0 < ri
  | Glass c ri => in_range 0 1 c /\ 1 <= ri
  end.
Lemma nonneg_mul a b : nonneg a -> nonneg b -> nonneg (smul a b).
Proof. intros (A1 & A2 & A3) (B1 & B2 & B3). unfold nonneg, all_channels, smul, smap2. cbn [sr sg sb]. change (@fmul NumR) with Rmult. repeat split; apply Rmult_le_pos; assumption. Qed.
Lemma nonneg_smulf a (k : R) : nonneg a -> 0 <= k -> nonneg (smulf a k).
Proof. intros (A1 & A2 & A3) B. unfold nonneg, all_channels, smulf, smap. cbn [sr sg sb]. change (@fmul NumR) with Rmult. repeat split; apply Rmult_le_pos; assumption. Qed.
Lemma nonneg_sdivf a (k : R) : nonneg a -> 0 <= k -> nonneg (sdivf a k).
Proof.
  intros (A1 & A2 & A3) B. unfold nonneg, all_channels, sdivf, smap. cbn [sr sg sb]. change (@fdiv NumR) with Rdiv.
  assert (K : 0 <= / k). { destruct (Req_dec k 0) as [->|]; [rewrite Rinv_0; lra|]. left. apply Rinv_0_lt_compat. lra. }
  repeat split; apply Rmult_le_pos; assumption.
Qed.
Lemma nonneg_gray (x : R) : 0 <= x -> nonneg (gray x).
Proof. intros H. repeat split; exact H. Qed.

Lemma fresnel_critical (n1 c1 n2 : R) : 0 < n1 -> 0 < c1 -> @fresnel_reflectance NumR n1 c1 n2 0 = 1.
Proof.
  intros H1 H2. unfold fresnel_reflectance, fresnel_te, fresnel_tm. cbn [flit fmul fadd fdiv fsub NumR]. unfold Rdiv. rewrite Rinv_0.
  match goal with |- ?a = ?b => change (@eq R a b) end. replace (n2 * 0) with 0 by ring. field. split; lra.
Qed.
Lemma paths_nonneg (m : @Material NumR) (n p : VecR) (ray nr : RayTR) p1 p2 b : physical m -> unit (dir_of ray) -> unit n -> dot (dir_of ray) n < 0 ->
  0 < r_refraction_index ray -> nonneg (r_colour ray) -> get_possible_paths m n p ray = Ret (p1, p2) -> (p1 = Some (nr, b) \/ p2 = Some (nr, b)) ->
  unit (dir_of nr) /\ 0 < r_refraction_index nr /\ nonneg (r_colour nr) /\ nonneg b.
Proof.
  intros HM HU HV HD HR HC HP HQ.
  assert (HQ1 : p1 = Some (nr, b) -> unit (dir_of nr) /\ 0 < r_refraction_index nr /\ nonneg (r_colour nr)).
  { intros ->. destruct (C18_reflected_paths m n p ray _ _ HU HV HP) as (ray1 & v & Q & D1 & _ & D2 & D3 & _). injection Q as <- <-.
    rewrite D1, D2, D3. split; [apply (C18_reflection _ _ HU HV)|]. auto. }
  destruct m as [c s ro|c s ro|c|c|c ri|c ri]; cbn [get_possible_paths] in HP; try discriminate; cbn [physical] in HM.
  - (* mirror *) unfold mirror_paths, mirror_bsdf in HP. injection HP as <- <-. destruct HQ as [HQ|HQ]; [|discriminate].
    destruct (HQ1 HQ) as (A1 & A2 & A3). split; [exact A1|]. split; [exact A2|]. split; [exact A3|]. injection HQ as <- <-.
    apply nonneg_smulf; [apply nonneg_smulf|]; [repeat split; cbn; lra| |apply Rabs_pos].
    change (0 <= 1/1 / Rabs (dot (dir_of ray) n)). unfold Rdiv. rewrite Rinv_1, Rmult_1_r, Rmult_1_l. left. apply Rinv_0_lt_compat. rewrite Rabs_left; lra.
  - (* dielectric *) destruct HM as [Hc Hri].
    destruct (C19_snell (dir_of ray) n (r_refraction_index ray) ri HU HV HR Hri) as (c2 & CE & _ & Sn).
    pose proof (C21_refraction (dir_of ray) n (r_refraction_index ray) ri (beyond (r_refraction_index ray) ri) (Rabs (dot (dir_of ray) n))) as HT.
    set (c1 := Rabs (dot (dir_of ray) n)) in *. assert (Hc1 : 0 < c1) by (unfold c1; rewrite Rabs_left; lra).
    set (n1 := @r_refraction_index NumR ray) in *. set (n2 := beyond n1 ri) in *.
    assert (Hn2 : 0 < n2) by (unfold n2, beyond; destruct (Rlt_dec _ _); lra).
    unfold dielectric_paths in HP. cbv zeta in HP. fold (dir_of ray) in HP. fold n1 in HP. rewrite CE in HP.
    destruct c2 as [c2|].
    + destruct (Sn c2 eq_refl) as [R2 _]. destruct (HT c2 HU HV ltac:(lra) HR Hri CE) as (T1 & _).
      assert (HFr : 0 <= @fresnel_reflectance NumR n1 c1 n2 c2 <= 1).
      { destruct (Req_dec c2 0) as [Z|Z].
        - rewrite Z, fresnel_critical by assumption. lra.
        - rewrite fresnel_value by (assumption || lra). apply fresnel_range; assumption || lra. }
      cbn [dielectric_refl_trans] in HP. cbv zeta in HP. set (f := @fresnel_reflectance NumR n1 c1 n2 c2) in *. clearbody f. injection HP as <- <-.
      destruct HQ as [HQ|HQ].
      * destruct (HQ1 HQ) as (A1 & A2 & A3). split; [exact A1|]. split; [exact A2|]. split; [exact A3|]. injection HQ as <- <-.
        apply nonneg_smulf; [apply nonneg_sdivf; [apply nonneg_smulf; [repeat split; cbn; lra|apply HFr]|lra]|lra].
      * injection HQ as <- <-. split; [exact T1|]. split; [exact Hn2|]. split; [apply nonneg_mul; [exact HC|exact Hc]|].
        apply nonneg_smulf; [apply nonneg_sdivf; [apply nonneg_smulf; [exact Hc|]|]|]; try apply R2.
        change (0 <= (1/1 - f) * (n2 / n1 * (n2 / n1))). apply Rmult_le_pos; [lra|]. apply Rle_0_sqr.
    + cbn [dielectric_refl_trans] in HP. injection HP as <- <-. destruct HQ as [HQ|HQ]; [|discriminate].
      destruct (HQ1 HQ) as (A1 & A2 & A3). split; [exact A1|]. split; [exact A2|]. split; [exact A3|]. injection HQ as <- <-.
      apply nonneg_smulf; [apply nonneg_sdivf; [repeat split; cbn; lra|lra]|lra].
  - (* glass *) destruct HM as [Hc Hri].
    destruct (C23_paths c ri n p ray p1 p2 HP) as (refl & trans & GE & (ray1 & G1) & G2 & _).
    assert (HD' : dot n (dir_of ray) <> 0) by (rewrite dot_comm; lra).
    destruct (C23_energy c ri n (dir_of ray) (Rabs (dot (dir_of ray) n)) refl trans Hc Hri HV HU HD' GE) as (N1 & N2 & _).
    destruct HQ as [HQ|HQ].
    + destruct (HQ1 HQ) as (A1 & A2 & A3). split; [exact A1|]. split; [exact A2|]. split; [exact A3|]. rewrite G1 in HQ. injection HQ as <- <-. exact N1.
    + destruct G2 as [G2|(ray2 & G2 & D1 & _ & D3 & D4)]; [congruence|]. rewrite G2 in HQ. injection HQ as <- <-. rewrite D1, D3, D4. auto.
Qed.

(** a colour, direction and medium that make sense *)
Definition sound_ray (r : RayTR) : Prop := unit (dir_of r) /\ 0 < r_refraction_index r /\ nonneg (r_colour r).

Section Diffuse.
  Context {RG : Gen NumR}.
  Hypothesis Hfair : fair RG.
  Lemma diffuse_sample (m : @Material NumR) c (s ro : R) (n e1 e2 p : VecR) (r r' : RayTR) fuel g v (w : R) g' :
    (m = Plastic c s ro \/ m = Metal c s ro) -> s = 0 -> frame e1 e2 n -> sample_bsdf_draw fuel m n e1 e2 p r g = Ret (v, w, r', g') ->
    v = smulf c (1 / PI) /\ unit (dir_of r') /\ 0 < dot (dir_of r') n /\ w = dot (dir_of r') n / PI /\ start_of r' = plus p (times (1 / 100000) n).
  Proof.
    intros Hm -> HF HS. pose proof (Hfair g) as Q0. destruct (gen g) as [q g1] eqn:G0. cbn [fst] in Q0.
    pose proof (Hfair g1) as Q1. destruct (gen g1) as [x1 g2] eqn:G1. cbn [fst] in Q1. destruct (gen g2) as [x2 g3] eqn:G2.
    destruct (C26_diffuse_branch m c 0 ro n e1 e2 p r q [] x1 x2 Hm HF (proj1 Q0) Q1) as (pdf & r1 & SB & P1 & P2 & P3 & P4 & P5 & P6).
    assert (QF : @fltb NumR q 0 = false) by (change (Rltb q 0 = false); apply Rltb_is_false; lra).
    assert (K : Ret (v, w, r', g') = Ret (smulf c ((1 - 0) / PI), pdf, r1, g3)).
    { rewrite <- HS. destruct Hm as [-> | ->]; cbn [sample_bsdf_draw sample_bsdf] in *; unfold sample_ward_draw; rewrite G0, QF, G1, G2;
      (destruct (sample_ward _ _ _ _ _ _ _ _ _) as [[[[a b] w'] r2]| |]; cbn [obind] in *; [|discriminate|discriminate]); congruence. }
    injection K as -> -> -> ->. split; [f_equal; match goal with |- ?a = ?b => change (@eq R a b) end; unfold Rdiv; ring|]. auto.
  Qed.
End Diffuse.

(** every object of the history is a triangle: the vertex normals are those of the plane *)
Definition all_triangles (h : list (@op NumR)) : Prop := forall f b p, In (f, b, p) (objects_of h) -> exists t, p = PTriangle t.

Section Flat.
  Context {E : @Ext NumR} {HE : externals_ok E} {RG : Gen NumR} {O : @Geo NumR}.
  Hypothesis Hfair : fair RG.
  Variable s : @Scene NumR.
  Variable fuel : nat.
  Hypothesis Hfind : forall r aux, finds s fuel r aux.
  Hypothesis Halign : aligned (sc_arrays s).
  Variable h : list (@op NumR).
  Hypothesis Hrec : Permutation (records (sc_arrays s)) (flat_map stored (objects_of h)).
  Hypothesis Hflat : all_triangles h.
  Hypothesis Hphys : Forall physical (sc_materials s).

  Lemma flat_normals j t : nth_error (a_tri (sc_arrays s)) j = Some t -> nth_error (a_norm (sc_arrays s)) j = Some (plane_normal t, plane_normal t, plane_normal t).
  Proof.
    intros Ht. destruct (record_at (sc_arrays s) j t Halign Ht) as (f & b & nn & _ & _ & Hn & Hin). rewrite Hn. f_equal.
    eapply Permutation_in in Hin; [|exact Hrec]. apply in_flat_map in Hin as ([[f' b'] p] & Ho & Hi). destruct (Hflat _ _ _ Ho) as (t' & ->).
    unfold stored, facets in Hi. cbn [map fst snd] in Hi. destruct Hi as [Hi|[]].
    change (@vcross NumR (vsub (tb t') (ta t')) (vsub (tc t') (ta t'))) with (cross (minus (tb t') (ta t')) (minus (tc t') (ta t'))) in Hi. fold (plane_normal t') in Hi.
    injection Hi as -> _ _ <-. reflexivity.
  Qed.
  Lemma hit_material_in (r : RayTR) i m : hit_material s r i = Ret (Some m) -> In m (sc_materials s).
  Proof.
    unfold hit_material. destruct (i_side _); try discriminate;
      (destruct (nth_error _ i) as [k|]; cbn [ret_opt obind]; [|discriminate]); destruct (nth_error (sc_materials s) k) as [m'|] eqn:Em; cbn [ret_opt obind]; try discriminate;
      intros Q; injection Q as <-; eapply nth_error_In; exact Em.
  Qed.

  Variable d : @DCFactory NumR.
  Lemma trace_sound nest (r : RayTR) c aux g r' c' aux' g' : sound_ray r -> dc_trace nest fuel d s r c aux g = Ret (r', c', aux', g') ->
    sound_ray r' /\ deposited d sound_ray c c'.
  Proof.
    intros Hr HT. refine (dc_trace_inv d s fuel sound_ray _ _ _ _ _ _ nest _ _ _ _ _ _ _ _ Hr HT); clear Hr HT r c aux g r' c' aux' g'.
    - intros r v H. exact H.
    - intros r v H. exact H.
    - intros r x H. exact H.
    - intros r aux hit r' nodes (H1 & H2 & H3) CR. destruct (cast_keeps _ _ _ _ _ _ _ CR) as (K1 & K2 & _ & _ & K3).
      unfold sound_ray, dir_of in *. rewrite K1, K2, K3. auto.
    - intros r aux i r1 nodes m normals p1 p2 nr b Hr CR HM HN SP. unfold get_triad.
      destruct (cast_keeps _ _ _ _ _ _ _ CR) as (K1 & K2 & _ & _ & K3). intros HP HQ. destruct Hr as (U & Pn & C).
      destruct (Hfind r aux) as [(j & t & dd & x & aux' & CR' & X1 & X2 & X3 & X4 & X5 & _)|(aux' & CR' & _)]; rewrite CR in CR'; [|discriminate].
      injection CR' as -> -> _. destruct (C11_hit_normal _ _ _ X5) as (Un & Dn & _).
      set (n := i_normal (x_shading (r_interaction (set_interaction r x)))) in HP.
      assert (PH : physical m) by (rewrite Forall_forall in Hphys; apply Hphys; eapply hit_material_in; exact HM).
      assert (Dn' : dot (dir_of r) n < 0) by (rewrite dot_comm; exact Dn).
      match type of HP with get_possible_paths _ _ ?q ?c = _ => destruct (paths_nonneg m n q c nr p1 p2 b PH U Un Dn' Pn C HP HQ) as (A1 & A2 & A3 & A4) end.
      split; [exact A1|]. split; [exact A2|]. cbn [r_colour set_colour]. apply nonneg_mul; assumption.
    - intros r aux i r1 nodes m normals Hr CR HM HN EM SP. unfold get_triad. intros r2 g v w r3 g' (U2 & P2 & C2) SB.
      destruct (Hfind r aux) as [(j & t & dd & x & aux' & CR' & X1 & X2 & X3 & X4 & X5 & _)|(aux' & CR' & _)]; rewrite CR in CR'; [|discriminate].
      injection CR' as -> -> _. rewrite Nat2Z.id in HN, HM. rewrite (flat_normals j t X1) in HN. injection HN as <-.
      set (r4 := set_shading _ _) in *.
      assert (RN : i_normal (x_shading (r_interaction r4)) = i_normal (x_shading x)).
      { change (i_normal (interpolate_normal (x_shading x) (plane_normal t, plane_normal t, plane_normal t)) = i_normal (x_shading x)).
        rewrite interpolate_constant by (apply normalized_unit; eapply hit_nondegenerate; exact X5). rewrite (proj1 (hit_normal_oriented _ _ _ X5)). reflexivity. }
      pose proof (proj1 (C11_hit_frame _ _ _ X5)) as FR.
      change (i_dpdu (x_shading (r_interaction r4))) with (i_dpdu (x_shading x)) in SB.
      change (i_dpdv (x_shading (r_interaction r4))) with (i_dpdv (x_shading x)) in SB. rewrite RN in SB |- *.
      assert (PH : physical m) by (rewrite Forall_forall in Hphys; apply Hphys; eapply hit_material_in; exact HM).
      destruct (sample_bsdf_keeps _ _ _ _ _ _ _ _ _ _ _ _ SB) as (_ & _ & K2 & _ & K3 & _).
      assert (G : exists c s ro, (m = Plastic c s ro \/ m = Metal c s ro) /\ s = 0 /\ nonneg c).
      { destruct m as [c s0 ro|c s0 ro|c|c|c ri|c ri]; cbn in EM, SP, PH; try discriminate; exists c, s0, ro; tauto. }
      destruct G as (c & s0 & ro & Gm & G0 & Gc).
      destruct (diffuse_sample Hfair m c s0 ro _ _ _ _ _ _ _ _ _ _ _ Gm G0 FR SB) as (V1 & V2 & V3 & V4 & _).
      split; [exact V2|]. split; [cbn; rewrite K2; exact P2|]. cbn [r_colour set_colour]. rewrite K3. apply nonneg_mul; [exact C2|].
      pose proof PI_RGT_0 as HPI. assert (HI : 0 < / PI) by (apply Rinv_0_lt_compat; exact HPI).
      apply nonneg_sdivf; [apply nonneg_smulf; [rewrite V1; apply nonneg_smulf; [exact Gc|unfold Rdiv; lra]|apply Rabs_pos]|].
      rewrite V4. unfold Rdiv. apply Rmult_le_pos; lra.
  Qed.

  Lemma deposits_nonneg n c c' : deposited d sound_ray c c' -> row_shaped n c -> (forall j v, (j < n)%nat -> mat_get c 0 j = Some v -> nonneg v) ->
    forall j v, (j < n)%nat -> mat_get c' 0 j = Some v -> nonneg v.
  Proof.
    induction 1 as [|r c c' c'' (_ & _ & HC) HS _ IH]; [auto|]. intros HR HN. pose proof HR as (_ & _ & Hc). rewrite <- Hc in *.
    destruct (reach_sky_step _ _ _ _ HS HR) as (R1 & R2 & R3). pose proof R1 as (_ & _ & R4). apply IH; [exact R1|].
    intros j v Hj Hv. destruct (R3 j Hj) as (old & G1 & G2). pose proof (HN j old Hj G1) as Hold. rewrite G2 in Hv. injection Hv as <-.
    destruct (Nat.eqb _ _); [|exact Hold].
    assert (KA : forall a b, nonneg a -> nonneg b -> nonneg (sadd a b)).
    { intros a b (A1 & A2 & A3) (B1 & B2 & B3). unfold nonneg, all_channels, sadd, smap2. cbn [sr sg sb]. change (@fadd NumR) with Rplus. repeat split; apply Rplus_le_le_0_compat; assumption. }
    apply KA; [exact Hold|]. apply nonneg_sdivf; [apply nonneg_mul; [repeat split; cbn; lra|exact HC]|].
    change (0 <= IZR (Z.of_nat (dc_n_ambient_samples d))). apply IZR_le. lia.
  Qed.
  Lemma nonneg_add a b : nonneg a -> nonneg b -> nonneg (sadd a b).
  Proof.
    intros (A1 & A2 & A3) (B1 & B2 & B3). unfold nonneg, all_channels, sadd, smap2. cbn [sr sg sb]. change (@fadd NumR) with Rplus. repeat split; apply Rplus_le_le_0_compat; assumption.
  Qed.

  (** ** the tracer returns *)
  Hypothesis Hprep : prepared fuel s.
  Hypothesis Hbins : forall v : VecR, unit v -> (dir_to_bin (dc_reinhart d) v < n_bins (dc_reinhart d))%nat.
  Hypothesis Hcount : forall g, @fltb NumR (fst (gen g)) (dc_count_specular_bounce d) = true.
  Notation bins := (n_bins (dc_reinhart d)).

  Lemma reach_returns (r : RayTR) c : sound_ray r -> row_shaped bins c -> exists c', reach_sky d r c = Ret c' /\ row_shaped bins c'.
  Proof.
    intros (U & _) HR. pose proof HR as (S1 & R1 & C1). pose proof (Hbins (dir_of r) U) as HB. unfold reach_sky. cbv zeta. fold (dir_of r).
    destruct (mat_get_some c 0 (dir_to_bin (dc_reinhart d) (dir_of r)) S1) as [v Ev]; [lia|lia|]. rewrite Ev. cbn [ret_opt obind].
    match goal with |- context [mat_set c 0 ?b ?x] => destruct (mat_set_some c 0 b x S1) as (m' & EM & Q1 & Q2 & Q3 & _) end; [lia|lia|].
    rewrite EM. cbn [ret_opt]. exists m'. split; [reflexivity|]. split; [exact Q1|]. split; congruence.
  Qed.
  Definition answers (dmax : nat) (trace : DCTrace) : Prop := forall (r : RayTR) c aux g, sound_ray r -> row_shaped bins c -> length (h_rays aux) = 15%nat ->
    (dmax <= r_depth r)%nat -> exists r' c' aux' g', trace r c aux g = Ret (r', c', aux', g') /\ sound_ray r' /\ row_shaped bins c' /\ length (h_rays aux') = 15%nat /\ (r_depth r <= r_depth r')%nat.

  Lemma ambient_returns trace k m c0 (s0 ro : R) (p n e1 e2 : VecR) : answers (S k) trace -> (m = Plastic c0 s0 ro \/ m = Metal c0 s0 ro) -> s0 = 0 -> nonneg c0 -> frame e1 e2 n ->
    forall N r c aux g, sound_ray r -> row_shaped bins c -> length (h_rays aux) = 15%nat -> (k <= r_depth r)%nat ->
    exists r' c' aux' g', dc_ambient trace fuel m p n e1 e2 N r c aux g = Ret (r', c', aux', g') /\ sound_ray r' /\ row_shaped bins c' /\ length (h_rays aux') = 15%nat /\ (r_depth r <= r_depth r')%nat.
  Proof.
    intros HA Hm H0 Hc HF. induction N as [|N IH]; intros r c aux g Hr HR HL Hk; cbn [dc_ambient].
    - exists r, c, aux, g. auto.
    - assert (Hmat : m = Plastic c0 (0 : R) ro \/ m = Metal c0 (0 : R) ro) by (subst s0; exact Hm).
      assert (HSc : TracerSafe.scatters m) by (destruct Hmat as [-> | ->]; [left|right]; do 3 eexists; reflexivity).
      destruct (diffuse_draw m HSc c0 ro Hmat Hfair n e1 e2 p r fuel g HF) as (v & w & r1 & g1 & SB & _). rewrite SB. cbn [obind]. cbv zeta.
      destruct (sample_bsdf_keeps _ _ _ _ _ _ _ _ _ _ _ _ SB) as (K1 & _ & K2 & _ & K3 & _).
      destruct (diffuse_sample Hfair m c0 s0 ro n e1 e2 p r r1 fuel g v w g1 Hm H0 HF SB) as (V1 & V2 & V3 & V4 & _).
      set (r2 := set_depth _ _).
      assert (S2 : sound_ray r2).
      { destruct Hr as (U & P & C). split; [exact V2|]. split; [cbn; rewrite K2; exact P|]. cbn [r_colour set_colour r2 set_depth]. rewrite K3. apply nonneg_mul; [exact C|].
        pose proof PI_RGT_0 as HPI. assert (HI : 0 < / PI) by (apply Rinv_0_lt_compat; exact HPI).
        apply nonneg_sdivf; [apply nonneg_smulf; [rewrite V1; apply nonneg_smulf; [exact Hc|unfold Rdiv; lra]|apply Rabs_pos]|].
        rewrite V4. unfold Rdiv. apply Rmult_le_pos; lra. }
      assert (D2 : r_depth r2 = S (r_depth r)) by (cbn; rewrite K1; reflexivity). clearbody r2.
      destruct (HA r2 c aux g1 S2 HR HL ltac:(lia)) as (r3 & c3 & a3 & g3 & TR & S3 & R3 & L3 & D3). rewrite TR. cbn [obind].
      destruct (IH r3 c3 a3 g3 S3 R3 L3 ltac:(lia)) as (r4 & c4 & a4 & g4 & TR4 & S4 & R4 & L4 & D4). exists r4, c4, a4, g4. split; [exact TR4|].
      repeat (split; [assumption|]). lia.
  Qed.
  Lemma specular_returns trace k q c aux g : answers (S k) trace -> (forall nr b, q = Some (nr, b) -> sound_ray nr /\ nonneg b /\ r_depth nr = k) -> row_shaped bins c -> length (h_rays aux) = 15%nat ->
    exists c' aux' g', dc_specular_path trace d q c aux g = Ret (c', aux', g') /\ row_shaped bins c' /\ length (h_rays aux') = 15%nat.
  Proof.
    intros HA HQ HR HL. destruct q as [[nr b]|]; cbn [dc_specular_path]; [|eauto 10]. destruct (HQ nr b eq_refl) as ((U & P & C) & B & D).
    pose proof (Hcount g) as HC. destruct (gen g) as [x g1]. cbn [fst] in HC. cbv zeta. rewrite HC. set (r2 := set_depth _ _).
    assert (S2 : sound_ray r2) by (split; [exact U|]; split; [exact P|apply nonneg_mul; assumption]).
    destruct (HA r2 c aux g1 S2 HR HL) as (r3 & c3 & a3 & g3 & TR & S3 & R3 & L3 & D3); [cbn; lia|]. rewrite TR. cbn [obind]. eauto 10.
  Qed.

  Hypothesis Hdepth : (dc_max_depth d <= 14)%nat.
  Lemma dc_trace_returns : forall nest k, (0 < nest)%nat -> (dc_max_depth d + 2 - k <= nest)%nat -> answers k (dc_trace nest fuel d s).
  Proof.
    induction nest as [|nest IH]; intros k Hn0 Hn r c aux g Hr HR HL Hk; [lia|]. cbn [dc_trace].
    pose proof Hr as (U & P & C).
    destruct (Hfind r (h_nodes aux)) as [(j & t & dd & x & nd & CR & X1 & X2 & X3 & X4 & X5 & _)|(nd & CR & _)]; rewrite CR; cbn [obind]; cbv zeta.
    2:{ destruct (reach_returns r c Hr HR) as (c' & -> & HR'). cbn [obind]. do 4 eexists. split; [reflexivity|]. auto. }
    rewrite Nat2Z.id. set (r1 := set_interaction r x). assert (S1 : sound_ray r1) by exact Hr.
    change (r_depth r1) with (r_depth r). 
    destruct (Nat.ltb_spec (dc_max_depth d) (r_depth r)) as [DP|DP].
    { do 4 eexists. split; [reflexivity|]. split; [exact S1|]. split; [exact HR|]. split; [exact HL|]. apply le_n. }
    assert (Hj : (j < length (a_tri (sc_arrays s)))%nat) by (apply nth_error_Some; rewrite X1; discriminate).
    destruct (hit_material_returns fuel s r1 j Hprep Hj) as (o & HM). rewrite HM. cbn [obind]. destruct o as [m|].
    2:{ do 4 eexists. split; [reflexivity|]. split; [exact S1|]. split; [exact HR|]. split; [exact HL|]. apply le_n. }
    cbn [orb]. destruct (emits_direct_light m) eqn:EM.
    { do 4 eexists. split; [reflexivity|]. split; [exact S1|]. split; [exact HR|]. split; [exact HL|]. apply le_n. }
    assert (PH : physical m) by (rewrite Forall_forall in Hphys; apply Hphys; eapply hit_material_in; exact HM).
    unfold get_triad at 1. rewrite (flat_normals j t X1). cbn [ret_opt obind].
    change (r_interaction r1) with x. set (r2 := set_shading r1 _). assert (S2 : sound_ray r2) by exact Hr.
    assert (RN : i_normal (x_shading (r_interaction r2)) = i_normal (x_shading x)).
    { change (i_normal (interpolate_normal (x_shading x) (plane_normal t, plane_normal t, plane_normal t)) = i_normal (x_shading x)).
      rewrite interpolate_constant by (apply normalized_unit; eapply hit_nondegenerate; exact X5). rewrite (proj1 (hit_normal_oriented _ _ _ X5)). reflexivity. }
    destruct (C11_hit_normal _ _ _ X5) as (Un & Dn & _). pose proof (proj1 (C11_hit_frame _ _ _ X5)) as FR.
    assert (Hd2 : r_depth r2 = r_depth r) by reflexivity.
    pose proof (IH (S (r_depth r)) ltac:(lia) ltac:(lia)) as HA.
    destruct (specular_only m) eqn:SP.
    - assert (PP : exists p1 p2, get_possible_paths m (i_normal (x_shading x)) (x_point x) r2 = Ret (p1, p2)).
      { destruct m; cbn in SP; try discriminate; cbn [get_possible_paths]; [destruct (mirror_paths _ _ _ _)|destruct (dielectric_paths _ _ _ _ _)|destruct (glass_paths _ _ _ _ _)]; eauto. }
      destruct PP as (p1 & p2 & PP). rewrite PP. cbn [obind].
      assert (HQ : forall q, (q = p1 \/ q = p2) -> forall nr b, q = Some (nr, b) -> sound_ray nr /\ nonneg b /\ r_depth nr = r_depth r).
      { intros q Hq nr b Eq'. assert (Dn' : dot (dir_of r2) (i_normal (x_shading x)) < 0) by (rewrite dot_comm; exact Dn).
        assert (HQ' : p1 = Some (nr, b) \/ p2 = Some (nr, b)) by (destruct Hq as [<-|<-]; auto).
        destruct (paths_nonneg m _ _ r2 nr p1 p2 b PH U Un Dn' P C PP HQ') as (A1 & A2 & A3 & A4). split; [split; auto|]. split; [exact A4|].
        rewrite <- Hd2. destruct (possible_paths_depth _ _ _ _ _ _ PP) as [PD1 PD2]. destruct HQ' as [HQ'|HQ']; [rewrite HQ' in PD1; exact PD1|rewrite HQ' in PD2; exact PD2]. }
      match goal with |- context [dc_specular_path ?tr d p1 c ?a g] => destruct (specular_returns tr (r_depth r) p1 c a g HA (HQ p1 (or_introl eq_refl)) HR HL) as (c1 & a1 & g1 & -> & R1 & L1) end. cbn [obind].
      match goal with |- context [dc_specular_path ?tr d p2 c1 a1 g1] => destruct (specular_returns tr (r_depth r) p2 c1 a1 g1 HA (HQ p2 (or_intror eq_refl)) R1 L1) as (c2 & a2 & g2 & -> & R2 & L2) end. cbn [obind].
      do 4 eexists. split; [reflexivity|]. split; [exact S2|]. split; [exact R2|]. split; [exact L2|]. apply le_n.
    - destruct (draw_n_ambient_samples (dc_tracer d) r2 g) as [[N0 r3] g3] eqn:DN. destruct (draw_n_keeps _ _ _ _ _ _ DN) as (K1 & K2 & K3 & K4 & K5).
      assert (S3 : sound_ray r3) by (unfold sound_ray, dir_of in *; rewrite K1, K4, K5; exact S2).
      unfold store_ray. cbn [h_rays]. rewrite HL, K3, Hd2. destruct (Nat.ltb_spec (r_depth r) 15); [|lia]. cbn [obind]. unfold get_triad. rewrite K2, RN.
      assert (G : exists c s ro, (m = Plastic c s ro \/ m = Metal c s ro) /\ s = 0 /\ nonneg c).
      { destruct m as [c1 s0 ro|c1 s0 ro|c1|c1|c1 ri|c1 ri]; cbn in EM, SP, PH; try discriminate; exists c1, s0, ro; tauto. }
      destruct G as (c1 & s0 & ro & Gm & G0 & Gc).
      match goal with |- context [dc_ambient ?tr fuel m ?p ?n ?e1 ?e2 N0 r3 c ?a g3] =>
        destruct (ambient_returns tr (r_depth r) m c1 s0 ro p n e1 e2 HA Gm G0 Gc FR N0 r3 c a g3 S3 HR) as (r4 & c4 & a4 & g4 & TR4 & S4 & R4 & L4 & D4) end.
      + cbn [h_rays]. rewrite set_nth_length. exact HL.
      + rewrite K3, Hd2. lia.
      + exists r4, c4, a4, g4. rewrite TR4. split; [reflexivity|]. repeat (split; [assumption|]). lia.
  Qed.
End Flat.
