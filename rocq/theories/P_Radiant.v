(** * Properties C71 and C72: light is never negative, and surfaces add none (real arithmetic) *)
From Coq Require Import Permutation.
From Verif Require Import NumR Geometry Triangle Sphere Colour Ray Bvh BvhProofs Material Scene Samplers Primitives RayTracer Camera Render
  TracerProofs TracerSafe TracerScenes TracerLone SpecColour SpecGeom SpecBvh SpecScene TriangleProofs BvhReal BvhQuery SceneProofs SpecOptics MaterialProofs
  P_Triangle P_Frame P_Bvh P_Material P_Tracer P_Camera SpecTracer SpecDraws P_Draws DaylightReal P_Render ColourProofs TracerCorridor BvhExamples.
Open Scope R_scope.

Scheme sees_with_mind := Minimality for sees_with Sort Prop
  with brings_with_mind := Minimality for brings_with Sort Prop
  with ambient_with_mind := Minimality for ambient_with Sort Prop.
Combined Scheme draws_mind from sees_with_mind, brings_with_mind, ambient_with_mind.

(** every object of the history is flat (a triangle) or infinitely far away *)
Definition flat_or_distant (h : list (@op NumR)) : Prop := forall f b p, In (f, b, p) (objects_of h) -> (exists t, p = PTriangle t) \/ (exists d, p = PSource d).
(** colours between 0 and L *)
Definition below (L : R) (c : @Spectrum NumR) : Prop := in_range 0 L c.

Lemma nonneg_plus a b : nonneg a -> nonneg b -> nonneg (sadd a b).
Proof.
  intros (A1 & A2 & A3) (B1 & B2 & B3). unfold nonneg, all_channels, sadd, smap2. cbn [sr sg sb]. change (@fadd NumR) with Rplus. repeat split; apply Rplus_le_le_0_compat; assumption.
Qed.
Lemma nonneg_black : nonneg BLACK. Proof. repeat split; cbn; lra. Qed.
Lemma nonneg_fold xs : forall a, Forall nonneg xs -> nonneg a -> nonneg (fold_left sadd xs a).
Proof. induction xs as [|x xs IH]; intros a HF Ha; [exact Ha|]. inversion_clear HF. cbn. apply IH; [assumption|]. apply nonneg_plus; assumption. Qed.
Lemma nonneg_average xs : Forall nonneg xs -> nonneg (average xs).
Proof.
  intros HF. unfold average. destruct xs as [|x xs]; [apply nonneg_black|]. apply nonneg_sdivf; [apply nonneg_fold; [exact HF|apply nonneg_black]|].
  apply IZR_le. lia.
Qed.

Section Flat.
  Context {E : @Ext NumR} {HE : externals_ok E} {RG : Gen NumR} {GO : @Geo NumR}.
  Hypothesis Hfair : fair RG.
  Variable s : @Scene NumR.
  Variable fuel : nat.
  Hypothesis Hfind : forall r aux, finds s fuel r aux.
  Hypothesis Halign : aligned (sc_arrays s).
  Variable h : list (@op NumR).
  Hypothesis Hrec : Permutation (records (sc_arrays s)) (flat_map stored (objects_of h)).
  Hypothesis Hflat : flat_or_distant h.
  Hypothesis Hphys : Forall physical (sc_materials s).

  Lemma flat_corners j t : nth_error (a_tri (sc_arrays s)) j = Some t -> nth_error (a_norm (sc_arrays s)) j = Some (plane_normal t, plane_normal t, plane_normal t).
  Proof.
    intros Ht. destruct (record_at (sc_arrays s) j t Halign Ht) as (f & b & nn & _ & _ & Hn & Hin). rewrite Hn. f_equal.
    eapply Permutation_in in Hin; [|exact Hrec]. apply in_flat_map in Hin as ([[f' b'] p] & Ho & Hi). destruct (Hflat _ _ _ Ho) as [(t' & ->)|(d & ->)].
    2:{ destruct Hi. }
    unfold stored, facets in Hi. cbn [map fst snd] in Hi. destruct Hi as [Hi|[]].
    change (@vcross NumR (vsub (tb t') (ta t')) (vsub (tc t') (ta t'))) with (cross (minus (tb t') (ta t')) (minus (tc t') (ta t'))) in Hi. fold (plane_normal t') in Hi.
    injection Hi as -> _ _ <-. reflexivity.
  Qed.
  Lemma facing_in r1 i m : facing s r1 i m -> In m (sc_materials s).
  Proof. intros (k & Hk & _). eapply nth_error_In. exact Hk. Qed.

  (** the first surface met by a ray that makes sense *)
  Lemma meets_facts r i r1 : sound_ray r -> meets fuel s r i r1 ->
    sound_ray r1 /\ dir_of r1 = dir_of r /\ r_depth r1 = r_depth r /\ unit (normal_of r1) /\ dot (dir_of r) (normal_of r1) < 0 /\
    frame (i_dpdu (x_shading (r_interaction r1))) (i_dpdv (x_shading (r_interaction r1))) (normal_of r1) /\
    exists t, nth_error (a_tri (sc_arrays s)) i = Some t /\ triangle_intersect t (r_geometry r) = Some (x_shading (r_interaction r1)).
  Proof.
    intros Hr (z & aux & aux' & CR & ->). destruct (cast_keeps _ _ _ _ _ _ _ CR) as (K1 & K2 & KD & _ & K3). destruct Hr as (U & Pn & C).
    destruct (Hfind r aux) as [(j & t & dd & x & aux1 & CR' & X1 & X2 & X3 & X4 & X5 & _)|(aux1 & CR' & _)]; rewrite CR in CR'; [|discriminate].
    injection CR' as -> -> _. destruct (C11_hit_normal _ _ _ X5) as (Un & Dn & _). pose proof (proj1 (C11_hit_frame _ _ _ X5)) as FR.
    split; [split; [exact U|]; split; [exact Pn|exact C]|]. split; [reflexivity|]. split; [reflexivity|]. split; [exact Un|]. split; [rewrite dot_comm; exact Dn|].
    split; [exact FR|]. rewrite Nat2Z.id. exists t. split; [exact X1|exact X5].
  Qed.
  Lemma shaded_facts r i r1 r2 : sound_ray r -> meets fuel s r i r1 -> shaded s r1 i r2 ->
    sound_ray r2 /\ dir_of r2 = dir_of r /\ r_depth r2 = r_depth r /\ normal_of r2 = normal_of r1 /\
    frame (i_dpdu (x_shading (r_interaction r2))) (i_dpdv (x_shading (r_interaction r2))) (normal_of r2).
  Proof.
    intros Hr HM (normals & HN & ->). destruct (meets_facts _ _ _ Hr HM) as (S1 & D1 & DD & U1 & L1 & FR & t & Ht & X5).
    rewrite (flat_corners _ _ Ht) in HN. injection HN as <-.
    split; [exact S1|]. split; [exact D1|]. split; [exact DD|].
    assert (RN : normal_of (set_shading r1 (interpolate_normal (x_shading (r_interaction r1)) (plane_normal t, plane_normal t, plane_normal t))) = normal_of r1).
    { change (i_normal (interpolate_normal (x_shading (r_interaction r1)) (plane_normal t, plane_normal t, plane_normal t)) = i_normal (x_shading (r_interaction r1))).
      rewrite interpolate_constant by (apply normalized_unit; eapply hit_nondegenerate; exact X5). rewrite (proj1 (hit_normal_oriented _ _ _ X5)). reflexivity. }
    split; [exact RN|]. rewrite RN. exact FR.
  Qed.
  (** a matte surface scatters to its front, and the weight of the sample is the colour of the surface *)
  Lemma diffuse_with m c (ro : R) (n e1 e2 p : VecR) r g bsdf (pdf : R) r' g' : (m = Plastic c (0 : R) ro \/ m = Metal c (0 : R) ro) -> frame e1 e2 n ->
    scatters_with m (specularity_of m) n e1 e2 p r g bsdf pdf r' g' ->
    bsdf = smulf c (1 / PI) /\ unit (dir_of r') /\ 0 < dot (dir_of r') n /\ pdf = dot (dir_of r') n / PI /\ r_refraction_index r' = r_refraction_index r /\ r_colour r' = r_colour r.
  Proof.
    intros Hm HF HS. pose proof (Hfair g) as Q0. pose proof (Hfair (after g 1)) as Q1.
    assert (SP : specularity_of m = (0 : R)) by (destruct Hm as [-> | ->]; reflexivity). rewrite SP in HS. clear SP.
    destruct HS as [(_ & _ & SB)|(B & _)].
    2:{ exfalso. change (Rltb (fst (gen g)) 0 = true) in B. apply Rltb_true in B. lra. }
    change (number g 0) with (fst (gen g)) in SB. change (number g 1) with (fst (gen (after g 1))) in SB. set (x2 := number g 2) in *.
    set (x0 := fst (gen g)) in *. set (x1 := fst (gen (after g 1))) in *. clearbody x0 x1 x2.
    destruct (C26_diffuse_branch m c 0 ro n e1 e2 p r x0 [] x1 x2 Hm HF (proj1 Q0) Q1) as (w & r1 & SB' & P1 & P2 & P3 & P4 & _).
    pose proof (eq_trans (eq_sym SB) SB') as SE. injection SE as -> -> ->.
    split; [f_equal; match goal with |- ?a = ?b => change (@eq R a b) end; unfold Rdiv; ring|]. split; [exact P1|]. split; [exact P2|]. split; [exact P4|].
    assert (QF : @fltb NumR x0 0 = false) by (apply Rltb_is_false; lra).
    destruct Hm as [-> | ->]; cbn [sample_bsdf] in SB; unfold sample_ward in SB; cbv zeta in SB; cbn [wd_prob wd_pairs wd_disc] in SB; rewrite QF in SB; cbn [obind] in SB;
      apply (f_equal (fun o => match o with Ret (_, _, x) => x | _ => r1 end)) in SB; cbv beta iota in SB; rewrite <- SB; split; reflexivity.
  Qed.

  Variable c : @Tracer NumR.
  Lemma physical_matte m : physical m -> matte_or_glossy m -> exists k (ro : R), (m = Plastic k (0 : R) ro \/ m = Metal k (0 : R) ro) /\ nonneg k.
  Proof. intros HP [(k & sp & ro & ->)|(k & sp & ro & ->)]; cbn in HP; destruct HP as [H1 ->]; eauto. Qed.
  Lemma counted_ray r2 q n r3 : get_n_ambient_samples r2 (n_ambient_samples c) (max_depth c) (limit_weight c) q = (n, r3) ->
    r_geometry r3 = r_geometry r2 /\ r_interaction r3 = r_interaction r2 /\ r_refraction_index r3 = r_refraction_index r2 /\ r_colour r3 = r_colour r2.
  Proof. unfold get_n_ambient_samples. repeat match goal with |- context [if ?b then _ else _] => destruct b end; intros H; injection H as _ <-; repeat split; reflexivity. Qed.

  (** a scattered ray makes sense again; the sample is the light found times the colour of the surface *)
  Lemma scattered_sound m k (ro : R) r r' g bsdf (pdf : R) g' v : (m = Plastic k (0 : R) ro \/ m = Metal k (0 : R) ro) -> sound_ray r ->
    frame (i_dpdu (x_shading (r_interaction r))) (i_dpdv (x_shading (r_interaction r))) (normal_of r) ->
    scatters_with m (specularity_of m) (normal_of r) (i_dpdu (x_shading (r_interaction r))) (i_dpdv (x_shading (r_interaction r))) (point_of r) r g bsdf pdf r' g' ->
    sound_ray (set_value (deeper r') v) /\ forall l, sdivf (smulf (smul l bsdf) (fabs (vdot (normal_of r) (direction (r_geometry r'))))) pdf = smul l k.
  Proof.
    intros Hm (U & P & C) HF HS. destruct (diffuse_with m k ro _ _ _ _ r g bsdf pdf r' g' Hm HF HS) as (-> & D1 & D2 & -> & D3 & D4).
    split; [split; [exact D1|]; split; [change (0 < r_refraction_index r'); rewrite D3; exact P|change (nonneg (r_colour r')); rewrite D4; exact C]|].
    intros l. change (@vdot NumR (normal_of r) (direction (r_geometry r'))) with (dot (normal_of r) (dir_of r')). rewrite (dot_comm (normal_of r)).
    change (@fabs NumR) with Rabs. rewrite Rabs_pos_eq by lra. pose proof PI_RGT_0 as HPI. set (w := dot (dir_of r') (normal_of r)) in *. clearbody w.
    apply spec_ext; unfold sdivf, smulf, smul, smap, smap2; cbn [sr sg sb]; rsimp; field; split; lra.
  Qed.

  (** ** C71 *)
  Hypothesis Hcolours : Forall (fun m => nonneg (mat_colour m)) (sc_materials s).
  Hypothesis Hsky : forall sky d, sc_sky s = Some sky -> unit d -> 0 <= sky d.
  Hypothesis Htint : nonneg (sky_tint s).

  Lemma lamp_colour light ray nodes colour pdf nodes' : intersect_light fuel s light ray nodes = Ret (Some (colour, pdf), nodes') -> nonneg colour.
  Proof.
    unfold intersect_light. destruct (prim_intersect _ _) as [info|]; [|discriminate]. cbv zeta.
    destruct (scene_unobstructed_distance _ _ _ _ _) as [[clear nd]| |]; cbn [obind]; try discriminate.
    destruct clear; cbn [negb]; [|intros H; injection H as <- _ _; apply nonneg_black].
    destruct (match i_side info with Front => _ | Back => _ | NonApplicable => _ end) as [k|]; [|intros H; injection H as <- _ _; apply nonneg_black].
    destruct (nth_error (sc_materials s) k) as [m|] eqn:Em; cbn [ret_opt obind]; [|discriminate].
    destruct (solid_angle_pdf _ _ _); cbn [obind]; try discriminate. intros H. injection H as <- _ _.
    rewrite Forall_forall in Hcolours. apply Hcolours. eapply nth_error_In. exact Em.
  Qed.
  Lemma lit_nonneg m k (ro : R) r p n e1 e2 N light j g xs g' : (m = Plastic k (0 : R) ro \/ m = Metal k (0 : R) ro) -> nonneg k ->
    lit_by fuel s m r p n e1 e2 N light j g xs g' -> Forall (fun x => match x with Some v => nonneg v | None => True end) xs.
  Proof.
    intros Hm Hk. induction 1 as [|j g dir g1 nodes nodes' xs g' _ _ _ IH|j g dir g1 nodes nodes' colour pdf xs g' _ _ _ _ IH|j g dir g1 nodes nodes' colour pdf bsdf xs g' _ HI HT HB _ IH];
      [constructor|exact IH|constructor; [exact I|exact IH]|].
    constructor; [|exact IH].
    assert (HP : 0 <= pdf). { change (Rltb pdf (IZR 1 / IZR (10 ^ 18)) = false) in HT. apply Rltb_false in HT. assert (0 < IZR 1 / IZR (10 ^ 18)) by (apply Rdiv_lt_0_compat; apply IZR_lt; reflexivity). lra. }
    assert (HBs : nonneg bsdf).
    { destruct (C25_diffuse is_parallel is_same_direction k 0 ro n e1 e2 (vscale dir (- f1)%num) r ltac:(lra)) as [C1 C2].
      pose proof PI_RGT_0 as HPI. assert (HI2 : 0 < / PI) by (apply Rinv_0_lt_compat; exact HPI).
      destruct Hm as [-> | ->]; rewrite HB in *; [injection C1 as ->|injection C2 as ->]; (apply nonneg_smulf; [exact Hk|unfold Rdiv; nra]). }
    apply nonneg_sdivf; [apply nonneg_mul; [apply nonneg_smulf; [eapply lamp_colour; exact HI|apply Rabs_pos]|exact HBs]|].
    apply Rmult_le_pos; [apply IZR_le; lia|exact HP].
  Qed.
  Lemma lit_all_nonneg m k (ro : R) r p n e1 e2 N ls g xs g' : (m = Plastic k (0 : R) ro \/ m = Metal k (0 : R) ro) -> nonneg k ->
    lit_by_all fuel s m r p n e1 e2 N ls g xs g' -> Forall (fun x => match x with Some v => nonneg v | None => True end) xs.
  Proof. intros Hm Hk. induction 1; [constructor|]. apply Forall_app. split; [eapply lit_nonneg; eassumption|assumption]. Qed.
  Lemma nonneg_samples xs : forall a, Forall (fun x => match x with Some v => nonneg v | None => True end) xs -> nonneg a -> nonneg (fold_left add_sample xs a).
  Proof.
    induction xs as [|[x|] xs IH]; intros a HF Ha; [exact Ha| |]; inversion_clear HF; cbn [fold_left]; (apply IH; [assumption|]); cbn [add_sample]; [|exact Ha]. apply nonneg_plus; assumption.
  Qed.
  Lemma direct_nonneg m k (ro : R) r N g li g' : (m = Plastic k (0 : R) ro \/ m = Metal k (0 : R) ro) -> nonneg k -> lit_directly fuel s m r N g li g' -> nonneg li.
  Proof.
    intros Hm Hk (near & g1 & far & H1 & H2 & ->). apply nonneg_plus; (apply nonneg_samples; [eapply lit_all_nonneg; eassumption|apply nonneg_black]).
  Qed.

  Lemma draws_nonneg :
    (forall r g li pdf g', sees_with fuel c s r g li pdf g' -> sound_ray r -> nonneg li) /\
    (forall p g xs g', brings_with fuel c s p g xs g' -> (forall q v, p = Some (q, v) -> sound_ray q /\ nonneg v) -> Forall nonneg xs) /\
    (forall m r k g xs g', ambient_with fuel c s m r k g xs g' -> sound_ray r -> physical m -> matte_or_glossy m ->
       frame (i_dpdu (x_shading (r_interaction r))) (i_dpdv (x_shading (r_interaction r))) (normal_of r) -> Forall nonneg xs).
  Proof.
    apply (draws_mind NumR TrigR E RG GO fuel c s
      (fun r g li pdf g' => sound_ray r -> nonneg li)
      (fun p g xs g' => (forall q v, p = Some (q, v) -> sound_ray q /\ nonneg v) -> Forall nonneg xs)
      (fun m r k g xs g' => sound_ray r -> physical m -> matte_or_glossy m ->
       frame (i_dpdu (x_shading (r_interaction r))) (i_dpdv (x_shading (r_interaction r))) (normal_of r) -> Forall nonneg xs)).
    - intros. apply nonneg_black.
    - intros r g sky _ HS (U & _). apply nonneg_smulf; [exact Htint|]. apply (Hsky sky _ HS U).
    - intros. apply nonneg_black.
    - intros r g i r1 col t _ HF _ _. apply facing_in in HF. rewrite Forall_forall in Hcolours. apply (Hcolours _ HF).
    - intros. apply nonneg_black.
    - intros r g i r1 r2 m p1 p2 xs1 g1 xs2 g' HM HF HR _ HS HP _ B1 _ B2 Hr.
      destruct (meets_facts _ _ _ Hr HM) as (S1 & D1 & _ & Un & Dn & _). destruct (shaded_facts _ _ _ _ Hr HM HS) as (S2 & D2 & _ & N2 & _).
      assert (PH : physical m) by (rewrite Forall_forall in Hphys; apply Hphys; eapply facing_in; exact HF).
      assert (K : forall q v, p1 = Some (q, v) \/ p2 = Some (q, v) -> sound_ray q /\ nonneg v).
      { intros q v HQ. destruct S2 as (U2 & P2 & C2). assert (Dn' : dot (dir_of r2) (normal_of r1) < 0) by (rewrite D2; exact Dn).
        destruct (paths_nonneg m (normal_of r1) (point_of r1) r2 q p1 p2 v PH U2 Un Dn' P2 C2 HP HQ) as (A1 & A2 & A3 & A4). split; [split; auto|exact A4]. }
      apply nonneg_fold; [|apply nonneg_black]. apply Forall_app. split; [apply B1; auto|apply B2; auto].
    - intros r g i r1 r2 r3 m n q g1 direct g2 xs g' HM HF HG _ HS _ HN HD _ IH Hr.
      destruct (shaded_facts _ _ _ _ Hr HM HS) as (S2 & D2 & _ & N2 & FR).
      assert (PH : physical m) by (rewrite Forall_forall in Hphys; apply Hphys; eapply facing_in; exact HF).
      destruct (counted_ray _ _ _ _ HN) as (K1 & K2 & K3 & K4).
      destruct (physical_matte m PH HG) as (k & ro & Hm & Hk).
      apply nonneg_plus; [eapply direct_nonneg; eassumption|]. apply nonneg_average. apply IH; [|exact PH|exact HG|].
      + unfold sound_ray, dir_of in *. rewrite K1, K3, K4. exact S2.
      + unfold normal_of in *. rewrite K2. exact FR.
    - constructor.
    - intros q v g l pdf g' _ IH HQ. destruct (HQ q v eq_refl) as ((U & P & C) & Hv). constructor; [|constructor]. apply nonneg_mul; [|exact Hv].
      apply IH. destruct (fltb _ _); split; auto.
    - constructor.
    - intros m r k g bsdf pdf r' g1 l lp g2 xs g' HS cosine H1 H2 H3 H4 IH. exact IH.
    - intros m r k g bsdf pdf r' g1 l lp g2 xs g' HS cosine _ IHs _ _ IH Hr HP HG HF. destruct (physical_matte m HP HG) as (kk & ro & Hm & Hk).
      destruct (scattered_sound m kk ro r r' g bsdf pdf g1 (r_value r' * (radiance bsdf * cosine / pdf))%num Hm Hr HF HS) as [SR SW].
      constructor; [|apply IH; assumption]. unfold cosine. rewrite SW. apply nonneg_mul; [apply IHs; exact SR|exact Hk].
  Qed.


  (** ** C72 *)
  Variable L : R.
  Hypothesis HL0 : 0 <= L.
  (** surfaces that reflect and let through at most the light they receive, and lamps of at most L *)
  Definition conserving (m : @Material NumR) : Prop :=
    match m with
    | Plastic k sp _ | Metal k sp _ => in_range 0 1 k /\ sp = 0
    | Light k => in_range 0 L k
    | Mirror _ => True
    | Dielectric _ _ => False
    | Glass k ri => in_range 0 1 k /\ 1 <= ri
    end.
  Hypothesis Hcons : Forall conserving (sc_materials s).
  Hypothesis Hskyl : forall sky d, sc_sky s = Some sky -> unit d -> below L (smulf (sky_tint s) (sky d)).
  (** no lamp is sampled, or no surface samples them *)
  Hypothesis Hlamps : (sc_lights s = [] /\ sc_distant_lights s = []) \/ Forall (fun m => ~ matte_or_glossy m) (sc_materials s).

  Lemma below_black : below L BLACK. Proof. unfold below, in_range. cbn [BLACK sr sg sb]. rsimp. lra. Qed.
  Lemma below_mul a k : below L a -> in_range 0 1 k -> below L (smul a k).
  Proof. intros (A1 & A2 & A3) (K1 & K2 & K3). unfold below, in_range, smul, smap2 in *. cbn [sr sg sb]. change (@fmul NumR) with Rmult. repeat split; nra. Qed.
  Lemma sum_below xs : forall a (n : R), Forall (below L) xs -> in_range 0 (n * L) a -> 0 <= n -> in_range 0 ((n + INR (length xs)) * L) (fold_left sadd xs a).
  Proof.
    induction xs as [|x xs IH]; intros a n HF Ha Hn; cbn [length fold_left]; [change (INR 0) with 0; rewrite Rplus_0_r; exact Ha|]. inversion_clear HF as [|? ? (X1 & X2 & X3) HX].
    rewrite S_INR. replace (n + (INR (length xs) + 1)) with (n + 1 + INR (length xs)) by ring. apply IH; [exact HX| |lra].
    destruct Ha as (A1 & A2 & A3). unfold in_range, sadd, smap2. cbn [sr sg sb]. change (@fadd NumR) with Rplus. repeat split; lra.
  Qed.
  Lemma average_below xs : Forall (below L) xs -> below L (average xs).
  Proof.
    intros HF. unfold average. destruct xs as [|x xs]; [apply below_black|]. set (l := x :: xs) in *.
    assert (HN : 0 < INR (length l)) by (apply lt_0_INR; cbn; lia).
    assert (HB : in_range 0 (0 * L) BLACK) by (unfold in_range; cbn [BLACK sr sg sb]; rsimp; lra).
    destruct (sum_below l BLACK 0 HF HB (Rle_refl _)) as (S1 & S2 & S3). rewrite Rplus_0_l in *.
    change (fofZ (Z.of_nat (length l))) with (IZR (Z.of_nat (length l))). rewrite <- INR_IZR_INZ. set (n := INR (length l)) in *. clearbody n.
    assert (K : forall y, 0 <= y <= n * L -> 0 <= y / n <= L).
    { intros y [Y1 Y2]. split; [apply Rmult_le_pos; [exact Y1|left; apply Rinv_0_lt_compat; exact HN]|]. apply (Rmult_le_reg_r n); [exact HN|]. unfold Rdiv. rewrite Rmult_assoc, Rinv_l, Rmult_1_r by lra. lra. }
    unfold below, in_range, sdivf, smap. cbn [sr sg sb]. change (@fdiv NumR) with Rdiv. repeat split; apply K; assumption.
  Qed.
  (** the weights of the paths of a mirror or of glass add up to at most 1 *)
  Definition weight_of (p : @Path NumR) : @Spectrum NumR := match p with Some (_, v) => v | None => BLACK end.
  Lemma paths_conserve m (n p : VecR) (ray : RayTR) p1 p2 : conserving m -> unit (dir_of ray) -> unit n -> dot (dir_of ray) n < 0 ->
    get_possible_paths m n p ray = Ret (p1, p2) ->
    nonneg (weight_of p1) /\ nonneg (weight_of p2) /\ channels2 (fun a b : R => a + b <= 1) (weight_of p1) (weight_of p2).
  Proof.
    intros HC HU HV HD HP. destruct m as [k sp ro|k sp ro|k|k|k ri|k ri]; cbn [conserving] in HC; try discriminate; [| contradiction |].
    - destruct (C24_mirror_tint_refuted k n p ray HU HV ltac:(lra)) as [(ray1 & Q & _) _]. rewrite HP in Q. injection Q as -> ->. cbn [weight_of].
      unfold nonneg, all_channels, channels2, ONE, BLACK. cbn [sr sg sb]. rsimp. repeat split; lra.
    - destruct HC as [Hk Hr]. destruct (C23_paths k ri n p ray p1 p2 HP) as (refl & trans & GE & (ray1 & ->) & G2 & _). assert (HD' : dot n (dir_of ray) <> 0) by (rewrite dot_comm; lra).
      destruct (C23_energy k ri n (dir_of ray) (Rabs (dot (dir_of ray) n)) refl trans Hk Hr HV HU HD' GE) as (N1 & N2 & N3).
      destruct G2 as [->|(ray2 & -> & _)]; cbn [weight_of]; (split; [exact N1|]); [|split; [exact N2|exact N3]].
      split; [apply nonneg_black|]. destruct N2 as (B1 & B2 & B3), N3 as (C1 & C2 & C3). unfold channels2, BLACK in *. cbn [sr sg sb]. rsimp. repeat split; lra.
  Qed.
  Definition what_brings (p : @Path NumR) (xs : list (@Spectrum NumR)) : Prop := match p with None => xs = [] | Some (_, v) => exists l, below L l /\ xs = [smul l v] end.

  Lemma below_through p1 p2 xs1 xs2 : nonneg (weight_of p1) -> nonneg (weight_of p2) -> channels2 (fun a b : R => a + b <= 1) (weight_of p1) (weight_of p2) ->
    what_brings p1 xs1 -> what_brings p2 xs2 -> below L (fold_left sadd (xs1 ++ xs2) BLACK).
  Proof.
    intros (A1 & A2 & A3) (B1 & B2 & B3) (C1 & C2 & C3) W1 W2. 
    destruct p1 as [[q1 v1]|], p2 as [[q2 v2]|]; cbn [what_brings weight_of] in *.
    - destruct W1 as (l1 & (D1 & D2 & D3) & ->), W2 as (l2 & (E1 & E2 & E3) & ->). unfold below, in_range, sadd, smul, smap2, BLACK. cbn [app fold_left sr sg sb].
      change (@fadd NumR) with Rplus. change (@fmul NumR) with Rmult. rsimp. repeat split; nra.
    - destruct W1 as (l1 & (D1 & D2 & D3) & ->). subst xs2. unfold below, in_range, sadd, smul, smap2, BLACK in *. cbn [app fold_left sr sg sb] in *.
      change (@fadd NumR) with Rplus. change (@fmul NumR) with Rmult. rsimp. repeat split; nra.
    - destruct W2 as (l1 & (D1 & D2 & D3) & ->). subst xs1. unfold below, in_range, sadd, smul, smap2, BLACK in *. cbn [app fold_left sr sg sb] in *.
      change (@fadd NumR) with Rplus. change (@fmul NumR) with Rmult. rsimp. repeat split; nra.
    - subst. apply below_black.
  Qed.

  Lemma draws_below :
    (forall r g li pdf g', sees_with fuel c s r g li pdf g' -> sound_ray r -> below L li) /\
    (forall p g xs g', brings_with fuel c s p g xs g' -> (forall q v, p = Some (q, v) -> sound_ray q) -> what_brings p xs) /\
    (forall m r k g xs g', ambient_with fuel c s m r k g xs g' -> sound_ray r -> conserving m -> matte_or_glossy m ->
       frame (i_dpdu (x_shading (r_interaction r))) (i_dpdv (x_shading (r_interaction r))) (normal_of r) -> Forall (below L) xs).
  Proof.
    apply (draws_mind NumR TrigR E RG GO fuel c s
      (fun r g li pdf g' => sound_ray r -> below L li)
      (fun p g xs g' => (forall q v, p = Some (q, v) -> sound_ray q) -> what_brings p xs)
      (fun m r k g xs g' => sound_ray r -> conserving m -> matte_or_glossy m ->
       frame (i_dpdu (x_shading (r_interaction r))) (i_dpdv (x_shading (r_interaction r))) (normal_of r) -> Forall (below L) xs)).
    - intros. apply below_black.
    - intros r g sky _ HS (U & _). apply (Hskyl sky _ HS U).
    - intros. apply below_black.
    - intros r g i r1 col t _ HF _ _. apply facing_in in HF. rewrite Forall_forall in Hcons. apply (Hcons _ HF).
    - intros. apply below_black.
    - intros r g i r1 r2 m p1 p2 xs1 g1 xs2 g' HM HF HR _ HS HP _ B1 _ B2 Hr.
      destruct (meets_facts _ _ _ Hr HM) as (S1 & D1 & _ & Un & Dn & _). destruct (shaded_facts _ _ _ _ Hr HM HS) as (S2 & D2 & _ & N2 & _).
      assert (PH : conserving m) by (rewrite Forall_forall in Hcons; apply Hcons; eapply facing_in; exact HF).
      assert (Dn' : dot (dir_of r2) (normal_of r1) < 0) by (rewrite D2; exact Dn). pose proof S2 as (U2 & P2 & C2).
      destruct (paths_conserve m _ _ r2 p1 p2 PH U2 Un Dn' HP) as (W1 & W2 & W3).
      assert (PH' : physical m).
      { destruct m as [k sp ro|k sp ro|k|k|k ri|k ri]; cbn in PH |- *; try contradiction; try exact I; [| |exact PH]; destruct PH as [((A & _) & (B & _) & (C & _)) ->]; (split; [split; [exact A|split; assumption]|reflexivity]). }
      assert (K : forall q v, p1 = Some (q, v) \/ p2 = Some (q, v) -> sound_ray q).
      { intros q v HQ. destruct (paths_nonneg m (normal_of r1) (point_of r1) r2 q p1 p2 v PH' U2 Un Dn' P2 C2 HP HQ) as (A1 & A2 & A3 & A4). split; auto. }
      apply (below_through p1 p2); [exact W1|exact W2|exact W3|apply B1; eauto|apply B2; eauto].
    - intros r g i r1 r2 r3 m n q g1 direct g2 xs g' HM HF HG _ HS _ HN HD _ IH Hr.
      destruct (shaded_facts _ _ _ _ Hr HM HS) as (S2 & D2 & _ & N2 & FR).
      assert (PH : conserving m) by (rewrite Forall_forall in Hcons; apply Hcons; eapply facing_in; exact HF).
      destruct (counted_ray _ _ _ _ HN) as (K1 & K2 & K3 & K4).
      destruct Hlamps as [[L1 L2]|HNo].
      2:{ exfalso. rewrite Forall_forall in HNo. apply (HNo m); [eapply facing_in; exact HF|exact HG]. }
      assert (Z : direct = sadd BLACK BLACK).
      { destruct HD as (near & gg & far & Q1 & Q2 & ->). rewrite L1 in Q1. rewrite L2 in Q2. inversion Q1; subst. inversion Q2; subst. reflexivity. }
      assert (BA : below L (average xs)).
      { apply average_below. apply IH; [|exact PH|exact HG|].
        + unfold sound_ray, dir_of in *. rewrite K1, K3, K4. exact S2.
        + unfold normal_of in *. rewrite K2. exact FR. }
      rewrite Z. destruct BA as (A1 & A2 & A3). unfold below, in_range, sadd, smap2, BLACK. cbn [sr sg sb]. change (@fadd NumR) with Rplus. rsimp. repeat split; lra.
    - reflexivity.
    - intros q v g l pdf g' _ IH HQ. pose proof (HQ q v eq_refl) as HQ'. cbn [what_brings]. exists l. split; [|reflexivity].
      apply IH. destruct (fltb _ _); exact HQ'.
    - constructor.
    - intros m r k g bsdf pdf r' g1 l lp g2 xs g' HS cosine H1 H2 H3 H4 IH. exact IH.
    - intros m r k g bsdf pdf r' g1 l lp g2 xs g' HS cosine _ IHs _ _ IH Hr HP HG HF.
      assert (HK : exists kk (ro : R), (m = Plastic kk (0 : R) ro \/ m = Metal kk (0 : R) ro) /\ in_range 0 1 kk).
      { destruct HG as [(kk & sp & ro & ->)|(kk & sp & ro & ->)]; cbn in HP; destruct HP as [HP ->]; eauto. }
      destruct HK as (kk & ro & Hm & Hk).
      destruct (scattered_sound m kk ro r r' g bsdf pdf g1 (r_value r' * (radiance bsdf * cosine / pdf))%num Hm Hr HF HS) as [SR SW].
      constructor; [|apply IH; assumption]. unfold cosine. rewrite SW. apply below_mul; [apply IHs; exact SR|exact Hk].
  Qed.
End Flat.

(** ** C71 *)
(** materials that make sense physically: matte (no specular lobe), mirrors, dielectrics, glass and lamps, none with a negative colour *)
Definition sensible (m : @Material NumR) : Prop := physical m /\ match m with Light k | Mirror k => nonneg k | _ => True end.
Lemma sensible_colour m : sensible m -> nonneg (mat_colour m).
Proof.
  intros [HP HC]. destruct m as [k sp ro|k sp ro|k|k|k ri|k ri]; cbn in HP |- *; try tauto. destruct HP as [((A & _) & (B & _) & (C & _)) _].
  unfold glass_colour, any_transmission. destruct (fltb _ _); [repeat split; assumption|].
  assert (K : forall x : R, 0 <= x -> 0 <= (if @fltb NumR x MIN_COLOUR then MIN_COLOUR else x)).
  { intros x Hx. destruct (fltb _ _); [|exact Hx]. unfold MIN_COLOUR. cbn [flit NumR]. left. apply Rdiv_lt_0_compat; apply IZR_lt; reflexivity. }
  unfold nonneg, all_channels, smap. cbn [snd sr sg sb]. repeat split; apply K; assumption.
Qed.
(** no ray - whatever the settings, the depth, the draws and the state of the buffers - brings negative light *)
Theorem C71_rays_partial : forall (E : @Ext NumR) (RG : Gen NumR) (GO : @Geo NumR) h s0, externals_ok E -> fair RG ->
  play scene_new h = Ret s0 -> manageable s0 -> flat_or_distant h -> Forall sensible (sc_materials s0) ->
  (forall sky d, sc_sky s0 = Some sky -> unit d -> 0 <= sky d) -> nonneg (sky_tint s0) ->
  exists s, made h s /\ forall (c : @Tracer NumR) nest fuel r aux g li pdf r' aux' g', (2 * length (a_tri (sc_arrays s0)) <= fuel)%nat ->
    unit (dir_of r) -> 0 < r_refraction_index r -> nonneg (r_colour r) ->
    trace_ray nest fuel c s r aux g = Ret (li, pdf, r', aux', g') -> 0 <= sr li /\ 0 <= sg li /\ 0 <= sb li.
Proof.
  intros E RG GO h s0 HE HF HP HM HT HS HSk HTi. destruct (rebuilt (HE := HE) h s0 HP HM) as (s & HB & E1 & _ & _ & E4 & E5 & Ha & Hrec & _ & HQ).
  exists s. split; [exists s0; split; assumption|]. intros c nest fuel r aux g li pdf r' aux' g' Hfuel U P C HR. destruct (HQ fuel Hfuel) as [HFi _].
  apply C70_draws in HR.
  assert (H1 : Forall physical (sc_materials s)) by (rewrite E1; eapply Forall_impl; [|exact HS]; intros m [H _]; exact H).
  assert (H2 : Forall (fun m => nonneg (mat_colour m)) (sc_materials s)) by (rewrite E1; eapply Forall_impl; [|exact HS]; exact sensible_colour).
  refine (proj1 (draws_nonneg HF s fuel HFi Ha h Hrec HT H1 c H2 _ _) r g li pdf g' HR (conj U (conj P C))).
  - rewrite E4. exact HSk.
  - unfold sky_tint in *. rewrite E5. exact HTi.
Qed.
Print Assumptions C71_rays_partial.

(** the pixels of a picture, from what holds of every ray of the camera *)
Lemma colours_all {N : Num} {T : Trig N} {E : Ext} {RG : Gen N} {GO : Geo} (P : @Spectrum N -> Prop) nest fuel (c : Tracer) (s : Scene) width camera vs : forall i g,
  (forall i g v pdf r' aux' g', trace_ray nest fuel c s (set_value (fst (camera (i mod width, i / width)%nat)) (snd (camera (i mod width, i / width)%nat))) helper_default g = Ret (v, pdf, r', aux', g') -> P v) ->
  colours nest fuel c s width camera i g vs -> Forall P vs.
Proof.
  induction vs as [|v vs IH]; intros i g HP HC; [constructor|]. cbn [colours] in HC. pose proof (HP i) as HPi. destruct (camera (i mod width, i / width)%nat) as [ray w].
  destruct HC as (pdf & r' & aux' & g' & HT & HC). constructor; [eapply HPi; exact HT|]. eapply IH; [exact HP|exact HC].
Qed.
Lemma picture_all {N : Num} {T : Trig N} {E : Ext} {RG : Gen N} {GO : Geo} (P : @Spectrum N -> Prop) nest fuel (c : Tracer) (s : Scene) width height camera (seed : nat -> G) schedule st :
  positions_ok N width height -> render_steps nest fuel c s width camera schedule (render_start width height seed) = Ret st -> render_done st ->
  (forall i g v pdf r' aux' g', trace_ray nest fuel c s (set_value (fst (camera (i mod width, i / width)%nat)) (snd (camera (i mod width, i / width)%nat))) helper_default g = Ret (v, pdf, r', aux', g') -> P v) ->
  Forall P (rd_pixels st).
Proof.
  intros HPos HS HD HP. destruct (C49_pixels N T E RG GO nest fuel c s width height camera seed schedule st HPos HS HD) as [HL HK].
  apply Forall_forall. intros v Hv. apply In_nth_error in Hv as [p Hp]. assert (Hlt : (p < width * height)%nat) by (rewrite <- HL; apply nth_error_Some; congruence).
  assert (Hk : ((p / 128) * 128 < width * height)%nat) by (pose proof (Nat.div_mod p 128 ltac:(lia)); pose proof (Nat.mod_upper_bound p 128 ltac:(lia)); lia).
  pose proof (colours_all P _ _ _ _ _ _ _ _ _ HP (HK _ Hk)) as HF. rewrite Forall_forall in HF. apply HF.
  assert (Hm : (p mod 128 < 128)%nat) by (apply Nat.mod_upper_bound; lia). pose proof (Nat.div_mod p 128 ltac:(lia)) as Hdm.
  apply (nth_error_In _ (p mod 128)). rewrite <- Hp.
  assert (NF : forall A (l : list A) n i, (i < n)%nat -> nth_error (firstn n l) i = nth_error l i).
  { clear. induction l as [|x l IH]; intros [|n] [|i] Hi; cbn; try reflexivity; try lia. apply IH. lia. }
  assert (NS : forall A (l : list A) n i, nth_error (skipn n l) i = nth_error l (n + i)).
  { clear. induction l as [|x l IH]; intros [|n] i; cbn; try reflexivity; [destruct i; reflexivity|apply IH]. }
  rewrite NF by exact Hm. rewrite NS. f_equal. lia.
Qed.
Lemma camera_sound v f p (w : R) : proper_view v -> proper_film f -> sound_ray (set_value (fst (gen_ray (pinhole_new v f) p)) w).
Proof.
  intros Hv Hf. destruct p as [px py]. destruct (C27_rays v f px py Hv Hf) as (U & _). split; [exact U|]. split; [cbn; lra|]. repeat split; cbn; lra.
Qed.

(** no pixel of a picture is negative, whatever the schedule of the threads *)
Theorem C71_pictures_partial : forall (E : @Ext NumR) (RG : Gen NumR) (GO : @Geo NumR) h s0, externals_ok E -> fair RG ->
  play scene_new h = Ret s0 -> manageable s0 -> flat_or_distant h -> Forall sensible (sc_materials s0) ->
  (forall sky d, sc_sky s0 = Some sky -> unit d -> 0 <= sky d) -> nonneg (sky_tint s0) ->
  exists s, made h s /\ forall (c : @Tracer NumR) v f (seed : nat -> G) schedule st nest fuel, (2 * length (a_tri (sc_arrays s0)) <= fuel)%nat ->
    proper_view v -> proper_film f -> (Z.of_nat (film_width f * film_height f) < 2 ^ 64)%Z ->
    render_steps nest fuel c s (film_width f) (gen_ray (pinhole_new v f)) schedule (render_start (film_width f) (film_height f) seed) = Ret st -> render_done st ->
    Forall (fun x : @Spectrum NumR => 0 <= sr x /\ 0 <= sg x /\ 0 <= sb x) (rd_pixels st).
Proof.
  intros E RG GO h s0 HE HF HP HM HT HS HSk HTi. destruct (C71_rays_partial E RG GO h s0 HE HF HP HM HT HS HSk HTi) as (s & HMd & HR).
  exists s. split; [exact HMd|]. intros c v f seed schedule st nest fuel Hfuel Hv Hf Hsz HSt HD.
  apply (picture_all _ nest fuel c s _ _ _ seed schedule st (C49_positions_real _ _ Hsz) HSt HD).
  intros i g x pdf r' aux' g' TR. destruct (camera_sound v f (i mod film_width f, i / film_width f)%nat (snd (gen_ray (pinhole_new v f) (i mod film_width f, i / film_width f)%nat)) Hv Hf) as (U & P & C).
  eapply HR; eassumption.
Qed.
Print Assumptions C71_pictures_partial.

(** ** C72 *)
(** Nothing looks brighter than the brightest lamp or patch of sky: in a scene of matte surfaces that reflect at most all the light,
    mirrors and glass without lamps, and in a scene of mirrors, glass and lamps *)
Theorem C72_rays_partial : forall (E : @Ext NumR) (RG : Gen NumR) (GO : @Geo NumR) h s0 (L : R), externals_ok E -> fair RG ->
  play scene_new h = Ret s0 -> manageable s0 -> flat_or_distant h -> 0 <= L -> Forall (conserving L) (sc_materials s0) ->
  (forall sky d, sc_sky s0 = Some sky -> unit d -> in_range 0 L (smulf (sky_tint s0) (sky d))) ->
  (sc_lights s0 = [] /\ sc_distant_lights s0 = []) \/ Forall (fun m => ~ matte_or_glossy m) (sc_materials s0) ->
  exists s, made h s /\ forall (c : @Tracer NumR) nest fuel r aux g li pdf r' aux' g', (2 * length (a_tri (sc_arrays s0)) <= fuel)%nat ->
    unit (dir_of r) -> 0 < r_refraction_index r -> nonneg (r_colour r) ->
    trace_ray nest fuel c s r aux g = Ret (li, pdf, r', aux', g') -> in_range 0 L li.
Proof.
  intros E RG GO h s0 L HE HF HP HM HT HL0 HS HSk HLa. destruct (rebuilt (HE := HE) h s0 HP HM) as (s & HB & E1 & E2 & E3 & E4 & E5 & Ha & Hrec & _ & HQ).
  exists s. split; [exists s0; split; assumption|]. intros c nest fuel r aux g li pdf r' aux' g' Hfuel U P C HR. destruct (HQ fuel Hfuel) as [HFi _].
  apply C70_draws in HR.
  refine (proj1 (draws_below HF s fuel HFi Ha h Hrec HT c L HL0 _ _ _) r g li pdf g' HR (conj U (conj P C))).
  - rewrite E1. exact HS.
  - unfold below, sky_tint in *. rewrite E4, E5. exact HSk.
  - rewrite E1, E2, E3. exact HLa.
Qed.
Print Assumptions C72_rays_partial.
Theorem C72_pictures_partial : forall (E : @Ext NumR) (RG : Gen NumR) (GO : @Geo NumR) h s0 (L : R), externals_ok E -> fair RG ->
  play scene_new h = Ret s0 -> manageable s0 -> flat_or_distant h -> 0 <= L -> Forall (conserving L) (sc_materials s0) ->
  (forall sky d, sc_sky s0 = Some sky -> unit d -> in_range 0 L (smulf (sky_tint s0) (sky d))) ->
  (sc_lights s0 = [] /\ sc_distant_lights s0 = []) \/ Forall (fun m => ~ matte_or_glossy m) (sc_materials s0) ->
  exists s, made h s /\ forall (c : @Tracer NumR) v f (seed : nat -> G) schedule st nest fuel, (2 * length (a_tri (sc_arrays s0)) <= fuel)%nat ->
    proper_view v -> proper_film f -> (Z.of_nat (film_width f * film_height f) < 2 ^ 64)%Z ->
    render_steps nest fuel c s (film_width f) (gen_ray (pinhole_new v f)) schedule (render_start (film_width f) (film_height f) seed) = Ret st -> render_done st ->
    Forall (in_range 0 L) (rd_pixels st).
Proof.
  intros E RG GO h s0 L HE HF HP HM HT HL0 HS HSk HLa. destruct (C72_rays_partial E RG GO h s0 L HE HF HP HM HT HL0 HS HSk HLa) as (s & HMd & HR).
  exists s. split; [exact HMd|]. intros c v f seed schedule st nest fuel Hfuel Hv Hf Hsz HSt HD.
  apply (picture_all _ nest fuel c s _ _ _ seed schedule st (C49_positions_real _ _ Hsz) HSt HD).
  intros i g x pdf r' aux' g' TR. destruct (camera_sound v f (i mod film_width f, i / film_width f)%nat (snd (gen_ray (pinhole_new v f) (i mod film_width f, i / film_width f)%nat)) Hv Hf) as (U & P & C).
  eapply HR; eassumption.
Qed.
Print Assumptions C72_pictures_partial.

(** ** C44, scenes of mirrors, glass, dielectrics and lamps under any sky: tracing returns for every ray when bounces are counted *)
Lemma specular_trace_returns {N : Num} {T : Trig N} {E : Ext} {RG : Gen N} {GO : Geo} fuel (c : Tracer) (s : Scene) : prepared fuel s ->
  Forall (fun m => specular_only m = true \/ emits_light m = true) (sc_materials s) -> (forall g, fltb (fst (gen g)) (count_specular_bounce c) = true) ->
  forall nest r aux g, (max_depth c + 2 <= nest + r_depth r)%nat -> (0 < nest)%nat -> exists x, trace_ray nest fuel c s r aux g = Ret x.
Proof.
  intros HP HMs HC. induction nest as [|nest IH]; intros r aux g Hn H0; [lia|]. cbn [trace_ray].
  pose proof HP as (HQ & _ & (A1 & A2 & A3) & _). destruct (HQ r (h_nodes aux)) as (o & r1 & nodes & CR & Hi). rewrite CR. cbn [obind]. cbv zeta.
  destruct (cast_keeps _ _ _ _ _ _ _ CR) as (_ & _ & KD & _).
  destruct o as [i|]; [|destruct (see_sky s r1) as [[a b] r2]; eauto].
  destruct (hit_material_returns fuel s r1 _ HP Hi) as (o & HM). rewrite HM. cbn [obind]. destruct o as [m|]; [|eauto].
  assert (Pm : specular_only m = true \/ emits_light m = true).
  { rewrite Forall_forall in HMs. apply HMs. unfold hit_material in HM. cbv zeta in HM.
    destruct (i_side _); try discriminate.
    all: match type of HM with context [nth_error ?l ?i] => destruct (nth_error l i) as [j|] eqn:E1 end; cbn [ret_opt obind] in HM; try discriminate.
    all: destruct (nth_error (sc_materials s) j) as [m'|] eqn:E2; cbn [ret_opt obind] in HM; try discriminate; injection HM as <-; eapply nth_error_In; exact E2. }
  destruct (get_triad r1) as [[[p nm] e1] e2].
  destruct (emits_light m) eqn:EL.
  { apply nth_error_Some in Hi. destruct (nth_error (a_tri (sc_arrays s)) (Z.to_nat i)) as [t|]; [|contradiction]. cbn [ret_opt obind]. eauto. }
  destruct Pm as [SO|]; [|discriminate].
  destruct (Nat.ltb_spec (max_depth c) (r_depth r1)) as [L|L]; [eauto|].
  assert (Hnn : nth_error (a_norm (sc_arrays s)) (Z.to_nat i) <> None) by (apply nth_error_Some; rewrite A3; exact Hi).
  destruct (nth_error (a_norm (sc_arrays s)) (Z.to_nat i)) as [ns|]; [|contradiction]. cbn [ret_opt obind].
  set (r2 := set_shading r1 _). assert (D2 : r_depth r2 = r_depth r) by (cbn; exact KD). rewrite SO.
  unfold specular_bounce. destruct (get_possible_paths m nm p r2) as [[p1 p2]| |] eqn:PP; cbn [obind].
  2,3: destruct m; cbn in SO, PP; discriminate.
  destruct (possible_paths_depth _ _ _ _ _ _ PP) as [P1 P2]. rewrite D2 in P1, P2.
  assert (SPR : forall q li r' aux' g', path_depth (r_depth r) q -> exists l3 r3 a3 g3, specular_path (trace_ray nest fuel c s) c q li r' aux' g' = Ret (l3, r3, a3, g3)).
  { intros q li r' aux' g' HPq. destruct q as [[nr bv]|]; cbn [specular_path]; [|repeat eexists]. cbn [path_depth] in HPq.
    pose proof (HC g') as Hcg. destruct (gen g') as [x g1]. cbn [fst] in Hcg. rewrite Hcg.
    destruct (IH (set_depth nr (S (r_depth nr))) aux' g1) as ([[[[l3 pd] r3] a3] g3] & TR); [cbn; lia|lia|]. rewrite TR. cbn [obind]. eauto 10. }
  destruct (SPR p1 BLACK r2 (mkHelper (h_rays aux) nodes) g P1) as (l3 & r3 & a3 & g3 & ->). cbn [obind].
  destruct (SPR p2 l3 r3 a3 g3 P2) as (l4 & r4 & a4 & g4 & ->). cbn [obind]. eauto.
Qed.
Theorem C44_specular_returns_partial : forall (E : @Ext NumR) (RG : Gen NumR) (GO : @Geo NumR) h s0, externals_ok E -> perpendicular_ok ->
  play scene_new h = Ret s0 -> manageable s0 -> samplable h ->
  Forall (fun m => shines m \/ reflects_only m) (sc_materials s0) ->
  exists s, made h s /\ forall (c : @Tracer NumR) r aux g nest fuel, (forall g, fst (gen g) < count_specular_bounce c) -> (max_depth c + 2 <= nest)%nat ->
    (2 * length (a_tri (sc_arrays s0)) <= fuel)%nat -> exists x, trace_ray nest fuel c s r aux g = Ret x.
Proof.
  intros E RG GO h s0 HE HPp HP HM HS HMat. destruct (rebuilt_prepared (HE := HE) h s0 HP HM HPp HS) as (s & HB & HPr).
  exists s. split; [exists s0; split; assumption|]. intros c r aux g nest fuel HC Hn Hf.
  destruct (rebuilt (HE := HE) h s0 HP HM) as (s' & HB' & E1 & _). rewrite HB in HB'. injection HB' as <-.
  apply specular_trace_returns; [apply HPr; exact Hf| |intros g0; apply Rltb_is_true; apply HC|lia|lia].
  rewrite E1. eapply Forall_impl; [|exact HMat]. intros m [(k & ->)|[(k & ->)|[(k & n & ->)|(k & n & ->)]]]; cbn; auto.
Qed.
Print Assumptions C44_specular_returns_partial.

(* a mirror, a pane of glass above it and a lamp above that, under a gray sky: all hypotheses hold, and every ray is traced *)
Definition gallery : list (@op NumR) :=
  [AddMaterial (Mirror (gray (9/10 : R))); AddMaterial (Glass (gray (7/8 : R)) (3/2 : R)); AddMaterial (Light (gray (3/4 : R)));
   AddObject 0 0 (PTriangle (plate 0)); AddObject 1 1 (PTriangle (plate 1)); AddObject 2 0 (PTriangle (plate 2)); SetSky (Some (fun _ => (1/2 : R)))].
Lemma gallery_plays : exists s0, play (E := ext_example) scene_new gallery = Ret s0 /\ manageable s0 /\
  sc_materials s0 = [Mirror (gray (9/10 : R)); Glass (gray (7/8 : R)) (3/2 : R); Light (gray (3/4 : R))] /\
  sc_lights s0 = [mkObject (PTriangle (plate 2)) 2 0] /\ sc_sky s0 = Some (fun _ => (1/2 : R)) /\ sc_sky_colour s0 = None.
Proof.
  unfold gallery. cbn [play step push_material fst obind]. unfold push_object. cbn. eexists. split; [reflexivity|].
  split; [split; [cbn; lia|apply uncrowded_few; cbn; lia]|]. repeat split.
Qed.
Example C71_hyp : exists s0, play (E := ext_example) scene_new gallery = Ret s0 /\ manageable s0 /\ flat_or_distant gallery /\ samplable gallery /\
  sc_lights s0 <> [] /\ Forall sensible (sc_materials s0) /\ Forall (conserving (3/4)) (sc_materials s0) /\
  Forall (fun m => ~ matte_or_glossy m) (sc_materials s0) /\ Forall (fun m => shines m \/ reflects_only m) (sc_materials s0) /\
  nonneg (sky_tint s0) /\ (forall sky d, sc_sky s0 = Some sky -> unit d -> 0 <= sky d /\ in_range 0 (3/4) (smulf (sky_tint s0) (sky d))).
Proof.
  destruct gallery_plays as (s0 & HP & HM & H1 & H2 & H3 & H4). exists s0. split; [exact HP|]. split; [exact HM|].
  split. { intros f b p H. repeat (destruct H as [H|H]; [try discriminate; injection H as <- <- <-; left; eexists; reflexivity|]). destruct H. }
  split. { intros f b p H. repeat (destruct H as [H|H]; [try discriminate; injection H as <- <- <-; split; [discriminate|intros d Q; discriminate]|]). destruct H. }
  split; [rewrite H2; discriminate|]. rewrite H1. unfold sky_tint. rewrite H3, H4.
  assert (IR : forall x lo hi : R, lo <= x <= hi -> in_range lo hi (gray x)) by (intros; repeat split; cbn [gray sr sg sb]; lra).
  assert (NN : forall x : R, 0 <= x -> nonneg (gray x)) by (intros; apply nonneg_gray; assumption).
  split. { repeat constructor; cbn; try lra. all: apply (NN (9/10)) || apply (NN (3/4)) || idtac; lra. }
  split. { constructor; [exact I|]. constructor; [split; [apply (IR (7/8)); lra|lra]|]. constructor; [apply (IR (3/4)); lra|constructor]. }
  split. { repeat constructor; intros [(k & sp & ro & Q)|(k & sp & ro & Q)]; discriminate. }
  split. { constructor; [right; left; eauto|]. constructor; [right; right; right; eauto|]. constructor; [left; eexists; reflexivity|constructor]. }
  split; [apply NN; rsimp; lra|]. intros sky d Q _. injection Q as <-. split; [lra|].
  unfold in_range, smulf, smap. cbn [sr sg sb gray]. rsimp. lra.
Qed.

(** ** C72, dielectrics: a single sheet brightens what is behind it *)
(** a sheet of a dielectric under a uniform sky *)
Definition sheet (t : TriR) (ri L : R) : list (@op NumR) := [AddMaterial (Dielectric ONE ri); AddObject 0 0 (PTriangle t); SetSky (Some (fun _ => L))].
Lemma sheet_plays (E : @Ext NumR) t (ri L : R) : exists s0, play scene_new (sheet t ri L) = Ret s0 /\ manageable s0 /\ length (a_tri (sc_arrays s0)) = 1%nat /\
  sc_materials s0 = [Dielectric ONE ri] /\ sc_sky s0 = Some (fun _ => L) /\ sc_sky_colour s0 = None.
Proof.
  unfold sheet. cbn [play step push_material fst obind]. unfold push_object. cbn. eexists. split; [reflexivity|].
  split; [split; [cbn; lia|apply uncrowded_few; cbn; lia]|]. repeat split.
Qed.
(** a ray that starts at a small distance from a triangle and leaves it does not touch it again *)
Lemma leaves_for_good (t : TriR) (n : VecR) (u v eps : R) (ray : RayR) d : unit n -> dot n (minus (tb t) (ta t)) = 0 -> dot n (minus (tc t) (ta t)) = 0 ->
  origin ray = plus (bary t u v) (times eps n) -> 0 < eps * dot (direction ray) n -> eps <> 0 -> ~ touches ray t d.
Proof.
  intros Un O1 O2 HO HD He (_ & Y2 & u' & v' & Y3 & _).
  assert (K1 : dot n (minus (along ray d) (bary t u' v')) = 0) by (rewrite Y3; destruct (bary t u' v'), n; vunf; ring).
  assert (K2 : dot n (minus (bary t u v) (bary t u' v')) = 0).
  { replace (dot n _) with ((u - u') * dot n (minus (tb t) (ta t)) + (v - v') * dot n (minus (tc t) (ta t))); [rewrite O1, O2; ring|].
    unfold bary. destruct n, (ta t), (tb t), (tc t). vunf. ring. }
  unfold along in K1. rewrite HO in K1. unfold unit in Un.
  assert (K3 : dot n (minus (plus (plus (bary t u v) (times eps n)) (times d (direction ray))) (bary t u' v')) =
               dot n (minus (bary t u v) (bary t u' v')) + eps * dot n n + d * dot (direction ray) n).
  { generalize (bary t u v) (bary t u' v') (direction ray). intros [a1 a2 a3] [b1 b2 b3] [c1 c2 c3]. destruct n. vunf. ring. }
  rewrite K3, K2, Un in K1. nra.
Qed.

Theorem C72_dielectric_refuted : forall (E : @Ext NumR) (RG : Gen NumR) (GO : @Geo NumR) (t : TriR) (ri L : R), externals_ok E -> 1 + 1/1000 <= ri -> 0 < L ->
  exists s, made (sheet t ri L) s /\ forall (c : @Tracer NumR) nest fuel r aux g d, (2 <= fuel)%nat -> (2 <= nest)%nat -> r_depth r = 0%nat ->
    unit (dir_of r) -> r_refraction_index r = 1 -> crosses (r_geometry r) t d -> in_sight (r_geometry r) d ->
    exists li pdf r' aux' g' (k : R), trace_ray nest fuel c s r aux g = Ret (li, pdf, r', aux', g') /\
      li = gray (L * (k + (1 - k) * Rsqr ri)) /\ 0 <= k < 1 /\ L < L * (k + (1 - k) * Rsqr ri).
Proof.
  intros E RG GO t ri L HE Hri HL.
  destruct (sheet_plays E t ri L) as (s0 & HP & HM & Hlen & H1 & H2 & H3).
  destruct (rebuilt (HE := HE) _ s0 HP HM) as (s & HB & E1 & _ & _ & E4 & E5 & Ha & Hrec & Hl & HQ). rewrite H1 in E1. rewrite H2 in E4. rewrite H3 in E5.
  exists s. split; [exists s0; split; assumption|]. intros c nest fuel r aux g d Hfuel Hnest Hd U Hn HC HI. rewrite Hlen in HQ. destruct (HQ fuel ltac:(lia)) as [HFi _].
  assert (HFl : flat_or_distant (sheet t ri L)). { intros f b p H. cbn in H. destruct H as [H|[]]. injection H as <- <- <-. left. eexists. reflexivity. }
  assert (RT : forall j t', nth_error (a_tri (sc_arrays s)) j = Some t' -> t' = t /\ j = 0%nat /\ nth_error (a_front (sc_arrays s)) j = Some 0%nat /\ nth_error (a_back (sc_arrays s)) j = Some 0%nat).
  { intros j t' Hj. destruct (record_at (sc_arrays s) j t' Ha Hj) as (f & b & nn & Hf & Hb & _ & Hin).
    assert (j = 0)%nat by (apply nth_error_Some in Hj as Hj' || idtac; assert (j < length (a_tri (sc_arrays s)))%nat by (apply nth_error_Some; congruence); lia).
    eapply Permutation_in in Hin; [|exact Hrec]. cbn in Hin. destruct Hin as [Q|[]]. injection Q as <- <- <- <-. auto. }
  assert (TIn : In t (a_tri (sc_arrays s))).
  { destruct (a_tri (sc_arrays s)) as [|t0 l] eqn:ET; [cbn in Hl; lia|]. destruct (RT 0%nat t0 eq_refl) as (-> & _). left; reflexivity. }

  assert (SKY : forall nst q ax gg, (0 < nst)%nat -> (forall dd, ~ touches (r_geometry q) t dd) -> exists pdf q' ax' , trace_ray nst fuel c s q ax gg = Ret (smulf (gray 1) L, pdf, q', ax', gg)).
  { intros nst q ax gg Hnst Hno. destruct nst as [|nst]; [lia|]. cbn [trace_ray].
    destruct (HFi q (h_nodes ax)) as [(j & t' & dd & x & nd & _ & X1 & X2 & _)|(nd & CR & _)].
    { exfalso. destruct (RT j t' X1) as (-> & _). exact (Hno dd X2). }
    rewrite CR. cbn [obind]. cbv zeta. unfold see_sky. rewrite E4, E5. replace (@gray NumR f1) with (@gray NumR 1) by (unfold f1; cbn [flit NumR]; f_equal; field). eauto. }
  destruct nest as [|nest]; [lia|]. cbn [trace_ray].
  destruct (HFi r (h_nodes aux)) as [(j & t' & dd & x & nd & CR & X1 & X2 & X3 & X4 & X5 & X6 & _)|(nd & _ & Hno)].
  2:{ exfalso. apply (Hno t d TIn). split; assumption. }
  destruct (RT j t' X1) as (-> & -> & RF & RB). rewrite CR. cbn [obind]. cbv zeta. rewrite Nat2Z.id.
  destruct (hit_normal_oriented _ _ _ X5) as [ON NS]. destruct (C11_hit_normal _ _ _ X5) as (Un & Dn & O1 & O2 & _).
  assert (HMt : hit_material s (set_interaction r x) 0 = Ret (Some (Dielectric ONE ri))).
  { unfold hit_material. cbn [r_interaction set_interaction]. rewrite RF, RB, E1. cbn [nth_error ret_opt obind]. destruct (i_side (x_shading x)); [reflexivity|reflexivity|contradiction]. }
  rewrite HMt. cbn [obind emits_light specular_only]. unfold get_triad at 1. 
  change (r_depth (set_interaction r x)) with (r_depth r). rewrite Hd. destruct (Nat.ltb_spec (max_depth c) 0); [lia|].
  rewrite (flat_corners s Ha _ Hrec HFl 0 t X1). cbn [ret_opt obind]. change (r_interaction (set_interaction r x)) with x. set (r2 := set_shading _ _).
  assert (G2 : r_geometry r2 = r_geometry r) by reflexivity. assert (N2 : r_refraction_index r2 = 1) by exact Hn. clearbody r2.
  set (n := i_normal (x_shading x)) in *. assert (XP : x_point x = along (r_geometry r) dd) by exact (X6 U).
  destruct X2 as (_ & _ & u0 & v0 & X2 & _). rewrite X2 in XP.
  assert (D2 : dir_of r2 = dir_of r) by (unfold dir_of; rewrite G2; reflexivity).
  assert (U2 : unit (dir_of r2)) by (rewrite D2; exact U). assert (L2 : dot (dir_of r2) n < 0) by (rewrite D2, dot_comm; exact Dn).
  assert (HB2 : beyond 1 ri = ri) by (apply C19_leaves_to_air; rewrite Rabs_minus_sym, Rabs_pos_eq; lra).
  destruct (C22_paths ONE ri n (x_point x) r2 U2 Un L2 ltac:(rewrite N2; lra) ltac:(lra)) as (ray1 & v1 & p2 & GP & D1 & _ & _ & _ & HT).
  destruct (C18_reflected_paths _ _ _ _ _ _ U2 Un GP) as (ray1' & v1' & Q & _ & ST1 & _). injection Q as <- <-.
  rewrite N2, HB2 in HT. set (c1 := - dot (dir_of r2) n) in *.
  assert (HS : 1 * sin_of c1 < ri).
  { assert (sin_of c1 <= 1); [|lra]. unfold sin_of. rewrite <- sqrt_1 at 2. apply sqrt_le_1_alt. nra. }
  destruct (HT HS) as (ray2 & v2 & c2 & -> & Hc2 & _ & DT & _ & _ & _ & ST2 & V1 & V2).
  unfold specular_bounce. rewrite GP. cbn [obind specular_path].
  assert (HR1 : forall dd, ~ touches (r_geometry ray1) t dd).
  { intros dd'. apply (leaves_for_good t n u0 v0 (1/100000)); try assumption; [fold (start_of ray1); rewrite ST1, XP; reflexivity| |lra].
    fold (dir_of ray1). rewrite D1. destruct (C18_reflection (dir_of r2) n U2 Un) as (_ & _ & K & _). rewrite K. fold c1. assert (0 < c1) by (unfold c1; lra). lra. }
  assert (HR2 : forall dd, ~ touches (r_geometry ray2) t dd).
  { intros dd'. apply (leaves_for_good t n u0 v0 (-(1/100000))); try assumption; [fold (start_of ray2); rewrite ST2, XP; clear; destruct (bary t u0 v0), n; apply vec_ext; vunf; ring| |lra].
    fold (dir_of ray2). rewrite DT. lra. }
  set (k := fresnel 1 c1 ri c2) in *.
  assert (Hk : 0 <= k < 1).
  { assert (Hc1 : 0 < c1) by (unfold c1; lra).
    assert (K : forall a b, 0 < a -> 0 < b -> 0 <= Rsqr ((a - b) / (a + b)) < 1).
    { intros a b Pa Pb. split; [apply Rle_0_sqr|]. assert (Q1 : -1 < (a - b) / (a + b) < 1); [|unfold Rsqr; nra].
      split; apply (Rmult_lt_reg_r (a + b)); try lra; unfold Rdiv; rewrite Rmult_assoc, Rinv_l by lra; lra. }
    unfold k, fresnel, R_s, R_p. pose proof (K (1 * c1) (ri * c2) ltac:(nra) ltac:(nra)) as K1. pose proof (K (ri * c1) (1 * c2) ltac:(nra) ltac:(nra)) as K2. lra. }
  clearbody k c1.
  pose proof (SKY nest) as SKY1.
  destruct (gen g) as [q1 g1]. cbv zeta.
  match goal with |- context [trace_ray nest fuel c s ?q ?a g1] => destruct (SKY1 q a g1 ltac:(lia)) as (pd1 & qq1 & a1 & ->) end.
  { destruct (fltb _ _); exact HR1. }
  cbn [obind]. destruct (gen g1) as [q2 g2]. cbv zeta.
  match goal with |- context [trace_ray nest fuel c s ?q ?a g2] => destruct (SKY1 q a g2 ltac:(lia)) as (pd2 & qq2 & a2 & ->) end.
  { destruct (fltb _ _); exact HR2. }
  cbn [obind]. eexists _, _, _, _, _, k. split; [reflexivity|]. split; [|split; [exact Hk|]].
  - rewrite V1, V2. clear. apply spec_ext; unfold sadd, smul, smulf, smap, smap2, gray, rgb, ONE, BLACK; cbn [sr sg sb]; rsimp; unfold Rsqr; field.
  - assert (1 < Rsqr ri) by (unfold Rsqr; nra). set (w := Rsqr ri) in *. clearbody w. assert (0 < (1 - k) * (w - 1)) by (apply Rmult_lt_0_compat; lra). assert (0 < L * ((1 - k) * (w - 1))) by (apply Rmult_lt_0_compat; lra). lra.
Qed.
Print Assumptions C72_dielectric_refuted.
Example C72_dielectric_hyp : unit (direction (down (1/4) (1/4) 1)) /\ crosses (down (1/4) (1/4) 1) (plate 0) 1 /\ in_sight (down (1/4) (1/4) 1) 1.
Proof. destruct C47_never_returns_hyp as (_ & H1 & H2 & H3). split; [exact H1|]. split; [exact H2|exact H3]. Qed.
