(** * Property C76: pictures of sunlit scenes are always finished (real arithmetic) *)
From Coq Require Import Permutation.
From Verif Require Import NumR Geometry Triangle Sphere Colour Ray Bvh BvhProofs Material Scene Samplers Primitives RayTracer Camera Image Render
  TracerProofs TracerSafe TracerScenes TracerSun TracerLone SpecColour SpecGeom SpecBvh SpecScene TriangleProofs BvhReal SceneProofs SpecOptics
  P_Triangle P_Bvh P_Scene P_Tracer P_Camera SpecTracer P_Samplers P_Render BvhExamples TracerCorridor P_Radiant P_Sunlight BvhQuery.
Open Scope R_scope.

(** materials without a glossy lobe (matte ones have specularity zero) *)
Definition no_gloss (m : @Material NumR) : Prop := match m with Plastic _ s _ | Metal _ s _ => s <= 0 | _ => True end.

Lemma selected_all {A B} (P : A -> Prop) (f : A -> B) l r : selected P f l r -> forall a, In a l -> P a -> In (f a) r.
Proof.
  induction 1 as [|a l r Ha HS IH|a l r Ha HS IH]; intros x Hx Px; [destruct Hx| |].
  - destruct Hx as [->|Hx]; [left; reflexivity|right; apply IH; assumption].
  - destruct Hx as [->|Hx]; [contradiction|apply IH; assumption].
Qed.

Lemma selected_origin {A B} (P : A -> Prop) (f : A -> B) l r x : selected P f l r -> In x r -> exists a, In a l /\ P a /\ x = f a.
Proof.
  induction 1 as [|a l r Ha HS IH|a l r Ha HS IH]; intros Hx; [destruct Hx| |].
  - destruct Hx as [<-|Hx]; [exists a; split; [left; reflexivity|split; [exact Ha|reflexivity]]|]. destruct (IH Hx) as (b & Hb & Pb & ->). exists b. split; [right|]; auto.
  - destruct (IH Hx) as (b & Hb & Pb & ->). exists b. split; [right|]; auto.
Qed.

Theorem C76_rays : forall (E : @Ext NumR) (RG : Gen NumR) (GO : @Geo NumR) h s0, externals_ok E -> fair RG -> perpendicular_ok -> good_perpendiculars GO -> sees_sources GO ->
  play scene_new h = Ret s0 -> manageable s0 -> samplable h -> sc_lights s0 = [] -> sc_sky s0 = None -> Forall no_gloss (sc_materials s0) ->
  (forall f b d, In (f, b, PSource d) (objects_of h) -> 0 < ds_angle d < PI) ->
  exists s, made h s /\ forall (c : @Tracer NumR) r aux g nest fuel, (forall g, fst (gen g) < count_specular_bounce c) -> (max_depth c <= 14)%nat ->
    length (h_rays aux) = 15%nat -> (max_depth c + 2 <= nest)%nat -> (2 * length (a_tri (sc_arrays s0)) <= fuel)%nat ->
    (n_ambient_samples c <= fuel)%nat -> (n_shadow_samples c <= fuel)%nat -> (0 < fuel)%nat ->
    exists li r' aux' g', trace_ray nest fuel c s r aux g = Ret (li, @f0 NumR, r', aux', g').
Proof.
  intros E RG GO h s0 HE HF PO HPp HSo HP HM HS HL HK HMat HAng. destruct (rebuilt_prepared (HE := HE) h s0 HP HM PO HS) as (s & HB & HPr).
  exists s. split; [exists s0; split; assumption|]. intros c r aux g nest fuel HC Hd Ha Hn Hf1 Hf2 Hf3 Hf4.
  destruct (rebuilt (HE := HE) h s0 HP HM) as (s' & HB' & E1 & E2 & E3 & E4 & _ & HAl & Hrec & _). rewrite HB in HB'. injection HB' as <-.
  pose proof HE as (HPm & _). destruct (C08_lights NumR TrigR E HPm h s0 HP) as [SL SD].
  apply sunlit_trace_returns; try assumption; try lia; [apply Rltb_is_false; lra|apply HPr; exact Hf1| |intros g0; apply Rltb_is_true; apply HC].
  unfold sunlit. rewrite E1, E2, E3, E4. split; [exact HL|]. split; [exact HK|]. split.
  - intros i j m Hij Hm.
    assert (EX : exists t f b n, In (t, f, b, n) (records (sc_arrays s)) /\ (j = f \/ j = b)).
    { assert (Li : (i < length (a_tri (sc_arrays s)))%nat).
      { destruct HAl as (A1 & A2 & A3). destruct Hij as [Q|Q]; assert (Q' : nth_error _ _ <> None) by (rewrite Q; discriminate); apply nth_error_Some in Q'; lia. }
      apply nth_error_Some in Li. destruct (nth_error (a_tri (sc_arrays s)) i) as [t|] eqn:Et; [|contradiction].
      destruct (record_at (sc_arrays s) i t HAl Et) as (f & b & n & Q1 & Q2 & _ & Q3). exists t, f, b, n. split; [exact Q3|].
      destruct Hij as [Q|Q]; [left|right]; congruence. }
    destruct EX as (t & f & b & n & Hin & Hj). eapply Permutation_in in Hin; [|exact Hrec].
    apply in_flat_map in Hin as ([[f' b'] p] & Ho & Hin). unfold stored in Hin. apply in_map_iff in Hin as ([t0 n0] & Q & Hin). injection Q as -> -> -> ->.
    rewrite Forall_forall in HMat. pose proof (HMat m (nth_error_In _ _ Hm)) as HG.
    destruct m as [col sp ro|col sp ro|col|col|col ri|col ri]; cbn [plain no_gloss] in *; try exact I.
    + intros g0. apply Rltb_is_false. destruct (HF g0). lra.
    + intros g0. apply Rltb_is_false. destruct (HF g0). lra.
    + (* a luminous triangle would be among the lights *)
      assert (LU : luminous (sc_materials s0) (f, b, p)) by (exists (Light col); split; [destruct Hj as [<-|<-]; [left|right]; exact Hm|eexists; reflexivity]).
      assert (ND : ~ distant p) by (intros (d & ->); cbn in Hin; contradiction).
      pose proof (selected_all _ _ _ _ SL (f, b, p) Ho (conj LU ND)) as X. rewrite HL in X. exact X.
  - apply Forall_forall. intros l Hin. destruct (selected_origin _ _ _ _ _ SD Hin) as ([[f b] p] & Ho & (_ & (d & Hd0)) & ->). cbn [snd] in Hd0. subst p.
    intros g0 q dir g' SDir. cbn [as_object ob_primitive] in *.
    destruct (HS _ _ _ Ho) as [_ HS2]. pose proof (HS2 d eq_refl) as HD0. pose proof (HAng _ _ _ Ho) as HA0.
    destruct (C52_towards_source (O := GO) d g0 g' q dir (fun g1 => HF g1)) as [U0 C0]; try assumption.
    { intros n e Un Q. destruct (HPp n Un) as (e' & Q' & K). assert (e' = e) by congruence. subst e'. exact K. }
    destruct (HSo d (mkRay3D q dir) U0 HD0 C0) as (info & Q & _). rewrite Q. discriminate.
Qed.
Print Assumptions C76_rays.

(** ... and so is every picture, by every camera and in every order in which the chunks of the film are worked on *)
Theorem C76_pictures : forall (E : @Ext NumR) (RG : Gen NumR) (GO : @Geo NumR) h s0, externals_ok E -> fair RG -> perpendicular_ok -> good_perpendiculars GO -> sees_sources GO ->
  play scene_new h = Ret s0 -> manageable s0 -> samplable h -> sc_lights s0 = [] -> sc_sky s0 = None -> Forall no_gloss (sc_materials s0) ->
  (forall f b d, In (f, b, PSource d) (objects_of h) -> 0 < ds_angle d < PI) ->
  exists s, made h s /\ forall (c : @Tracer NumR) v f (seed : nat -> G) nest fuel, (forall g, fst (gen g) < count_specular_bounce c) -> (max_depth c <= 14)%nat ->
    (max_depth c + 2 <= nest)%nat -> (2 * length (a_tri (sc_arrays s0)) <= fuel)%nat ->
    (n_ambient_samples c <= fuel)%nat -> (n_shadow_samples c <= fuel)%nat -> (0 < fuel)%nat -> proper_film f -> (Z.of_nat (film_width f * film_height f) < 2 ^ 64)%Z ->
    exists A, render_sequential nest fuel c s (film_width f) (film_height f) (gen_ray (pinhole_new v f)) seed = Ret A /\ img_width A = film_width f /\ img_height A = film_height f /\
      forall schedule, exists st, render_steps nest fuel c s (film_width f) (gen_ray (pinhole_new v f)) schedule (render_start (film_width f) (film_height f) seed) = Ret st /\
        (render_done st -> rd_pixels st = img_pixels A) /\
        ((forall k, (k * 128 < film_width f * film_height f)%nat -> (256 <= count_occ Nat.eq_dec schedule k)%nat) -> render_done st).
Proof.
  intros E RG GO h s0 HE HF PO HPp HSo HP HM HS HL HK HMat HAng. destruct (C76_rays E RG GO h s0 HE HF PO HPp HSo HP HM HS HL HK HMat HAng) as (s & Hs & HT).
  exists s. split; [exact Hs|]. intros c v f seed nest fuel HC Hd Hn Hf1 Hf2 Hf3 Hf4 Hpf Hsz.
  destruct (C49_returns NumR TrigR E RG GO nest fuel c s (film_width f) (film_height f) (gen_ray (pinhole_new v f)) seed (C49_positions_real _ _ Hsz)) as (st & R1 & R2 & R3).
  { intros r aux g La. destruct (HT c r aux g nest fuel HC Hd La Hn Hf1 Hf2 Hf3 Hf4) as (li & r' & aux' & g' & Q). eexists. exact Q. }
  eexists. split; [exact R3|]. split; [reflexivity|]. split; [reflexivity|]. intros schedule.
  destruct (C49_schedule NumR TrigR E RG GO nest fuel c s (film_width f) (film_height f) (gen_ray (pinhole_new v f)) seed _ st R1 R2) as [K _].
  destruct (K schedule) as (st' & Q1 & Q2 & Q3). exists st'. split; [exact Q1|]. split; [exact Q2|exact Q3].
Qed.
Print Assumptions C76_pictures.

(** a matte floor under a polished plate and the sun at the zenith: no luck of the generators keeps a ray, or a picture, from being finished *)
Definition sunny_gallery : list (@op NumR) := sunny_floor ++ [AddMaterial (Mirror (gray (9/10 : R))); AddMaterial (Dielectric (gray (9/10 : R)) (3/2 : R)); AddObject 2 2 (PTriangle (plate 1)); AddObject 3 3 (PTriangle (plate 2))].
Lemma gallery_plays : exists s0, play (E := ext_example) scene_new sunny_gallery = Ret s0 /\ manageable s0 /\ length (a_tri (sc_arrays s0)) = 3%nat /\
  sc_lights s0 = [] /\ sc_sky s0 = None /\ Forall no_gloss (sc_materials s0).
Proof.
  unfold sunny_gallery, sunny_floor. cbn [app play step push_material fst obind]. unfold push_object. cbn. eexists. split; [reflexivity|].
  split; [split; [cbn; lia|apply uncrowded_few; cbn; lia]|]. cbn. split; [reflexivity|]. split; [reflexivity|]. split; [reflexivity|].
  repeat first [apply Forall_nil|apply Forall_cons]; cbn; trivial; lra.
Qed.
Example C76_hyp : forall (RG : Gen NumR), fair RG -> exists s, made (E := ext_example) sunny_gallery s /\
  forall r g, exists li r' aux' g', trace_ray (E := ext_example) (R := RG) (O := geo_sun) 16 100 (@mkTracer NumR 14 20 10 (0 : R) (2 : R)) s r helper_default g = Ret (li, @f0 NumR, r', aux', g').
Proof.
  intros RG HF. destruct geo_sun_ok as [G1 G2]. destruct gallery_plays as (s0 & HP & HM & Hl & L1 & L2 & L3).
  destruct (C76_rays ext_example RG geo_sun sunny_gallery s0 ext_example_ok HF) as (s & Hs & H); try assumption.
  - intros v _. discriminate.
  - intros f b p H. split.
    + intros c ->. repeat (destruct H as [H|H]; [discriminate|]). destruct H.
    + intros d ->. repeat (destruct H as [H|H]; [try discriminate; injection H as <- <- <-; intros Q; apply (f_equal (@vz NumR)) in Q; cbn in Q; lra|]). destruct H.
  - intros f b d H. repeat (destruct H as [H|H]; [try discriminate; injection H as <- <- <-; cbn [zenith_sun ds_angle]; pose proof PI2_3_2; lra|]). destruct H.
  - exists s. split; [exact Hs|]. intros r g. apply H; cbn [max_depth n_ambient_samples n_shadow_samples count_specular_bounce]; try lia; [intros g0; destruct (HF g0); lra|reflexivity].
Qed.
