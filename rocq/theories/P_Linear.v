(** * Properties C67 and C68: light adds up; no light from nowhere (real arithmetic) *)
From Verif Require Import NumR Geometry Triangle Sphere Colour ColourProofs Ray Bvh Material Scene Samplers Primitives RayTracer Image Render SpecLighting LightingProofs
  SpecGeom SpecBvh SpecScene BvhProofs BvhExamples SceneProofs TracerSafe TracerScenes TracerCorridor P_Bvh P_Scene P_Tracer P_Lights TracerRefute P_Triangle TracerLone.
Open Scope R_scope.

(** ** C67 - light adds up *)
(** The lighting of a scene can be taken off and put back. *)
Theorem C67_own_lighting : forall s : @Scene NumR, relight (own_lighting s) s = s.
Proof.
  intros [a ms l dl ac skc sk]. unfold relight. cbn [sc_materials sc_arrays sc_lights sc_distant_lights sc_accelerator sc_sky_colour sc_sky]. f_equal.
  - unfold own_lighting. cbn [sc_materials sc_sky]. set (hv := fun d : @Vec NumR => _). clearbody hv.
    enough (G : forall pre l, number_from (relight_material (mkLighting (fun i => match nth_error (pre ++ l) i with Some (Light c) => c | _ => BLACK end) hv)) (length pre) l = l) by exact (G [] ms).
    intros pre l0. revert pre. induction l0 as [|m l0 IH]; intros pre; cbn [number_from]; [reflexivity|]. f_equal.
    + unfold relight_material. destruct m; try reflexivity. cbn [lamp]. rewrite nth_error_app2, Nat.sub_diag by lia. reflexivity.
    + replace (pre ++ m :: l0) with ((pre ++ [m]) ++ l0) by (rewrite <- app_assoc; reflexivity).
      replace (S (length pre)) with (length (pre ++ [m])) by (rewrite app_length; cbn; lia). apply IH.
  - unfold own_lighting. cbn [sc_sky]. destruct sk as [sky|]; reflexivity.
Qed.
Print Assumptions C67_own_lighting.

(** One ray, with the same draws, under two lightings and under any mixture of them: either the three runs panic, or the three
    exceed their budget, or the light of the mixture is the mixture of the lights; everything else (density, buffers, generator) is
    the same. *)
Theorem C67_ray_partial : forall (E : @Ext NumR) (RG : Gen NumR) (O : @Geo NumR) nest fuel (c : @Tracer NumR) (s : @Scene NumR) r aux g (a b : R) u v,
  shines_both_sides s ->
  let trace w := trace_ray nest fuel c (relight w s) r aux g in
  (trace u = Crash /\ trace v = Crash /\ trace (mix a u b v) = Crash) \/
  (trace u = Stuck /\ trace v = Stuck /\ trace (mix a u b v) = Stuck) \/
  (exists lu lv pdf ru rv r' aux' g', trace u = Ret (lu, pdf, ru, aux', g') /\ trace v = Ret (lv, pdf, rv, aux', g') /\
     trace (mix a u b v) = Ret (spectrum_mix a lu b lv, pdf, r', aux', g')).
Proof.
  intros E RG O nest fuel c s r aux g a b u v HB. cbv zeta.
  destruct (trace_linear fuel c s HB nest r aux g) as [H|[H|(f & (h & pdf & rr & aux' & g' & Hh & Hf) & H)]].
  - left. auto.
  - right. left. auto.
  - right. right. exists (h u), (h v), pdf, (rr u), (rr v), (rr (mix a u b v)), aux', g'. rewrite !H, !Hf, Hh. auto.
Qed.
Print Assumptions C67_ray_partial.

(** Whole pictures. *)
Theorem C67_image_partial : forall (E : @Ext NumR) (RG : Gen NumR) (O : @Geo NumR) nest fuel (c : @Tracer NumR) (s : @Scene NumR) width height camera seed (a b : R) u v A,
  shines_both_sides s ->
  let render w := render_sequential nest fuel c (relight w s) width height camera seed in
  render u = Ret A -> exists B C, render v = Ret B /\ render (mix a u b v) = Ret C /\
    img_width C = width /\ img_height C = height /\ length (img_pixels A) = length (img_pixels B) /\
    img_pixels C = map (fun xy => spectrum_mix a (fst xy) b (snd xy)) (combine (img_pixels A) (img_pixels B)).
Proof.
  intros E RG O nest fuel c s width height camera seed a b u v A HB. cbv beta zeta. intros HA.
  destruct (picture_linear nest fuel c s width height camera HB seed) as [H|[H|(f & (ps & HP & Hf) & H)]]; cbv beta in H; [specialize (H u); congruence|specialize (H u); congruence|].
  rewrite H, Hf in HA. injection HA as <-. do 2 eexists. split; [rewrite H, Hf; reflexivity|]. split; [rewrite H, Hf; reflexivity|].
  cbn [img_width img_height img_pixels]. rewrite !map_length. do 3 (split; [reflexivity|]). clear H Hf.
  induction HP as [|p ps Hp HP IH]; cbn [map combine]; [reflexivity|]. rewrite IH. f_equal. apply Hp.
Qed.
Print Assumptions C67_image_partial.

(** Twice as much light gives a picture twice as bright; and what two groups of lights give together is the sum of what each gives
    alone. *)
Corollary C67_brighter_partial : forall (E : @Ext NumR) (RG : Gen NumR) (O : @Geo NumR) nest fuel (c : @Tracer NumR) (s : @Scene NumR) width height camera seed (k : R) A,
  shines_both_sides s -> render_sequential nest fuel c s width height camera seed = Ret A ->
  exists C, render_sequential nest fuel c (relight (mix k (own_lighting s) 0 (own_lighting s)) s) width height camera seed = Ret C /\
    img_pixels C = map (fun x => smulf x k) (img_pixels A).
Proof.
  intros E RG O nest fuel c s width height camera seed k A HB HA. rewrite <- (C67_own_lighting s) in HA at 1.
  destruct (C67_image_partial E RG O nest fuel c s width height camera seed k 0 (own_lighting s) (own_lighting s) A HB HA) as (B & C & H1 & H2 & _ & _ & _ & H3).
  rewrite HA in H1. injection H1 as <-. exists C. split; [exact H2|]. rewrite H3. clear.
  induction (img_pixels A) as [|x l IH]; cbn [combine map fst snd]; [reflexivity|]. rewrite IH. f_equal.
  apply spec_ext; unfold spectrum_mix, smulf, smap; cbn [sr sg sb]; rsimp; ring.
Qed.
Print Assumptions C67_brighter_partial.

(** Without the condition on the lights it is false: a light whose back is not luminous "emits" the colour of its back there
    (C48_dark_side_refuted), and keeps doing so whatever the lighting - even when everything is switched off. *)
Theorem C67_one_sided_refuted : forall (E : @Ext NumR) (RG : Gen NumR) (O : @Geo NumR) h s0, externals_ok E -> play scene_new h = Ret s0 -> manageable s0 ->
  exists s, made h s /\ forall (light : @Object NumR) (ray : RayR) nodes fuel lum col sp ro info,
    (2 * length (a_tri (sc_arrays s0)) <= fuel)%nat -> sampled_kind (ob_primitive light) ->
    nth_error (sc_materials s0) (ob_front light) = Some (Light lum) -> nth_error (sc_materials s0) (ob_back light) = Some (Plastic col sp ro) ->
    prim_intersect (ob_primitive light) ray = Some info -> i_side info = Back ->
    ~ (exists t d, In t (a_tri (sc_arrays s)) /\ touches ray t d /\ in_the_way ray (dist2 (origin ray) (i_p info)) d) ->
    exists pdf nodes', forall w, intersect_light fuel (relight w s) light ray nodes = Ret (Some (col, pdf), nodes').
Proof.
  intros E RG O h s0 HE HP HM. destruct (C48_dark_side_refuted E RG O h s0 HE HP HM) as (s & HMd & HA). exists s. split; [exact HMd|].
  intros light ray nodes fuel lum col sp ro info Hf HK H1 H2 HI HS Hno.
  destruct (HA light ray nodes fuel lum col sp ro info Hf HK H1 H2 HI HS Hno) as (pdf & nd & _ & HR). exists pdf, nd. intros w. rewrite <- HR.
  destruct HMd as (s1 & HP1 & HR1). rewrite HP in HP1. injection HP1 as <-.
  destruct (rebuilt (HE := HE) h s0 HP HM) as (s' & HB' & E1 & _). rewrite HR1 in HB'. injection HB' as <-.
  unfold intersect_light. rewrite HI. cbv zeta.
  change (scene_unobstructed_distance fuel (relight w s)) with (scene_unobstructed_distance fuel s).
  destruct (scene_unobstructed_distance _ _ _ _ _) as [[cl nd']| |]; cbn [obind]; try reflexivity. destruct (negb cl); [reflexivity|]. rewrite HS.
  rewrite relit_material, E1, H2. reflexivity.
Qed.
Print Assumptions C67_one_sided_refuted.

(** ** C68 - no light from nowhere *)
(** A scene into which no luminous material was pushed, with no sky: every ray and every pixel is black. *)
Lemma dark_scene (E : @Ext NumR) h (s : @Scene NumR) : perm_sorts E -> play scene_new h = Ret s -> (forall m, In (AddMaterial m) h -> ~ is_light m) -> sc_sky s = None ->
  shines_both_sides s /\ forall w, relight w s = s.
Proof.
  intros HE HP HL HK. destruct (C08_lights NumR TrigR E HE h s HP) as [L1 L2].
  assert (HM : forall m, In m (sc_materials s) -> ~ is_light m).
  { intros m Hm. rewrite (play_materials _ _ _ HP) in Hm. cbn [sc_materials scene_new app] in Hm. unfold materials_of in Hm. apply in_flat_map in Hm.
    destruct Hm as (o & Ho & Hm). destruct o; try contradiction. destruct Hm as [<-|[]]. apply HL. exact Ho. }
  assert (HNone : forall o, ~ luminous (sc_materials s) o).
  { intros [[f b] p] (m & [Hm|Hm] & Hl); apply nth_error_In in Hm; exact (HM m Hm Hl). }
  assert (SelNil : forall (P : nat * nat * @Primitive NumR -> Prop) l r, (forall o, ~ P o) -> selected P as_object l r -> r = []).
  { intros P l r HN HS. induction HS as [|x l r Hx|x l r Hx HS IH]; [reflexivity|exfalso; exact (HN _ Hx)|exact IH]. }
  split.
  - intros l Hl. rewrite (SelNil _ _ _ (fun o Ho => HNone o (proj1 Ho)) L1), (SelNil _ _ _ (fun o Ho => HNone o (proj1 Ho)) L2) in Hl. destruct Hl.
  - intros w. destruct s as [a ms l dl ac skc sk]. cbn [sc_sky] in HK. subst sk. cbn [sc_materials] in HM. unfold relight. cbn [sc_materials sc_arrays sc_lights sc_distant_lights sc_accelerator sc_sky_colour sc_sky]. f_equal.
    clear - HM. generalize 0%nat. induction ms as [|m ms IH]; intros i; cbn [number_from]; [reflexivity|]. rewrite IH by (intros m' Hm'; apply HM; right; exact Hm'). f_equal.
    destruct m; try reflexivity. exfalso. apply (HM (Light colour)); [left; reflexivity|exists colour; reflexivity].
Qed.
Lemma linear_constant_black (h : Lighting -> @Spectrum NumR) : linear h -> (forall u v, h u = h v) -> forall w, h w = BLACK.
Proof.
  intros HL HC w. rewrite (HC w (mix 0 w 0 w)), HL. apply spec_ext; unfold spectrum_mix, BLACK; cbn [sr sg sb]; rsimp; field.
Qed.
Theorem C68_dark_ray : forall (E : @Ext NumR) (RG : Gen NumR) (O : @Geo NumR) h s nest fuel (c : @Tracer NumR) r aux g li pdf r' aux' g',
  perm_sorts E -> play scene_new h = Ret s -> (forall m, In (AddMaterial m) h -> ~ is_light m) -> sc_sky s = None ->
  trace_ray nest fuel c s r aux g = Ret (li, pdf, r', aux', g') -> li = BLACK.
Proof.
  intros E RG O h s nest fuel c r aux g li pdf r' aux' g' HE HP HL HK H. destruct (dark_scene E h s HE HP HL HK) as [HB HR].
  set (w0 := own_lighting s). destruct (trace_linear fuel c s HB nest r aux g) as [Q|[Q|(f & (hh & pd & rr & ax & gg & Hh & Hf) & Q)]].
  - specialize (Q w0). rewrite HR, H in Q. discriminate.
  - specialize (Q w0). rewrite HR, H in Q. discriminate.
  - assert (QQ : forall w, hh w = li). { intros w. specialize (Q w). rewrite HR, H, Hf in Q. injection Q as Q _ _ _ _. symmetry. exact Q. }
    rewrite <- (QQ w0). apply linear_constant_black; [exact Hh|]. intros u v. rewrite !QQ. reflexivity.
Qed.
Print Assumptions C68_dark_ray.
Theorem C68_dark_image : forall (E : @Ext NumR) (RG : Gen NumR) (O : @Geo NumR) h s nest fuel (c : @Tracer NumR) width height camera seed A,
  perm_sorts E -> play scene_new h = Ret s -> (forall m, In (AddMaterial m) h -> ~ is_light m) -> sc_sky s = None ->
  render_sequential nest fuel c s width height camera seed = Ret A -> img_pixels A = repeat BLACK (width * height).
Proof.
  intros E RG O h s nest fuel c width height camera seed A HE HP HL HK H. destruct (dark_scene E h s HE HP HL HK) as [HB HR].
  set (w0 := own_lighting s). destruct (picture_linear nest fuel c s width height camera HB seed) as [Q|[Q|(f & (ps & HPs & Hf) & Q)]].
  - specialize (Q w0). rewrite HR, H in Q. discriminate.
  - specialize (Q w0). rewrite HR, H in Q. discriminate.
  - assert (QQ : forall w, map (fun p => p w) ps = img_pixels A). { intros w. specialize (Q w). rewrite HR, H, Hf in Q. injection Q as ->. reflexivity. }
    assert (HLn : length (img_pixels A) = (width * height)%nat).
    { unfold render_sequential in H. destruct (render_steps _ _ _ _ _ _ _ _) as [st| |]; cbn [obind] in H; try discriminate. unfold from_pixels in H.
      destruct (Nat.eqb_spec (length (rd_pixels st)) (width * height)) as [L|L]; cbn [negb] in H; [injection H as <-; exact L|discriminate]. }
    rewrite <- HLn. clear H HLn Q Hf. revert QQ. generalize (img_pixels A). induction HPs as [|p ps Hp HPs IH]; intros px QQ.
    + rewrite <- (QQ w0). reflexivity.
    + destruct px as [|x px]; [discriminate (QQ w0)|]. cbn [length repeat]. f_equal.
      * assert (XX : forall w, p w = x) by (intros w; specialize (QQ w); cbn in QQ; congruence).
        rewrite <- (XX w0). apply linear_constant_black; [exact Hp|]. intros u v. rewrite !XX. reflexivity.
      * apply IH. intros w. specialize (QQ w). cbn in QQ. congruence.
Qed.
Print Assumptions C68_dark_image.
(* the grey corridor of C44: nothing luminous, no sky, and its rays are traced (C44_dark_hyp, C66_hyp) *)
Example C68_hyp : exists s0, play (E := ext_example) scene_new (corridor gray_wall) = Ret s0 /\ sc_sky s0 = None /\ forall m, In (AddMaterial m) (corridor gray_wall) -> ~ is_light m.
Proof.
  destruct C44_dark_hyp as (s0 & H1 & _ & _ & _ & _ & H6 & _). exists s0. split; [exact H1|]. split; [exact H6|].
  intros m Hm (co & ->). unfold corridor in Hm. repeat (destruct Hm as [Hm|Hm]; [discriminate|]). destruct Hm.
Qed.
(* a lamp (a triangle that shines on both sides) over a grey floor: the condition of C67 holds *)
Definition lamp_over_floor : list (@op NumR) := [AddMaterial gray_wall; AddMaterial (Light (gray (10 : R))); AddObject 0 0 (PTriangle unit_tri); AddObject 1 1 (PTriangle (plate 3)); SetSky (Some (fun _ => 1 : R))].
Example C67_hyp : exists s, play (E := ext_example) scene_new lamp_over_floor = Ret s /\ length (sc_lights s) = 1%nat /\ sc_sky s <> None /\ shines_both_sides s.
Proof.
  eexists. split; [reflexivity|]. split; [reflexivity|]. split; [discriminate|].
  intros l [<-|[]]. split; eexists; reflexivity.
Qed.
