(** * Property C73: sunlight on a matte surface (real arithmetic)

    What the whole tracer answers for a sunlit matte surface is what the textbook says: reflectance times luminance times the cosine
    of the sun's angle times its solid angle over pi. *)
From Coq Require Import Permutation.
From Verif Require Import NumR Geometry Triangle Sphere Colour Ray Bvh BvhProofs Material Scene Samplers Primitives RayTracer Camera Render
  TracerProofs TracerSafe TracerScenes TracerLone TracerAux SpecColour SpecGeom SpecBvh SpecScene TriangleProofs BvhReal BvhQuery SceneProofs SpecOptics MaterialProofs
  P_Triangle P_Frame P_Bvh P_Material P_Tracer P_Camera SpecTracer SpecDraws P_Draws DaylightReal P_Render ColourProofs TracerCorridor BvhExamples P_Samplers P_Radiant.
From Verif Require P_Glossy.
Open Scope R_scope.

(** geometry3d: a ray whose direction lies within half the angle of the axis of a distant source meets the source, on one of its sides *)
Definition sees_sources (GO : @Geo NumR) : Prop := forall (d : @DistantSource3D NumR) (ray : RayR), unit (direction ray) -> ds_direction d <> pt 0 0 0 ->
  cos (ds_angle d / 2) <= dot (direction ray) (vnormalized (ds_direction d)) -> exists info, prim_intersect (PSource d) ray = Some info /\ i_side info <> NonApplicable.
(** geometry3d: get_perpendicular answers with a perpendicular unit vector *)
Definition good_perpendiculars (GO : @Geo NumR) : Prop := forall n : VecR, unit n -> exists e, get_perpendicular n = Some e /\ perpendicular_to n e.

(** the axis of a distant source, and the solid angle of its cone *)
Definition axis_of (d : @DistantSource3D NumR) : VecR := vnormalized (ds_direction d).
Definition half_cosine (d : @DistantSource3D NumR) : R := cos (ds_angle d / 2).
Definition solid_angle (d : @DistantSource3D NumR) : R := 2 * PI * (1 - half_cosine d).

Ltac chans := apply spec_ext; unfold sadd, sdivf, smul, smulf, smap, smap2; cbn [sr sg sb]; cbn [fofZ fmul fdiv NumR]; rewrite <- ?INR_IZR_INZ; rsimp; match goal with |- ?a = ?b => change (@eq R a b) end;
  repeat (match goal with
  | |- context [@sr NumR ?x] => let y := fresh "y" in generalize (@sr NumR x); intros y; change R in y
  | |- context [@sg NumR ?x] => let y := fresh "y" in generalize (@sg NumR x); intros y; change R in y
  | |- context [@sb NumR ?x] => let y := fresh "y" in generalize (@sb NumR x); intros y; change R in y end).
Lemma near_axis (n a d : VecR) (c : R) : unit n -> unit a -> unit d -> c <= dot d a -> Rabs (Rabs (dot n d) - Rabs (dot n a)) <= sqrt (2 * (1 - c)).
Proof.
  intros Un Ua Ud Hc. eapply Rle_trans; [apply Rabs_triang_inv2|].
  set (w := minus d a). replace (dot n d - dot n a) with (dot n w) by (unfold w; clear; dvec; vunf; ring).
  pose proof (P_Glossy.schwarz n w) as K. unfold unit in *. rewrite Un in K.
  assert (W : dot w w = 2 * (1 - dot d a)). { unfold w. replace (dot (minus d a) (minus d a)) with (dot d d + dot a a - 2 * dot d a) by (clear; dvec; vunf; ring). rewrite Ua, Ud. ring. }
  rewrite <- sqrt_Rsqr_abs. apply sqrt_le_1_alt. unfold Rsqr. clearbody w. set (x := dot n w) in *. set (y := dot w w) in *. set (z := dot d a) in *. clearbody x y z. lra.
Qed.

Section Sunlight.
  Context {E : @Ext NumR} {RG : Gen NumR} {GO : @Geo NumR}.
  Variables (s : @Scene NumR) (fuel : nat) (d : @DistantSource3D NumR) (f b : nat) (L rho : SpecR) (ro : R) (m : @Material NumR).
  Hypothesis HShadow : forall ray d2 aux, exists clear aux', scene_unobstructed_distance fuel s ray d2 aux = Ret (clear, aux') /\
        (clear = false -> exists t d, In t (a_tri (sc_arrays s)) /\ touches ray t d /\ in_the_way ray d2 d).
  Hypotheses (HF : fair RG) (HPp : good_perpendiculars GO) (HSo : sees_sources GO) (HA : 0 < ds_angle d < PI) (HD : ds_direction d <> pt 0 0 0).
  Hypotheses (Hf : nth_error (sc_materials s) f = Some (Light L)) (Hb : nth_error (sc_materials s) b = Some (Light L)).
  Hypothesis Hm : m = Plastic rho (0 : R) ro \/ m = Metal rho (0 : R) ro.
  Let sun := mkObject (PSource d) f b.
  Variables (r : @Ray NumR) (p n e1 e2 : VecR) (N : nat).
  Hypotheses (Un : unit n) (HN : (0 < N)%nat).
  Hypothesis clear_view : forall dir t k, unit dir -> half_cosine d <= dot dir (axis_of d) -> In t (a_tri (sc_arrays s)) -> ~ touches (mkRay3D p dir) t k.

  Definition sun_part (k : R) : SpecR := smulf (smul rho L) (solid_angle d / PI * k).

  Lemma half_cosine_range : 0 < half_cosine d < 1.
  Proof.
    unfold half_cosine. split; [apply cos_gt_0; lra|]. rewrite <- cos_0. apply cos_decreasing_1; lra.
  Qed.
  Lemma sun_samples : forall loops i acc nodes g, (N - i <= loops)%nat -> (i <= N)%nat -> exists nodes' g' k,
    light_loop loops fuel s m r p n e1 e2 N sun i acc nodes g = Ret (sadd acc (sun_part (k * INR (N - i) / INR N)), nodes', g') /\ 
    ((i < N)%nat -> Rabs (k - Rabs (dot n (axis_of d))) <= sqrt (2 * (1 - half_cosine d))).
  Proof.
    pose proof half_cosine_range as HC.
    assert (HNp : 0 < INR N) by (apply lt_0_INR; exact HN).
    induction loops as [|loops IH]; intros i acc nodes g Hl Hi.
    - assert (i = N) by lia. subst i. cbn [light_loop]. rewrite Nat.ltb_irrefl. exists nodes, g, 0. split; [|lia].
      do 2 f_equal. f_equal. unfold sun_part. replace (0 * INR (N - N) / INR N) with 0 by (unfold Rdiv; ring).
      chans; ring.
    - cbn [light_loop]. destruct (Nat.ltb_spec i N) as [Hlt|Hge].
      2:{ assert (i = N) by lia. subst i. exists nodes, g, 0. split; [|lia].
          do 2 f_equal. f_equal. unfold sun_part. replace (0 * INR (N - N) / INR N) with 0 by (unfold Rdiv; ring).
          chans; ring. }
      assert (HS : exists dir g', sample_direction (PSource d) g p = Ret (dir, g')).
      { unfold sample_direction, sample_source_disc. destruct (gen g) as [r1 g1]. destruct (gen g1) as [r2 g2]. cbv zeta.
        destruct (HPp (vnormalized (ds_direction d)) (normalized_unit _ HD)) as (e & -> & _). cbn [obind]. eauto. }
      destruct HS as (dir & g1 & HS). change (ob_primitive sun) with (PSource d). rewrite HS. cbn [obind]. cbv zeta.
      destruct (C52_towards_source d g g1 p dir HF) as [Ud Hd]; [|exact HA|exact HD|exact HS|].
      { intros n0 e Un0 Hg. destruct (HPp n0 Un0) as (e' & Hg' & Hp). rewrite Hg in Hg'. injection Hg' as <-. exact Hp. }
      fold (axis_of d) in Hd. fold (half_cosine d) in Hd.
      unfold intersect_light. change (ob_primitive sun) with (PSource d).
      destruct (HSo d (mkRay3D p dir) Ud HD Hd) as (info & HI & HNA). rewrite HI. cbv zeta.
      match goal with |- context [scene_unobstructed_distance fuel s ?ry ?d2 nodes] => destruct (HShadow ry d2 nodes) as (clear & nodes1 & HU & HCl) end.
      rewrite HU. cbn [obind].
      assert (clear = true). { destruct clear; [reflexivity|]. destruct (HCl eq_refl) as (t & k & Hin & Ht & _). exfalso. exact (clear_view dir t k Ud Hd Hin Ht). }
      subst clear. cbn [negb].
      assert (EX : match i_side info with Front => Some (ob_front sun) | Back => Some (ob_back sun) | NonApplicable => None end = Some f \/
                   match i_side info with Front => Some (ob_front sun) | Back => Some (ob_back sun) | NonApplicable => None end = Some b).
      { destruct (i_side info); [left; reflexivity|right; reflexivity|contradiction]. }
      set (side := match i_side info with Front => _ | Back => _ | NonApplicable => _ end) in *. clearbody side.
      assert (PF : @source_solid_angle_pdf NumR TrigR d = / solid_angle d).
      { unfold source_solid_angle_pdf, uniform_cone_pdf, cos_half_alpha, solid_angle, half_cosine. unfold f1, f2. cbn [flit fdiv fmul fsub fcos fpi NumR TrigR].
        match goal with |- ?x = ?y => change (@eq R x y) end. replace (ds_angle d / (2 / 1)) with (ds_angle d / 2) by (rsimp; field). 
        assert (HC' := HC). unfold half_cosine in HC'. pose proof PI_RGT_0. set (z := cos (ds_angle d / 2)) in *. clearbody z. rsimp. field. split; lra. }
      assert (SA : 0 < solid_angle d <= 4 * PI). { unfold solid_angle. pose proof PI_RGT_0. nra. }
      assert (HT : @fltb NumR (@source_solid_angle_pdf NumR TrigR d) (flit 1 (10 ^ 18)) = false).
      { rewrite PF. apply Rltb_is_false. cbn [flit NumR]. replace (IZR 1 / IZR (Z.pos (10 ^ 18))) with (/ IZR (Z.pos (10 ^ 18))) by (unfold Rdiv; ring).
        apply Rinv_le_contravar; [lra|]. pose proof PI_4. assert (16 <= IZR (Z.pos (10 ^ 18))) by (apply IZR_le; vm_compute; discriminate). lra. }
      assert (HB : eval_bsdf is_parallel is_same_direction m n e1 e2 r (vscale dir (fneg f1)) = Ret (smulf rho ((1 - 0) / PI))).
      { destruct (C25_diffuse is_parallel is_same_direction rho 0 ro n e1 e2 (vscale dir (fneg f1)) r ltac:(lra)) as [B1 B2]. destruct Hm; subst m; assumption. }
      assert (STEP : forall acc1 nodes2, exists nodes' g' k, light_loop loops fuel s m r p n e1 e2 N sun (S i) (sadd acc1 (sun_part (Rabs (dot n dir) / INR N))) nodes2 g1 =
                 Ret (sadd acc1 (sun_part (k * INR (N - i) / INR N)), nodes', g') /\ Rabs (k - Rabs (dot n (axis_of d))) <= sqrt (2 * (1 - half_cosine d))).
      { intros acc1 nodes2. destruct (IH (S i) (sadd acc1 (sun_part (Rabs (dot n dir) / INR N))) nodes2 g1 ltac:(lia) ltac:(lia)) as (nodes' & g' & k & Q1 & Q2).
        set (M := INR (N - S i)) in *. assert (HM : INR (N - i) = M + 1) by (unfold M; rewrite <- S_INR; f_equal; lia).
        assert (HM0 : 0 <= M) by (unfold M; apply pos_INR).
        exists nodes', g', ((Rabs (dot n dir) + k * M) / (M + 1)). split.
        - rewrite Q1, HM. do 3 f_equal. unfold sun_part. chans; field; repeat split; try lra; pose proof PI_RGT_0; lra.
        - pose proof (near_axis n (axis_of d) dir (half_cosine d) Un (normalized_unit _ HD) Ud Hd) as K1. set (a := Rabs (dot n (axis_of d))) in *. set (x := Rabs (dot n dir)) in *. set (e := sqrt _) in *.
          destruct (Nat.eq_dec (S i) N) as [EN|NN].
          + assert (M = 0) as -> by (unfold M; rewrite EN, Nat.sub_diag; reflexivity). replace ((x + k * 0) / (0 + 1)) with x by field. exact K1.
          + specialize (Q2 ltac:(lia)). clearbody a x e M.
            replace ((x + k * M) / (M + 1) - a) with ((x - a) * / (M + 1) + (k - a) * (M * / (M + 1))) by (field; lra).
            eapply Rle_trans; [apply Rabs_triang|]. rewrite !Rabs_mult. assert (0 < / (M + 1)) by (apply Rinv_0_lt_compat; lra).
            rewrite (Rabs_pos_eq M), (Rabs_pos_eq (/ (M + 1))) by lra.
            apply Rle_trans with (e * / (M + 1) + e * (M * / (M + 1))); [|right; field; lra].
            apply Rplus_le_compat; apply Rmult_le_compat_r; try assumption; [lra|apply Rmult_le_pos; lra]. }
      destruct EX as [-> | ->]; cbn [ret_opt obind]; [rewrite Hf|rewrite Hb]; cbn [ret_opt obind solid_angle_pdf mat_colour].
      all: unfold TINY18; rewrite HT, HB; cbn [obind].
      all: match goal with |- context [light_loop _ _ _ _ _ _ _ _ _ _ _ _ (sadd _ ?w) ?nd _] =>
             replace w with (sun_part (Rabs (dot n dir) / INR N)); [destruct (STEP acc nd) as (nodes' & g' & k & Q1 & Q2); exists nodes', g', k; split; [exact Q1|intros _; exact Q2]|] end.
      all: rewrite PF; unfold sun_part; change (@fabs NumR (@vdot NumR n dir)) with (Rabs (dot n dir)); set (x := Rabs _); clearbody x; pose proof PI_RGT_0.
      all: chans; field; repeat split; lra.
  Qed.
End Sunlight.

Theorem C73_sunlight : forall (E : @Ext NumR) (RG : Gen NumR) (GO : @Geo NumR) h s0 (d : @DistantSource3D NumR) f b (L : SpecR),
  externals_ok E -> fair RG -> good_perpendiculars GO -> sees_sources GO ->
  play scene_new h = Ret s0 -> manageable s0 -> flat_or_distant h ->
  sc_lights s0 = [] -> sc_distant_lights s0 = [mkObject (PSource d) f b] -> 0 < ds_angle d < PI -> ds_direction d <> pt 0 0 0 ->
  nth_error (sc_materials s0) f = Some (Light L) -> nth_error (sc_materials s0) b = Some (Light L) ->
  exists s, made h s /\ forall (c : @Tracer NumR) r aux g nest fuel i r1 (rho : SpecR) (ro : R), (2 * length (a_tri (sc_arrays s0)) <= fuel)%nat ->
    (0 < n_shadow_samples c <= fuel)%nat -> (0 < nest)%nat -> unit (dir_of r) -> (r_depth r <= max_depth c)%nat -> (n_ambient_samples c = 0 \/ max_depth c = 0)%nat ->
    meets fuel s r i r1 -> facing s r1 i (Plastic rho (0 : R) ro) \/ facing s r1 i (Metal rho (0 : R) ro) ->
    (forall dir t k, unit dir -> half_cosine d <= dot dir (axis_of d) -> In t (a_tri (sc_arrays s)) ->
       ~ touches (mkRay3D (plus (point_of r1) (times (1/1000) (normal_of r1))) dir) t k) ->
    exists li pdf r' aux' g' (k : R), trace_ray nest fuel c s r aux g = Ret (li, pdf, r', aux', g') /\
      sr li = sr rho * sr L * (solid_angle d * k) / PI /\ sg li = sg rho * sg L * (solid_angle d * k) / PI /\ sb li = sb rho * sb L * (solid_angle d * k) / PI /\
      Rabs (k - Rabs (dot (normal_of r1) (axis_of d))) <= sqrt (2 * (1 - half_cosine d)).
Proof.
  intros E RG GO h s0 d f b L HE HF HPp HSo HP HM HFl HL0 HL1 HA HD Hf Hb.
  destruct (rebuilt (HE := HE) h s0 HP HM) as (s & HB & E1 & E2 & E3 & _ & _ & Ha & Hrec & _ & HQ). exists s. split; [exists s0; split; assumption|].
  intros c r aux g nest fuel i r1 rho ro Hfuel HN Hnest Ur Hdep Hamb (z & ax & ax' & CR & ->) Hfac Hclear. destruct (HQ fuel Hfuel) as [HFi HSh].
  destruct nest as [|nest]; [lia|]. cbn [trace_ray].
  pose proof (cast_alike fuel s r ax (h_nodes aux)) as AL. rewrite CR in AL.
  destruct (HFi r (h_nodes aux)) as [(j & t & dd & x & nd & CR' & X1 & X2 & X3 & X4 & X5 & X6 & _)|(nd & CR' & _)]; rewrite CR' in AL; cbn [alike fst] in AL; [|discriminate].
  injection AL as -> ->. rewrite CR'. cbn [obind]. cbv zeta. rewrite Nat2Z.id in *.
  destruct (hit_normal_oriented _ _ _ X5) as [ON NS]. destruct (C11_hit_normal _ _ _ X5) as (Un & Dn & O1 & O2 & _).
  unfold point_of, normal_of in *. cbn [r_interaction set_interaction] in *.
  assert (HMt : exists m, (m = Plastic rho (0 : R) ro \/ m = Metal rho (0 : R) ro) /\ hit_material s (set_interaction r x) j = Ret (Some m)).
  { unfold hit_material. cbn [r_interaction set_interaction]. unfold facing, side_hit in Hfac. cbn [r_interaction set_interaction] in Hfac. destruct Hfac as [(k & K1 & K2)|(k & K1 & K2)].
    - exists (Plastic rho (0 : R) ro). split; [left; reflexivity|]. destruct K2 as [[-> ->]|[-> ->]]; cbn [ret_opt obind]; rewrite K1; reflexivity.
    - exists (Metal rho (0 : R) ro). split; [right; reflexivity|]. destruct K2 as [[-> ->]|[-> ->]]; cbn [ret_opt obind]; rewrite K1; reflexivity. }
  destruct HMt as (m & Hm & ->). cbn [obind].
  assert (HEm : emits_light m = false /\ specular_only m = false) by (destruct Hm; subst m; split; reflexivity). destruct HEm as [-> HSp].
  unfold get_triad at 1. change (r_depth (set_interaction r x)) with (r_depth r). destruct (Nat.ltb_spec (max_depth c) (r_depth r)); [lia|].
  rewrite (flat_corners s Ha _ Hrec HFl j t X1). cbn [ret_opt obind]. rewrite HSp. change (r_interaction (set_interaction r x)) with x. set (r2 := set_shading _ _).
  assert (RN : i_normal (x_shading (r_interaction r2)) = i_normal (x_shading x)).
  { change (i_normal (interpolate_normal (x_shading x) (plane_normal t, plane_normal t, plane_normal t)) = i_normal (x_shading x)).
    rewrite interpolate_constant by (apply normalized_unit; exact (hit_nondegenerate _ _ _ X5)). rewrite ON. reflexivity. }
  unfold scatter. unfold draw_n_ambient_samples, get_n_ambient_samples.
  assert (OR : (Nat.eqb (max_depth c) 0 || Nat.eqb (n_ambient_samples c) 0)%bool = true) by (destruct Hamb as [-> | ->]; [apply Bool.orb_true_r|reflexivity]).
  rewrite OR. cbn [orb]. set (N := if Nat.eqb (r_depth r2) 0 then n_shadow_samples c else 1%nat).
  assert (HN' : (0 < N <= fuel)%nat) by (unfold N; destruct (Nat.eqb (r_depth r2) 0); lia).
  unfold get_local_illumination. rewrite E2, E3, HL0, HL1. unfold sample_light_array, get_triad. rewrite RN.
  change (x_point (r_interaction r2)) with (x_point x). cbn [lights_loop obind].
  assert (EP : vadd (x_point x) (vscale (i_normal (x_shading x)) SHADOW_SHIFT) = plus (x_point x) (times (1/1000) (i_normal (x_shading x)))) by (rewrite vadd_plus, vscale_times; reflexivity).
  rewrite EP.
  assert (HSh' : forall ray d2 aux, exists clear aux', scene_unobstructed_distance fuel s ray d2 aux = Ret (clear, aux') /\
        (clear = false -> exists t d, In t (a_tri (sc_arrays s)) /\ touches ray t d /\ in_the_way ray d2 d)).
  { intros ray d2 a. destruct (HSh ray d2 a) as (cl & a' & H1 & _ & H2). eauto. }
  rewrite <- E1 in Hf, Hb.
  destruct (sun_samples s fuel d f b L rho ro m HSh' HF HPp HSo HA HD Hf Hb Hm r2 (plus (x_point x) (times (1/1000) (i_normal (x_shading x)))) (i_normal (x_shading x))
     (i_dpdu (x_shading (r_interaction r2))) (i_dpdv (x_shading (r_interaction r2))) N Un (proj1 HN') Hclear fuel 0%nat BLACK nd g ltac:(lia) ltac:(lia)) as (nd' & g' & k & Q1 & Q2).
  cbn [h_nodes]. rewrite Q1. cbn [obind lights_loop]. unfold get_global_illumination. cbn [Nat.eqb obind].
  eexists _, _, _, _, _, k. split; [reflexivity|]. rewrite Nat.sub_0_r.
  assert (HNp : 0 < INR N) by (apply lt_0_INR; lia). replace (k * INR N / INR N) with k by (field; lra). pose proof PI_RGT_0.
  split; [|split; [|split; [|apply Q2; lia]]].
  all: unfold sun_part, BLACK, sadd, smul, smulf, smap, smap2; cbn [sr sg sb]; rsimp; match goal with |- ?a = ?b => change (@eq R a b) end.
  all: repeat (match goal with
  | |- context [@sr NumR ?x] => let y := fresh "y" in generalize (@sr NumR x); intros y; change R in y
  | |- context [@sg NumR ?x] => let y := fresh "y" in generalize (@sg NumR x); intros y; change R in y
  | |- context [@sb NumR ?x] => let y := fresh "y" in generalize (@sb NumR x); intros y; change R in y end); field; lra.
Qed.

Print Assumptions C73_sunlight.

(** a floor under the sun at the zenith, seen from above *)
Definition zenith_sun : @DistantSource3D NumR := mkSource (N := NumR) (pt 0 0 1) (1/100 : R).
Definition sunny_floor : list (@op NumR) :=
  [AddMaterial (Plastic (gray (1/2 : R)) (0 : R) (0 : R)); AddMaterial (Light (gray (1000 : R))); AddObject 0 0 (PTriangle (plate 0)); AddObject 1 1 (PSource zenith_sun)].
Definition some_hit : @IntersectionInfo NumR := mkInfo (N := NumR) (pt 0 0 0) (pt 1 0 0) (pt 0 1 0) (pt 0 0 (-1)) Front (0 : R) (0 : R).
Definition geo_sun : @Geo NumR := {| is_parallel := fun _ _ => false; is_same_direction := fun _ _ => false; get_perpendicular := fun v => Some (perpendicular_of v);
  prim_intersect := fun _ _ => Some some_hit; triangle3d_area := fun _ => (1 : R) : @F NumR |}.
Lemma geo_sun_ok : sees_sources geo_sun /\ good_perpendiculars geo_sun.
Proof.
  split; [intros d ray _ _ _; exists some_hit; split; [reflexivity|discriminate]|].
  intros n U. exists (perpendicular_of n). split; [reflexivity|apply perpendicular_of_ok; exact U].
Qed.
Lemma sunny_plays : exists s0, play (E := ext_example) scene_new sunny_floor = Ret s0 /\ manageable s0 /\ length (a_tri (sc_arrays s0)) = 1%nat /\
  sc_materials s0 = [Plastic (gray (1/2 : R)) (0 : R) (0 : R); Light (gray (1000 : R))] /\ sc_lights s0 = [] /\ sc_distant_lights s0 = [mkObject (PSource zenith_sun) 1 1].
Proof.
  unfold sunny_floor. cbn [play step push_material fst obind]. unfold push_object. cbn. eexists. split; [reflexivity|].
  split; [split; [cbn; lia|apply uncrowded_few; cbn; lia]|]. repeat split.
Qed.
(** seen from one metre above, the floor returns 1/2 * 1000 * (solid angle of the sun) / pi, up to one percent, whatever is drawn *)
Example C73_hyp : forall (RG : Gen NumR) (c : @Tracer NumR) aux g, fair RG -> (0 < n_shadow_samples c)%nat -> n_ambient_samples c = 0%nat ->
  exists s li pdf r' aux' g' (k : R), made (E := ext_example) sunny_floor s /\
    trace_ray (E := ext_example) (R := RG) (O := geo_sun) 1 (2 + n_shadow_samples c) c s (set_ray3d ray_default (pt (1/4) (1/4) 1) (pt 0 0 (-1))) aux g = Ret (li, pdf, r', aux', g') /\
    sr li = 500 * (solid_angle zenith_sun * k) / PI /\ Rabs (k - 1) <= 1/100.
Proof.
  intros RG c aux g HF HN HA. destruct geo_sun_ok as [G1 G2]. destruct sunny_plays as (s0 & HP & HM & Hlen & H1 & H2 & H3).
  assert (HFl : flat_or_distant sunny_floor).
  { intros f b p H. repeat (destruct H as [H|H]; [try discriminate; injection H as <- <- <-; (left; eexists; reflexivity) || (right; eexists; reflexivity)|]). destruct H. }
  assert (HDn : ds_direction zenith_sun <> pt 0 0 0) by (intros Q; apply (f_equal (@vz NumR)) in Q; cbn in Q; lra).
  assert (HAn : 0 < @ds_angle NumR zenith_sun < PI) by (cbn [zenith_sun ds_angle]; pose proof PI2_3_2; lra).
  destruct (C73_sunlight ext_example RG geo_sun sunny_floor s0 zenith_sun 1 1 (@gray NumR (1000 : R)) ext_example_ok HF G2 G1 HP HM HFl H2 H3 HAn HDn) as (s & HMd & HS);
    [rewrite H1; reflexivity|rewrite H1; reflexivity|].
  pose proof HMd as (s0' & HP' & HB'). rewrite HP in HP'. injection HP' as <-.
  destruct (rebuilt (HE := ext_example_ok) _ s0 HP HM) as (s' & HB & E1 & _ & _ & _ & _ & Ha & Hrec & Hl & HQ). rewrite HB in HB'. injection HB' as ->.
  set (fuel := (2 + n_shadow_samples c)%nat). destruct (HQ fuel ltac:(unfold fuel; lia)) as [HFi _].
  set (r := set_ray3d _ _ _). assert (RG0 : r_geometry r = down (1/4) (1/4) 1) by reflexivity.
  assert (RT : forall t', In t' (a_tri (sc_arrays s)) -> t' = plate 0).
  { intros t' Hin. apply In_nth_error in Hin as [j Hj]. destruct (record_at (sc_arrays s) j t' Ha Hj) as (f & b & nn & _ & _ & _ & Hin).
    eapply Permutation_in in Hin; [|exact Hrec]. cbn in Hin. destruct Hin as [Q|[]]. injection Q as <- _ _ _. reflexivity. }
  assert (TIn : In (plate 0) (a_tri (sc_arrays s))).
  { destruct (a_tri (sc_arrays s)) as [|t0 l] eqn:ET; [rewrite Hlen in Hl; discriminate|]. rewrite (RT t0 (or_introl eq_refl)). left; reflexivity. }
  destruct C47_never_returns_hyp as (_ & Ud & HC & HI).
  destruct (HFi r (h_nodes aux)) as [(j & t & dd & x & nd & CR & X1 & X2 & X3 & X4 & X5 & X6 & _)|(nd & _ & Hno)].
  2:{ exfalso. apply (Hno (plate 0) 1 TIn). rewrite RG0. split; [exact HC|exact HI]. }
  assert (t = plate 0) by (apply RT; eapply nth_error_In; exact X1). subst t.
  destruct (record_at (sc_arrays s) j _ Ha X1) as (f & b & nn & RF & RB & _ & Hin). eapply Permutation_in in Hin; [|exact Hrec]. cbn in Hin. destruct Hin as [Q|[]]. injection Q as <- <- _. clear nn.
  destruct (hit_normal_oriented _ _ _ X5) as [ON NS]. destruct (C11_hit_normal _ _ _ X5) as (Un & Dn & O1 & O2 & _).
  assert (N1 : i_normal (x_shading x) = pt 0 0 1).
  { rewrite RG0 in Dn. clear - Un Dn O1 O2. destruct (i_normal (x_shading x)) as [p q w]. unfold unit, plate, down in *. vunf. cbn [ta tb tc vx vy vz direction] in *.
    assert (Qa : p = 0) by lra. assert (Qb : q = 0) by lra. subst. assert (0 < w) by lra. apply vec_ext; cbn [vx vy vz]; [reflexivity|reflexivity|nra]. }
  assert (AX : axis_of zenith_sun = pt 0 0 1) by (unfold axis_of, zenith_sun; cbn [ds_direction]; apply normalized_of_unit; unfold unit; vunf; ring).
  pose proof (half_cosine_range zenith_sun HAn) as HCR.
  assert (XP : x_point x = along (r_geometry r) dd) by (apply X6; rewrite RG0; exact Ud).
  destruct (HS c r aux g 1%nat fuel j (set_interaction r x) (@gray NumR (1/2 : R)) (0 : R)) as (li & pdf & r' & aux' & g' & k & T1 & T2 & _ & _ & T3).
  { rewrite Hlen. unfold fuel. lia. } { unfold fuel. lia. } { lia. } { exact Ud. } { cbn. lia. } { left; exact HA. }
  { exists (Z.of_nat j), (h_nodes aux), nd. split; [exact CR|rewrite Nat2Z.id; reflexivity]. }
  { left. exists 0%nat. rewrite E1, H1. split; [reflexivity|]. unfold side_hit. cbn [r_interaction set_interaction]. destruct (i_side (x_shading x)); [left|right|contradiction]; split; (reflexivity || assumption). }
  { intros dir t k Udir Hdir Hin HT. rewrite (RT t Hin) in HT. rewrite AX in Hdir. unfold point_of, normal_of in HT. cbn [r_interaction set_interaction] in HT. rewrite N1, XP in HT.
    destruct X2 as (_ & _ & u0 & v0 & X2 & _). rewrite X2 in HT. revert HT. apply (leaves_for_good (plate 0) (pt 0 0 1) u0 v0 (1/1000)); [unfold unit; vunf; ring|unfold plate; vunf; ring|unfold plate; vunf; ring|reflexivity| |lra].
    cbn [direction]. assert (0 < dot dir (pt 0 0 1)) by lra. lra. }
  exists s, li, pdf, r', aux', g', k. split; [exact HMd|]. split; [exact T1|]. split.
  - rewrite T2. cbn [gray sr]. rsimp. field. apply PI_neq0.
  - unfold normal_of in T3. cbn [r_interaction set_interaction] in T3. rewrite N1, AX in T3. replace (Rabs (dot (pt 0 0 1) (pt 0 0 1))) with 1 in T3 by (vunf; rewrite Rabs_pos_eq; lra).
    eapply Rle_trans; [exact T3|]. unfold half_cosine. cbn [zenith_sun ds_angle].
    assert (HB2 : 1 - 1/40000 <= cos (1/100/2)).
    { replace (1/100/2) with (2 * (1/400)) by field. rewrite cos_2a_sin. pose proof (sin_lt_x (1/400) ltac:(lra)) as LL. pose proof PI2_3_2. assert (GG : 0 <= sin (1/400)) by (apply sin_ge_0; lra). set (w := sin (1/400)) in *. clearbody w. nra. }
    set (z := cos (1/100/2)) in *. clearbody z. rewrite <- (sqrt_Rsqr (1/100)) by lra. apply sqrt_le_1_alt. unfold Rsqr. lra.
Qed.
