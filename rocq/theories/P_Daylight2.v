(** * C50, C51: examples and refutations for daylight coefficients (real arithmetic) *)
From Verif Require Import NumR Geometry Triangle Sphere Colour ColourMatrix SpecMatrix MatrixProofs Ray Bvh Material Scene Samplers Primitives RayTracer Daylight DaylightProofs DaylightReal DaylightLone
  TracerProofs TracerSafe TracerScenes TracerCorridor TracerLone SpecGeom SpecBvh SpecScene SceneProofs TriangleProofs BvhProofs BvhReal BvhQuery BvhExamples SpecOptics MaterialProofs
  P_Triangle P_Frame P_Bvh P_Material P_Tracer P_Samplers P_Daylight P_Glossy.
Open Scope R_scope.

(** ** the hypotheses of C50 can be met *)
Definition geo_perp : @Geo NumR := {| is_parallel := fun _ _ => false; is_same_direction := fun _ _ => false;
  get_perpendicular := fun v => Some (perpendicular_of v); prim_intersect := fun _ _ => None; triangle3d_area := fun _ => (1 : R) |}.
Lemma geo_perp_good : perpendicular_good geo_perp.
Proof. intros n U. exists (perpendicular_of n). split; [reflexivity|apply perpendicular_of_ok; exact U]. Qed.
(** two bins: up and down *)
Definition two_bins : @ReinhartSky NumR := mkReinhart (N := NumR) 2 (fun v => if Rlt_dec 0 (vz v) then 1%nat else 0%nat).
Lemma two_bins_ok : binned two_bins.
Proof. intros v _. cbn. destruct (Rlt_dec 0 (vz v)); lia. Qed.
(** a sensor above the floor, looking up *)
Definition sensor_up : RayR := mkRay3D (pt (1/4) (1/4) 1) (pt 0 0 1).
Definition sensor_down : RayR := mkRay3D (pt (1/4) (1/4) 1) (pt 0 0 (-1)).
Lemma up_unit : unit (pt 0 0 1). Proof. unfold unit. vunf. ring. Qed.
(** above both plates, looking up *)
Definition sensor_top : RayR := mkRay3D (pt (1/4) (1/4) (3/2)) (pt 0 0 1).
Example C50_open_hyp : externals_ok ext_example /\ fair (constant (1/2)) /\ perpendicular_good geo_perp /\ binned two_bins /\
  exists s0, play (E := ext_example) scene_new (corridor gray_wall) = Ret s0 /\ manageable s0 /\
  forall s, made (E := ext_example) (corridor gray_wall) s -> unit (direction sensor_top) /\ unobstructed s sensor_top.
Proof.
  split; [exact ext_example_ok|]. split; [apply fair_constant; lra|]. split; [exact geo_perp_good|]. split; [exact two_bins_ok|].
  destruct (corridor_plays (E := ext_example) gray_wall eq_refl) as (s0 & HP & HM & _ & _). exists s0. split; [exact HP|]. split; [exact HM|].
  intros s (s0' & HP' & HR). rewrite HP in HP'. injection HP' as <-. split; [exact up_unit|].
  destruct (rebuilt (E := ext_example) (HE := ext_example_ok) _ s0 HP HM) as (s' & HB & _ & _ & _ & _ & _ & Ha & Hp & _). rewrite HB in HR. injection HR as ->.
  intros v t k U Hv Hin HT _.
  assert (Q : exists z, z <= 1 /\ t = plate z).
  { rewrite <- (map_records_tri _ Ha) in Hin. apply in_map_iff in Hin as (rec & <- & Hin). apply (Permutation.Permutation_in _ Hp) in Hin.
    unfold corridor, objects_of, stored in Hin. cbn [flat_map app] in Hin. rewrite !plate_facets in Hin. cbn in Hin.
    destruct Hin as [<-|[<-|[]]]; [exists 0|exists 1]; (split; [lra|reflexivity]). }
  destruct Q as (z & Hz & ->). destruct HT as (_ & Hk & u & w & HB' & _). apply (f_equal (@vz NumR)) in HB'.
  destruct v as [x y q]. unfold along, bary, plate, sensor_top in *. vunf. cbn [origin direction ta tb tc vx vy vz] in *. nra.
Qed.
Example C50_closed_hyp : exists s0, play (E := ext_example) scene_new (corridor gray_wall) = Ret s0 /\ manageable s0 /\ all_triangles (corridor gray_wall) /\
  Forall physical (sc_materials s0) /\ perpendicular_ok (O := geo_perp) /\ forall g : @G NumR (constant (1/2)), fst (gen (Gen := constant (1/2)) g) < 1.
Proof.
  destruct (corridor_plays (E := ext_example) gray_wall eq_refl) as (s0 & HP & HM & _ & H1 & _). exists s0. split; [exact HP|]. split; [exact HM|].
  split. { intros f b p Hin. cbn in Hin. destruct Hin as [Q|[Q|[]]]; injection Q as <- <- <-; eauto. }
  split. { rewrite H1. constructor; [|constructor]. split; [repeat split; cbn; lra|reflexivity]. }
  split; [intros v _; discriminate|]. intros g. cbn. lra.
Qed.

(** ** C51 *)
Lemma total_plus {A} (f g : A -> R) l : total (map (fun j => f j + g j) l) = total (map f l) + total (map g l).
Proof. induction l as [|a l IH]; cbn [map total]; [lra|]. rewrite IH. lra. Qed.
Lemma total_zero {A} (l : list A) : total (map (fun _ => 0) l) = 0.
Proof. induction l as [|a l IH]; cbn [map total]; [reflexivity|]. rewrite IH. lra. Qed.
Lemma rows_total (ch : @Spectrum NumR -> R) n (rows : list (@Contribution NumR)) c : linear ch -> Forall (row_shaped n) rows -> add_all (mat_new BLACK 1 n) rows = Ret c ->
  row_shaped n c /\ row_total ch c 0 = total (map (fun r => row_total ch r 0) rows).
Proof.
  intros HC HR HA. destruct (add_all_entries n rows _ (row_new n) HR) as (c' & A1 & A2 & A3). rewrite HA in A1. injection A1 as <-. split; [exact A2|].
  assert (L0 : ch BLACK = 0) by (destruct HC as [-> | [-> | ->]]; cbn; lra).
  assert (L1 : forall a b, ch (sadd a b) = ch a + ch b) by (destruct HC as [-> | [-> | ->]]; reflexivity).
  assert (FL : forall ys a, ch (fold_left sadd ys a) = ch a + total (map ch ys)).
  { induction ys as [|y ys IH]; intros a; cbn [fold_left map total]; [lra|]. rewrite IH, L1. lra. }
  assert (EN : forall j, (j < n)%nat -> ch (entry c 0 j) = total (map (fun r => ch (entry r 0 j)) rows)).
  { intros j Hj. destruct (A3 j Hj) as (x & ys & B1 & B2 & B3). rewrite mat_new_get in B1 by exact Hj. injection B1 as <-. unfold entry at 1. rewrite B3, FL, L0, Rplus_0_l.
    clear - B2. revert ys B2. induction rows as [|r rows IH]; intros [|y ys] B; cbn in B; try discriminate; [reflexivity|]. injection B as B1 B2. cbn [map total]. unfold entry at 1.
    change (mat_get r 0 j = Some y) in B1. rewrite B1, (IH ys B2). reflexivity. }
  unfold row_total at 1. destruct A2 as (_ & _ & ->).
  replace (map (fun j => ch (entry c 0 j)) (seq 0 n)) with (map (fun j => total (map (fun r => ch (entry r 0 j)) rows)) (seq 0 n))
    by (apply map_ext_in; intros j Hj; apply in_seq in Hj; rewrite EN by lia; reflexivity).
  clear - HR. induction HR as [|r rows (_ & _ & Hc) Hrows IH]; cbn [map total]; [apply total_zero|]. rewrite total_plus, IH. unfold row_total at 2. rewrite Hc. reflexivity.
Qed.

(** the sampled directions of a sensor *)
Definition sampled {RG : Gen NumR} (e2 : VecR) (ray : RayR) (l : VecR) : RayR :=
  r_geometry (primary_ray (@vcross NumR e2 (direction ray)) e2 (direction ray) (origin ray) l).

(** One matte surface of reflectance rho under the sky, and a sensor all of whose sampled directions meet the surface.  Each of the
    n secondary rays of a bounce should bring rho / n of what the bounce carries, so the row should total pi * rho.  It totals
    pi * (rho + rho^2 + ... + rho^n): the k-th secondary ray carries the colour the (k-1)-th one left behind. *)
Theorem C51_compounded : forall (E : @Ext NumR) (RG : Gen NumR) (O : @Geo NumR) t colour rough sky m, externals_ok E -> fair RG -> perpendicular_good O ->
  m = Plastic colour (0 : R) rough \/ m = Metal colour (0 : R) rough ->
  exists s, made (lone t m sky) s /\ forall (d : @DCFactory NumR) (ray : RayR) seed seeds nest fuel,
    binned (dc_reinhart d) -> (0 < dc_max_depth d)%nat -> (0 < dc_n_ambient_samples d)%nat -> (1 < nest)%nat -> (2 <= fuel)%nat ->
    unit (direction ray) ->
    (forall e2 l, get_perpendicular (direction ray) = Some e2 -> In l (draw_directions (dc_n_ambient_samples d) (seed 0%nat)) ->
       exists k, crosses (sampled e2 ray l) t k /\ in_sight (sampled e2 ray l) k) ->
    exists mx, calc_dc nest fuel d [ray] s seed seeds = Ret mx /\
      row_total sr mx 0 = PI * powers (sr colour) (dc_n_ambient_samples d) /\
      row_total sg mx 0 = PI * powers (sg colour) (dc_n_ambient_samples d) /\
      row_total sb mx 0 = PI * powers (sb colour) (dc_n_ambient_samples d).
Proof.
  intros E RG O t colour rough sky m HE HF HPp Hmat.
  assert (HSc : TracerSafe.scatters m) by (destruct Hmat as [-> | ->]; [left|right]; do 3 eexists; reflexivity).
  destruct (lone_ready (HE := HE) t m sky HSc) as (s & HP & E1 & _ & _ & _ & A1 & A2 & A3 & A4 & HQ).
  exists s. split; [apply play_then; exact HP|]. intros d ray seed seeds nest fuel Hb Hd Hn Hnest Hfuel HU HX.
  destruct (HPp _ HU) as (e2 & GP & PT). pose proof (frame_of _ _ HU PT) as FR.
  set (dirs := draw_directions (dc_n_ambient_samples d) (seed 0%nat)) in *.
  assert (HL : length dirs = dc_n_ambient_samples d).
  { unfold dirs. clear. generalize (seed 0%nat). induction (dc_n_ambient_samples d) as [|n IH]; intros g; cbn [draw_directions]; [reflexivity|].
    destruct (gen g) as [a g1], (gen g1) as [b g2]. cbn [length]. rewrite IH. reflexivity. }
  assert (HUd : forall l, In l dirs -> unit (direction (sampled e2 ray l))).
  { unfold dirs. clear - HF FR. generalize (seed 0%nat). induction (dc_n_ambient_samples d) as [|n IH]; intros g l Hl; cbn [draw_directions] in Hl; [destruct Hl|].
    pose proof (HF g) as D1. destruct (gen g) as [x1 g1], (gen g1) as [x2 g2]. destruct Hl as [<-|Hl]; [|eapply IH; exact Hl].
    apply (C52_cosine_hemisphere x1 x2 _ _ _ D1 FR). }
  assert (HPr : forall l k, In l dirs -> exists c, dc_primary nest fuel d s (primary_ray (vcross e2 (direction ray)) e2 (direction ray) (origin ray) l) (seeds 0%nat k) = Ret c).
  { intros l k Hl. destruct (lone_primary HF t m colour rough s fuel d Hmat E1 A1 A2 A3 A4 (HQ fuel Hfuel) Hb Hd Hn sr (or_introl eq_refl) nest
      (primary_ray (vcross e2 (direction ray)) e2 (direction ray) (origin ray) l) (seeds 0%nat k) Hnest eq_refl (HUd l Hl) (HX e2 l GP Hl)) as (c & Q & _). eauto. }
  assert (HRows : exists rows, map_out (fun k l => dc_primary nest fuel d s (primary_ray (vcross e2 (direction ray)) e2 (direction ray) (origin ray) l) (seeds 0%nat k)) 0 dirs = Ret rows).
  { generalize 0%nat at 2. clear - HPr. induction dirs as [|l ls IH]; intros k; cbn [map_out]; [eauto|]. destruct (HPr l k (or_introl eq_refl)) as (c & ->). cbn [obind].
    destruct (IH (fun l k H => HPr l k (or_intror H)) (S k)) as (rows & ->). cbn [obind]. eauto. }
  destruct HRows as (rows & HRows). pose proof HRows as HRows'. apply map_out_ret in HRows' as [RL RR].
  assert (HT : forall ch, linear ch -> Forall (fun r => row_shaped (n_bins (dc_reinhart d)) r /\ row_total ch r 0 = PI * powers (ch colour) (dc_n_ambient_samples d) / INR (dc_n_ambient_samples d)) rows).
  { intros ch HC. apply Forall_forall. intros row Hin. apply In_nth_error in Hin as [k Hk]. destruct (nth_error_same_length rows dirs k row RL Hk) as [l Hl].
    pose proof (RR k l row Hl Hk) as HR. apply nth_error_In in Hl.
    destruct (lone_primary HF t m colour rough s fuel d Hmat E1 A1 A2 A3 A4 (HQ fuel Hfuel) Hb Hd Hn ch HC nest
      (primary_ray (vcross e2 (direction ray)) e2 (direction ray) (origin ray) l) (seeds 0%nat (0 + k)%nat) Hnest eq_refl (HUd l Hl) (HX e2 l GP Hl)) as (c & Q1 & Q2 & Q3).
    rewrite HR in Q1. injection Q1 as <-. split; [exact Q2|]. rewrite Q3. destruct HC as [-> | [-> | ->]]; reflexivity. }
  assert (HSh : Forall (row_shaped (n_bins (dc_reinhart d))) rows) by (eapply Forall_impl; [|apply (HT sr (or_introl eq_refl))]; intros r [H _]; exact H).
  destruct (add_all_entries _ rows _ (row_new _) HSh) as (c & HA & _).
  assert (HS : dc_sensor nest fuel d s ray (seed 0%nat) (seeds 0%nat) = Ret c).
  { unfold dc_sensor. cbv zeta. rewrite GP. cbn [ret_opt obind]. fold dirs. rewrite HRows. cbn [obind]. exact HA. }
  destruct (calc_dc_spec nest fuel d [ray] s seed seeds) as [K1 _]. destruct (K1 [c]) as (mx & G1 & _ & _ & G4 & G5).
  { cbn [map_out]. rewrite HS. reflexivity. }
  exists mx. split; [exact G1|].
  assert (HG : forall ch, linear ch -> row_total ch mx 0 = PI * powers (ch colour) (dc_n_ambient_samples d)).
  { intros ch HC. destruct (rows_total ch _ rows c HC HSh HA) as [(_ & _ & Hcc) HTot].
    replace (row_total ch mx 0) with (row_total ch c 0).
    2:{ unfold row_total. rewrite G4, Hcc. f_equal. apply map_ext_in. intros j Hj. apply in_seq in Hj. unfold entry. rewrite (G5 0%nat j c eq_refl) by lia. reflexivity. }
    rewrite HTot. pose proof (HT ch HC) as HT'. rewrite HL in RL. assert (HN : 0 < INR (dc_n_ambient_samples d)) by (apply lt_0_INR; exact Hn).
    assert (Z : total (map (fun r => row_total ch r 0) rows) = INR (length rows) * (PI * powers (ch colour) (dc_n_ambient_samples d) / INR (dc_n_ambient_samples d))).
    { clear - HT'. induction HT' as [|r rows [_ H] _ IH]; [cbn; ring|]. cbn [map total]. rewrite IH, H. cbn [length]. rewrite S_INR. ring. }
    rewrite Z, RL. field. lra. }
  split; [apply HG; left; reflexivity|]. split; apply HG; right; [left|right]; reflexivity.
Qed.
Print Assumptions C51_compounded.

(** A floor of reflectance 9/10 under the sky, a sensor above it looking down, all draws 0: with one sample the row totals 9/10 pi,
    with two samples 171/100 pi, more than the pi of a sensor that sees nothing but sky. *)
Definition bright_floor (sky : VecR -> R) : list (@op NumR) := lone (plate 0) (Plastic (gray (9/10 : R)) (0 : R) (0 : R)) sky.
Definition samples (n : nat) : @DCFactory NumR := mkDC (N := NumR) two_bins 1 n (1/10000 : R) (1/2 : R).
Lemma straight_down l e2 : In l (draw_directions (R := constant 0) 1 tt) \/ In l (draw_directions (R := constant 0) 2 tt) -> sampled (RG := constant 0) e2 sensor_down l = sensor_down.
Proof.
  intros H. assert (Q : l = pt 0 0 1).
  { assert (l = @sample_cosine_weighted_horizontal_hemisphere NumR TrigR 0 0) as -> by (cbn [draw_directions gen constant] in H; cbn [In] in H; intuition).
    destruct (cosine_hemisphere 0 0 ltac:(lra)) as (x & y & Q & S). rewrite Q. replace (1 - 0) with 1 by ring. rewrite sqrt_1. apply vec_ext; cbn [vx vy vz pt]; nra. }
  subst l. unfold sampled, primary_ray. unfold sensor_down. cbn [origin direction]. match goal with |- r_geometry (set_colour (set_ray3d _ ?o ?v) _) = _ => change (mkRay3D o v = mkRay3D (N := NumR) (pt (1/4) (1/4) 1) (pt 0 0 (-1))) end. f_equal.
  unfold local_to_world. destruct e2 as [a b c]. unfold vorigin. apply vec_ext; vunf; cbn [vx vy vz]; rsimp; field.
Qed.
Theorem C51_refuted : forall sky, exists s m1 m2, made (E := ext_example) (bright_floor sky) s /\
  calc_dc (E := ext_example) (R := constant 0) (O := geo_perp) 2 2 (samples 1) [sensor_down] s (fun _ => tt) (fun _ _ => tt) = Ret m1 /\
  calc_dc (E := ext_example) (R := constant 0) (O := geo_perp) 2 2 (samples 2) [sensor_down] s (fun _ => tt) (fun _ _ => tt) = Ret m2 /\
  row_total sr m1 0 = 9/10 * PI /\ row_total sr m2 0 = 171/100 * PI.
Proof.
  intros sky. assert (HF : fair (constant 0)) by (apply fair_constant; lra).
  destruct (C51_compounded ext_example (constant 0) geo_perp (plate 0) (@gray NumR (9/10 : R)) (0 : R) sky _ ext_example_ok HF geo_perp_good (or_introl eq_refl)) as (s & HM & HC).
  assert (UD : unit (direction sensor_down)) by (unfold unit, sensor_down; vunf; ring).
  assert (HX : exists k, crosses sensor_down (plate 0) k /\ in_sight sensor_down k).
  { exists 1. split.
    - split; [exists (1/4), (1/4); unfold sensor_down, plate; split; [lra|]; split; [lra|]; split; [lra|]; apply vec_ext; vunf; field|]. split; [|lra].
      unfold volume, sensor_down, plate. vunf. match goal with |- _ <= Rabs ?x => replace x with 1 by field end. rewrite Rabs_pos_eq; lra.
    - unfold in_sight, reach2, sensor_down. split; [vunf; lra|]. eapply Rle_lt_trans; [|apply big_float_max]. vunf. lra. }
  destruct (HC (samples 1) sensor_down (fun _ => tt) (fun _ _ => tt) 2%nat 2%nat two_bins_ok ltac:(cbn; lia) ltac:(cbn; lia) ltac:(lia) ltac:(lia) UD) as (m1 & Q1 & T1 & _).
  { intros e2 l _ Hl. rewrite straight_down by (left; exact Hl). exact HX. }
  destruct (HC (samples 2) sensor_down (fun _ => tt) (fun _ _ => tt) 2%nat 2%nat two_bins_ok ltac:(cbn; lia) ltac:(cbn; lia) ltac:(lia) ltac:(lia) UD) as (m2 & Q2 & T2 & _).
  { intros e2 l _ Hl. rewrite straight_down by (right; exact Hl). exact HX. }
  exists s, m1, m2. split; [exact HM|]. split; [exact Q1|]. split; [exact Q2|]. cbn [samples dc_n_ambient_samples powers gray sr] in T1, T2. split; [rewrite T1|rewrite T2]; field.
Qed.
Print Assumptions C51_refuted.

(** ** C50: a glossy floor gives NEGATIVE coefficients *)
(** two kinds of draws *)
Definition two_valued : Gen NumR := {| G := bool; gen := fun g => ((if g then 0 else 1/2 : R) : @F NumR, g) |}.
Definition glossy : @Material NumR := Plastic (gray (1/2 : R)) (3/4 : R) (1/2 : R).
Definition slant_sensor : RayR := mkRay3D (pt (1/4) (1/4) (1/4)) slope.
Definition one_bin : @ReinhartSky NumR := mkReinhart (N := NumR) 1 (fun _ => 0%nat).
Theorem C50_negative_refuted : forall sky, exists s m v, made (E := ext_example) (lone (plate 0) glossy sky) s /\
  calc_dc (E := ext_example) (R := two_valued) (O := geo_perp) 2 2 (mkDC (N := NumR) one_bin 1 1 (1/10000 : R) (1/2 : R)) [slant_sensor] s (fun _ => true) (fun _ _ => false) = Ret m /\
  mat_get m 0 0 = Some v /\ sr v < 0 /\ sg v < 0 /\ sb v < 0.
Proof.
  intros sky. set (d := mkDC _ _ _ _ _).
  assert (HSc : TracerSafe.scatters glossy) by (left; do 3 eexists; reflexivity).
  destruct (lone_ready (E := ext_example) (HE := ext_example_ok) (plate 0) glossy sky HSc) as (s & HP & E1 & _ & _ & _ & A1 & A2 & A3 & A4 & HQ).
  pose proof slope_unit as HU.
  set (r := primary_ray (vcross (perpendicular_of slope) slope) (perpendicular_of slope) slope (pt (1/4) (1/4) (1/4)) (@sample_cosine_weighted_horizontal_hemisphere NumR TrigR 0 0)).
  assert (RG : r_geometry r = slant_sensor).
  { assert (l0 : @sample_cosine_weighted_horizontal_hemisphere NumR TrigR 0 0 = pt 0 0 1).
    { destruct (cosine_hemisphere 0 0 ltac:(lra)) as (x & y & Q & S). rewrite Q. replace (1 - 0) with 1 by ring. rewrite sqrt_1. apply vec_ext; cbn [vx vy vz pt]; nra. }
    unfold r, primary_ray. rewrite l0. match goal with |- r_geometry (set_colour (set_ray3d _ ?o ?v) _) = _ => change (mkRay3D o v = slant_sensor) end. unfold slant_sensor. f_equal.
    unfold local_to_world. generalize (perpendicular_of slope) as e2. intros [a b c]. unfold vorigin, slope. apply vec_ext; vunf; cbn [vx vy vz]; rsimp; field. }
  assert (PR : exists c v, dc_primary (E := ext_example) (R := two_valued) 2 2 d s r false = Ret c /\ row_shaped 1 c /\ mat_get c 0 0 = Some v /\ all_channels (fun x => x < 0) v).
  { unfold dc_primary. cbn [dc_trace].
    destruct (HQ 2%nat (le_n _) r (h_nodes helper_default)) as [(j & t' & d' & x & nd & CR & X1 & X2 & X3 & X4 & X5 & X6 & _)|(nd & _ & Hno)].
    2:{ exfalso. apply (Hno (plate 0) (5/16)); [rewrite A1; left; reflexivity|]. rewrite RG. unfold slant_sensor, slope. split.
      - split; [exists (7/16), (1/4); unfold plate; split; [lra|]; split; [lra|]; split; [lra|]; apply vec_ext; vunf; field|]. split; [|lra].
        unfold volume, plate. vunf. match goal with |- _ <= Rabs ?x => replace x with (4/5) by field end. rewrite Rabs_pos_eq; lra.
      - unfold in_sight, reach2. split; [vunf; lra|]. eapply Rle_lt_trans; [|apply big_float_max]. vunf. lra. }
    rewrite A1 in X1. destruct j as [|j]; [|destruct j; discriminate]. injection X1 as <-.
    rewrite CR. cbn [obind]. cbv zeta. rewrite Nat2Z.id. change (r_depth (set_interaction r x)) with 0%nat. cbn [d dc_max_depth Nat.ltb Nat.leb].
    destruct (hit_normal_oriented _ _ _ X5) as [ON NS]. pose proof (hit_nondegenerate _ _ _ X5) as ND.
    assert (HMt : hit_material s (set_interaction r x) 0 = Ret (Some glossy)).
    { unfold hit_material. cbn [r_interaction set_interaction]. rewrite A2, A3, E1. cbn [nth_error ret_opt obind]. destruct (i_side (x_shading x)); [reflexivity|reflexivity|contradiction]. }
    rewrite HMt. cbn [obind orb emits_direct_light specular_only glossy]. unfold get_triad at 1. rewrite A4. cbn [nth_error ret_opt obind]. change (r_interaction (set_interaction r x)) with x.
    set (r2 := set_shading _ _).
    assert (RN : i_normal (x_shading (r_interaction r2)) = i_normal (x_shading x)).
    { change (i_normal (interpolate_normal (x_shading x) (plane_normal (plate 0), plane_normal (plate 0), plane_normal (plate 0))) = i_normal (x_shading x)).
      rewrite interpolate_constant by (apply normalized_unit; exact ND). rewrite ON. reflexivity. }
    unfold draw_n_ambient_samples, get_n_ambient_samples. change (r_depth r2) with 0%nat. cbn [dc_tracer max_depth n_ambient_samples dc_max_depth dc_n_ambient_samples d Nat.eqb orb].
    unfold store_ray. change (r_depth r2) with 0%nat. cbn [h_rays helper_default].
    match goal with |- context [Nat.ltb 0 ?l] => replace (Nat.ltb 0 l) with true by reflexivity end. cbn [obind]. unfold get_triad. rewrite RN.
    change (i_dpdu (x_shading (r_interaction r2))) with (i_dpdu (x_shading x)). change (i_dpdv (x_shading (r_interaction r2))) with (i_dpdv (x_shading x)).
    rewrite (X6 ltac:(rewrite RG; exact HU)). rewrite RG in *.
    destruct (C11_hit_frame _ _ _ X5) as [FR (k0 & Hk0 & HU1)]. destruct (C11_hit_normal _ _ _ X5) as (Un & Dn & O1 & O2 & _).
    assert (N1 : i_normal (x_shading x) = pt 0 0 1).
    { clear - Un Dn O1 O2. destruct (i_normal (x_shading x)) as [a b c]. unfold unit, plate, slant_sensor, slope in *. vunf. cbn [ta tb tc vx vy vz direction] in *.
      assert (Qa : a = 0) by lra. assert (Qb : b = 0) by lra. subst. assert (0 < c) by lra. apply vec_ext; cbn [vx vy vz]; [reflexivity|reflexivity|nra]. }
    assert (N2 : i_dpdu (x_shading x) = pt 1 0 0).
    { destruct FR as (Ue1 & _). rewrite HU1 in Ue1 |- *. clear - Ue1 Hk0. unfold unit, plate in *. vunf. cbn [ta tb tc vx vy vz] in *. assert (k0 = 1) by nra. subst k0. apply vec_ext; cbn; ring. }
    set (e2 := i_dpdv (x_shading x)) in *. rewrite N1, N2 in *. 
    (* the bounce *)
    destruct (C26_negative_weight_refuted (3/4) (1/2) (pt 0 0 1) (pt 1 0 0) e2 (along slant_sensor d') r2 (1/2) (0, 0) (1/2) (1/2) [] FR) as (direct & diffuse & weight & r3 & SW & W1 & W2 & W3 & W4 & W5 & W6);
      [lra|lra|lra|change (unit (direction (r_geometry r))); rewrite RG; exact HU|change (dot (direction (r_geometry r)) (pt 0 0 1) < 0); rewrite RG; unfold slant_sensor, slope; vunf; lra
      |change (dir_of r2) with (direction (r_geometry r)); rewrite RG; apply slope_tilt; reflexivity|].
    assert (SD : sample_ward_draw (R := two_valued) 2 (pt 0 0 1) (pt 1 0 0) e2 (along slant_sensor d') (3/4 : R) (1/2 : R) (1/2 : R) r2 false = Ret (direct, diffuse, weight, r3, false)).
    { unfold sample_ward_draw. cbn [gen two_valued]. unfold sample_ward in SW. cbv zeta in SW. cbn [wd_prob wd_pairs] in SW.
      rewrite (Rltb_is_true (1/2) (3/4) ltac:(lra) : @fltb NumR (1/2) (3/4) = true) in SW |- *. cbn [ward_draw gen two_valued].
      match type of SW with ?L = _ => match goal with |- context [match ?X with Ret _ => _ | Crash => _ | Stuck => _ end] => change X with L end end. rewrite SW. reflexivity. }
    assert (KC : r_colour r3 = gray PI).
    { assert (SB : sample_bsdf_draw (R := two_valued) 2 glossy (pt 0 0 1) (pt 1 0 0) e2 (along slant_sensor d') r2 false = Ret (plastic_bsdf (gray (1/2 : R)) direct diffuse, weight, r3, false)) by (cbn [sample_bsdf_draw glossy]; rewrite SD; reflexivity).
      destruct (sample_bsdf_keeps _ _ _ _ _ _ _ _ _ _ _ _ SB) as (_ & _ & _ & _ & K3 & _). rewrite K3. reflexivity. }
    cbn [dc_ambient glossy sample_bsdf_draw]. rewrite SD. cbn [obind]. cbv zeta. set (r4 := set_depth _ _).
    match goal with |- context [cast_ray 2 s r4 ?a] => destruct (HQ 2%nat (le_n _) r4 a) as [(j & t' & dd & x' & nd' & _ & Y1 & Y2 & Y3 & _)|(nd' & CR' & _)] end.
    { exfalso. rewrite A1 in Y1. destruct j as [|j]; [|destruct j; discriminate]. injection Y1 as <-.
      change (r_geometry r4) with (r_geometry r3) in Y2, Y3. unfold start_of, dir_of in *.
      destruct Y2 as (_ & Hdd & u & w & HB & _). apply (f_equal (@vz NumR)) in HB. destruct Y3 as [Y3 _].
      destruct X2 as (_ & _ & u0 & w0 & X2 & _). rewrite X2 in W6. unfold reach2 in Y3.
      change (direction (r_geometry r2)) with (direction (r_geometry r)) in W5. rewrite RG in W5.
      destruct (r_geometry r3) as [o v]. cbn [origin direction] in *. subst o. unfold along, plate, slant_sensor, slope, unit in *. cbn [origin direction] in *.
      destruct v as [a b c]. change R in a. change R in b. change R in c. vunf. cbn [ta tb tc vx vy vz] in *. 
      clear - W4 W5 HB Y3 Hdd. 
      assert (HC : c < -4/5) by lra. assert (HE : dd * c = - (1/100000)) by lra. assert (Hd2 : dd < 1/10000) by nra.
      match type of Y3 with _ < ?e => replace e with (dd * dd * (a * a + b * b + c * c)) in Y3 by ring end. rewrite W4 in Y3. nra. }
    rewrite CR'. cbn [obind]. cbv zeta. unfold reach_sky. cbv zeta. cbn [d dc_reinhart one_bin dir_to_bin n_bins dc_n_ambient_samples].
    change (mat_get (mat_new (@BLACK NumR) 1 1) 0 0) with (Some (@BLACK NumR)). cbn [ret_opt obind].
    match goal with |- context [mat_set ?m 0 0 ?v] => destruct (mat_set_some m 0 0 v (mat_new_sized _ _ _) ltac:(cbn; lia) ltac:(cbn; lia)) as (m' & MS & M1 & M2 & M3 & M4) end.
    rewrite MS. cbn [ret_opt obind]. exists m'. eexists. split; [reflexivity|]. split; [split; [exact M1|split; [exact M2|exact M3]]|].
    split; [rewrite M4 by (cbn; lia); reflexivity|]. cbn [r4 r_colour set_depth set_colour]. rewrite KC.
    change (@fabs NumR (vdot (pt 0 0 1) (direction (r_geometry r3)))) with (Rabs (dot (pt 0 0 1) (dir_of r3))).
    assert (HA : 0 < Rabs (dot (pt 0 0 1) (dir_of r3))).
    { apply Rabs_pos_lt. rewrite dot_comm. change (dir_of r2) with (direction (r_geometry r)) in W5. rewrite RG in W5. unfold slant_sensor, slope in W5. 
      assert (dot (direction (mkRay3D (N := NumR) (pt (1/4) (1/4) (1/4)) (pt (3/5) 0 (-4/5)))) (pt 0 0 1) < 0) by (vunf; lra). lra. }
    set (q := Rabs _) in *. clearbody q. pose proof PI_RGT_0 as HPI. clear - W1 W2 W3 HA HPI.
    assert (Hw : / weight < 0) by (apply Rinv_lt_0_compat; exact W3).
    assert (Q : forall c : R, 0 <= c -> 0/1 + 1/1 * (PI * ((direct + c * diffuse) * q / weight)) / 1 < 0).
    { intros c Hc. replace (0/1 + 1/1 * (PI * ((direct + c * diffuse) * q / weight)) / 1) with ((PI * ((direct + c * diffuse) * q)) * / weight) by (unfold Rdiv; rewrite Rinv_1; ring).
      assert (0 < PI * ((direct + c * diffuse) * q)). { apply Rmult_lt_0_compat; [exact HPI|]. apply Rmult_lt_0_compat; [|exact HA]. assert (0 <= c * diffuse) by (apply Rmult_le_pos; assumption). lra. }
      nra. }
    specialize (Q (1/2) ltac:(lra)). split; [exact Q|]. split; exact Q. }
  destruct PR as (c & v & P1 & P2 & P3 & P4).
  assert (SE : exists c', dc_sensor (E := ext_example) (R := two_valued) (O := geo_perp) 2 2 d s slant_sensor true (fun _ => false) = Ret c' /\ mat_get c' 0 0 = Some (sadd BLACK v)).
  { unfold dc_sensor. cbn [get_perpendicular geo_perp ret_opt obind]. cbv zeta. cbn [d dc_n_ambient_samples draw_directions gen two_valued map_out].
    fold d. change (direction slant_sensor) with slope. change (origin slant_sensor) with (pt (1/4) (1/4) (1/4)). fold r. rewrite P1. cbn [obind].
    destruct (add_all_entries 1 [c] _ (row_new 1) ltac:(constructor; [exact P2|constructor])) as (c' & B1 & _ & B3). exists c'. split; [exact B1|].
    destruct (B3 0%nat ltac:(lia)) as (x & ys & Q1 & Q2 & Q3). rewrite mat_new_get in Q1 by lia. injection Q1 as <-. cbn [map] in Q2. change (mat_get c 0 0) with (mat_get c 0 0) in Q2. rewrite P3 in Q2.
    destruct ys as [|y [|]]; try discriminate Q2. injection Q2 as <-. exact Q3. }
  destruct SE as (c' & S1 & S2). destruct (calc_dc_spec (E := ext_example) (RG := two_valued) (O := geo_perp) 2 2 d [slant_sensor] s (fun _ => true) (fun _ _ => false)) as [K1 _].
  destruct (K1 [c']) as (mx & G1 & _ & _ & _ & G5). { cbn [map_out]. rewrite S1. reflexivity. }
  exists s, mx, (sadd BLACK v). split; [apply play_then; exact HP|]. split; [exact G1|]. split; [rewrite (G5 0%nat 0%nat c' eq_refl) by (cbn; lia); exact S2|].
  destruct P4 as (V1 & V2 & V3). unfold sadd, smap2, BLACK. cbn [sr sg sb gray]. change (@fadd NumR) with Rplus. change (@f0 NumR) with (0/1). repeat split; lra.
Qed.
Print Assumptions C50_negative_refuted.

(* the hypothesis of C69_matrix: a sensor that looks down at a bright floor; its ray meets the floor and bounces up to the sky *)
Example C69_hyp : forall sky, exists s m, made (E := ext_example) (bright_floor sky) s /\
  calc_dc (E := ext_example) (R := constant 0) (O := geo_perp) 2 2 (samples 2) [sensor_down] s (fun _ => tt) (fun _ _ => tt) = Ret m /\
  row_total sr m 0 = 171/100 * PI.
Proof. intros sky. destruct (C51_refuted sky) as (s & _ & m & H1 & _ & H2 & _ & H3). exists s, m. auto. Qed.
