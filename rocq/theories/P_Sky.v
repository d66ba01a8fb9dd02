(** * Property C53: adding a Perez sky *)
From Verif Require Import NumR Geometry Colour Material Scene SpecScene Perez SpecGeom SpecColour TriangleProofs ColourProofs TrigBounds.
Open Scope R_scope.

(** ** specification *)
(** the sun: a distant light of both materials [i], of the given direction and angle *)
Definition sun {N : Num} (i : nat) (position : Vec) (angle : F) : nat * nat * Primitive := (i, i, PSource (mkSource position angle)).
(** an angle limited to between 3 and 90 degrees *)
Definition limited (x : R) : R := Rmax (3 * PI / 180) (Rmin (PI / 2) x).

(* For every scene, place, date and irradiances: the call returns; it sets the sky, and adds the sun if it is up -- one Light material
   and one distant source -- and nothing else.  It is a short history of the operations of C07-C10. *)
Theorem C53_contents : forall (N : Num) (T : Trig N) (E : Ext) (L : Solar) (s : Scene) (date : Date L) latitude longitude meridian diffuse direct,
  let place := (to_radians latitude, to_radians longitude, to_radians meridian) in
  let sky := get_sky_func_standard_time L place date (fofZ 11) diffuse direct in
  let i := length (sc_materials s) in
  exists s' brightness, add_perez_sky L s date latitude longitude meridian diffuse direct = Ret s' /\
    play s (SetSky (Some sky) :: match sun_position L place date with
                                 | None => []
                                 | Some p => [AddMaterial (Light (gray brightness)); AddObject i i (PSource (mkSource p sun_angle))] end) = Ret s' /\
    sc_sky s' = Some sky /\ sc_arrays s' = sc_arrays s /\ sc_lights s' = sc_lights s /\ sc_accelerator s' = sc_accelerator s /\ sc_sky_colour s' = sc_sky_colour s /\
    match sun_position L place date with
    | None => sc_materials s' = sc_materials s /\ sc_distant_lights s' = sc_distant_lights s
    | Some p => sc_materials s' = sc_materials s ++ [Light (gray brightness)] /\ sc_distant_lights s' = sc_distant_lights s ++ [as_object (sun i p sun_angle)] /\
        brightness = fdiv (fdiv (sun_dir_illum L place date diffuse direct p) sun_omega) WHITE_EFFICACY
    end.
Proof.
  intros N T E L s date lat lon mer diffuse direct place sky i. unfold add_perez_sky. fold place. fold sky.
  destruct (sun_position L place date) as [p|].
  - set (b := fdiv (fdiv (sun_dir_illum L place date diffuse direct p) sun_omega) WHITE_EFFICACY).
    cbv zeta. unfold push_material. cbn [sc_materials set_sky set_materials]. rewrite app_length. cbn [length]. replace (length (sc_materials s) + 1 - 1)%nat with i by (unfold i; lia).
    cbn [play step obind push_material fst]. unfold push_object. cbn [sc_materials set_sky set_materials].
    assert (Q : nth_error (sc_materials s ++ [Light (gray b)]) i = Some (Light (gray b))) by (rewrite nth_error_app2 by (unfold i; lia); unfold i; rewrite Nat.sub_diag; reflexivity).
    rewrite Q. unfold register_light. cbn [emits_direct_light orb id_is_source prim_id mesh_primitive obind length repeat].
    eexists _, b. split; [reflexivity|]. cbn [fst]. split.
    { cbn [sc_materials set_sky set_materials]. rewrite Q. reflexivity. }
    cbn [sc_sky sc_arrays sc_lights sc_accelerator sc_sky_colour sc_materials sc_distant_lights set_arrays set_distant_lights set_materials set_sky].
    rewrite !app_nil_r. destruct (sc_arrays s) as [a1 a2 a3 a4]. cbn [a_tri a_front a_back a_norm]. repeat split; reflexivity.
  - exists (set_sky s (Some sky)), f0. repeat split; reflexivity.
Qed.
Print Assumptions C53_contents.

(* the sun's luminance, times the solid angle pi tan^2 (0.533 degrees / 2) of its disc, is the direct normal illuminance *)
Theorem C53_radiance : forall (L : @Solar NumR) place date (diffuse direct : R) (p : VecR) (brightness : R),
  brightness = @sun_dir_illum NumR TrigR L place date diffuse direct p / @sun_omega NumR TrigR / @WHITE_EFFICACY NumR ->
  @luminance NumR (gray (N := NumR) brightness) * (PI * (tan (533 / 1000 * (PI / 180) / 2)) ^ 2) = @sun_dir_illum NumR TrigR L place date diffuse direct p.
Proof.
  intros L place date diffuse direct p b Hb. set (I := sun_dir_illum L place date diffuse direct p) in *. clearbody I. change R in I.
  assert (O : @sun_omega NumR TrigR = PI * tan (533 / 1000 * (PI / 180) / 2) ^ 2).
  { unfold sun_omega, sun_angle, to_radians. rsimp. replace (533 / 1000 * (PI / 180) / (2 / 1)) with (533 / 1000 * (PI / 180) / 2) by field. ring. }
  rewrite <- O. pose proof PI_bounds as [P1 P2].
  assert (Op : 0 < @sun_omega NumR TrigR).
  { rewrite O. apply Rmult_lt_0_compat; [lra|]. assert (0 < tan (533 / 1000 * (PI / 180) / 2)) by (apply tan_gt_0; lra). nra. }
  set (w := @sun_omega NumR TrigR) in *. clearbody w. change R in w. unfold luminance, radiance, gray, WHITE_EFFICACY in *. cbn [sr sg sb] in *. rsimp. subst b. field. lra.
Qed.
Print Assumptions C53_radiance.

(* The zenith angle handed to the Perez model is the sun's, limited to 90 degrees, for every sun further than 3 degrees from
   the zenith ... *)
Lemma acos_order (x y : R) : -1 <= x <= 1 -> -1 <= y <= 1 -> x < y -> acos y < acos x.
Proof. intros Hx Hy H. pose proof (acos_bound x). pose proof (acos_bound y). apply cos_decreasing_0; try lra. rewrite !cos_acos by lra. exact H. Qed.
Theorem C53_zenith_partial : forall z : R, -1 <= z < 9986295347545738 / 10000000000000000 ->
  @sun_zenith NumR TrigR z = Rmin (PI / 2) (acos z) /\ Rabs (9986295347545738 / 10000000000000000 - cos (3 * PI / 180)) < 1 / 100000000.
Proof.
  intros z Hz. split; [|exact cos_three_degrees]. pose proof PI_RGT_0 as HP. pose proof (acos_bound z) as B. unfold sun_zenith. rsimp. rcase.
  - assert (A : PI / 2 <= acos z).
    { rewrite <- acos_0. destruct (Req_dec z 0) as [->|]; [lra|]. left. apply acos_order; lra. }
    replace (2 / 1) with 2 by field. rewrite Rmin_left by exact A. reflexivity.
  - rewrite (proj2 (Rleb_false _ _)) by lra.
    assert (A : acos z < PI / 2). { rewrite <- acos_0. apply acos_order; lra. }
    rewrite Rmin_right by lra. reflexivity.
Qed.
Print Assumptions C53_zenith_partial.

(* ... but a sun nearer to the zenith is treated as if it stood more than 86 degrees away from it: the limit computed is the arc
   cosine of 3 degrees, not 3 degrees *)
Theorem C53_zenith_refuted : forall z : R, 9986295347545738 / 10000000000000000 <= z <= 1 ->
  @sun_zenith NumR TrigR z = acos (3 * PI / 180) /\ 86 * PI / 180 < @sun_zenith NumR TrigR z /\ @sun_zenith NumR TrigR z <> limited (acos z).
Proof.
  intros z Hz. pose proof PI_bounds as [P1 P2].
  assert (Q : @sun_zenith NumR TrigR z = acos (3 * PI / 180)).
  { unfold sun_zenith. rsimp. rewrite (proj2 (Rleb_false _ _)) by lra. rewrite (proj2 (Rleb_true _ _)) by lra. reflexivity. }
  rewrite Q. split; [reflexivity|].
  assert (A : 86 * PI / 180 < acos (3 * PI / 180)).
  { pose proof (acos_bound (3 * PI / 180)). apply cos_decreasing_0; try lra. rewrite cos_acos by lra. pose proof cos_86_degrees. lra. }
  split; [exact A|]. intros E. rewrite E in A. clear Q E. unfold limited in A.
  assert (B : acos z < PI / 4).
  { pose proof (acos_bound z). apply cos_decreasing_0; try lra. rewrite cos_acos by lra.
    pose proof (cos_both (PI / 4) ltac:(lra)) as [_ U]. set (y := PI / 4) in *. assert (78 / 100 < y < 79 / 100) by (unfold y; lra). clearbody y.
    replace (y ^ 4) with ((y ^ 2) * (y ^ 2)) in U by ring. assert (60 / 100 < y ^ 2 < 63 / 100) by nra. set (s := y ^ 2) in *. clearbody s. nra. }
  revert A. apply Rle_not_lt. apply Rmax_lub; [lra|]. eapply Rle_trans; [apply Rmin_r|]. lra.
Qed.
Print Assumptions C53_zenith_refuted.
(* a sun at the zenith, one at 45 degrees and one below the horizon meet the hypotheses *)
Example C53_hyp : (9986295347545738 / 10000000000000000 <= 1 <= 1) /\ (-1 <= 7 / 10 < 9986295347545738 / 10000000000000000) /\ (-1 <= -1 / 2 < 9986295347545738 / 10000000000000000).
Proof. lra. Qed.

(** ** the whole way from the irradiances to the scene
    Perez' direct normal illuminance: the luminous efficacy of the crate `solar`, for a dew point of 11 degrees, at the sun's zenith
    angle, with the sky's brightness kept in [0.01, 9e9] and its clearness in [-9e9, 11.9], times the direct normal irradiance *)
Definition perez_illuminance (L : @Solar NumR) (place : Place) (date : Date L) (diffuse direct zenith : R) : R :=
  let brightness : R := sky_brightness L diffuse (air_mass L zenith) (normal_extraterrestrial_radiation L place date) in
  let clearness : R := sky_clearness L diffuse direct zenith in
  direct * direct_illuminance_ratio L (precipitable_water_content L (11 : R)) zenith (Rmax (1 / 100) (Rmin 9000000000 brightness))
             (clearness_category L (Rmax (- 9000000000) (Rmin (119 / 10) clearness))).

Lemma clamp_minmax (x lo hi : R) : lo <= hi -> @fclamp NumR x lo hi = Rmax lo (Rmin hi x).
Proof.
  intros H. unfold fclamp. cbn [fltb NumR]. unfold Rmax, Rmin.
  destruct (Rltb_spec x lo), (Rltb_spec hi x), (Rle_dec hi x); try lra; match goal with |- context [Rle_dec ?a ?b] => destruct (Rle_dec a b) end; match goal with |- ?a = ?b => change (@eq R a b) end; lra.
Qed.

(** The sun of a scene with a Perez sky: its luminance times the solid angle of its disc is Perez' illuminance (unless the sun stands
    within three degrees of the zenith, see C53_zenith_refuted), it stands where the sun is and is 0.533 degrees wide; a scene at
    night gets no sun. *)
Theorem C53_sun : forall (E : @Ext NumR) (L : @Solar NumR) (s : @Scene NumR) (date : Date L) (latitude longitude meridian diffuse direct : R),
  let degrees (x : R) : R := x * PI / 180 in
  let place : @Place NumR := (degrees latitude, degrees longitude, degrees meridian) in
  exists s', add_perez_sky L s date latitude longitude meridian diffuse direct = Ret s' /\
    sc_sky s' = Some (get_sky_func_standard_time L place date (11 : R) diffuse direct) /\
    match sun_position L place date with
    | None => sc_materials s' = sc_materials s /\ sc_distant_lights s' = sc_distant_lights s
    | Some p => exists b : R, sc_materials s' = sc_materials s ++ [Light (@gray NumR b)] /\
        sc_distant_lights s' = sc_distant_lights s ++ [mkObject (PSource (mkSource (N := NumR) p (degrees (533 / 1000)))) (length (sc_materials s)) (length (sc_materials s))] /\
        (-1 <= vz p < 9986295347545738 / 10000000000000000 ->
           @luminance NumR (gray (N := NumR) b) * (PI * (tan (degrees (533 / 1000) / 2)) ^ 2) = perez_illuminance L place date diffuse direct (Rmin (PI / 2) (acos (vz p))))
    end.
Proof.
  intros E L s date lat lon mer diffuse direct degrees place.
  assert (DR : forall x : R, @to_radians NumR TrigR x = degrees x) by (intros x; unfold to_radians, degrees; rsimp; field).
  assert (E11 : @fofZ NumR 11 = (11 : R)) by reflexivity.
  destruct (C53_contents NumR TrigR E L s date lat lon mer diffuse direct) as (s' & b & H1 & _ & H2 & _ & _ & _ & _ & H3). cbv zeta in *.
  rewrite !DR in *. change (degrees lat, degrees lon, degrees mer) with place in H2, H3. exists s'. split; [exact H1|]. split; [exact H2|].
  destruct (sun_position L place date) as [p|]; [|exact H3]. destruct H3 as (M1 & M2 & M3). exists b. split; [exact M1|]. split.
  - rewrite M2. unfold sun, as_object, sun_angle. rewrite DR. reflexivity.
  - intros Hz. pose proof (C53_radiance L place date diffuse direct p b M3) as R1. unfold degrees. replace (533 / 1000 * PI / 180 / 2) with (533 / 1000 * (PI / 180) / 2) by field. rewrite R1.
    unfold sun_dir_illum. cbv zeta. rewrite (proj1 (C53_zenith_partial (vz p) Hz)). unfold perez_illuminance. cbv zeta. cbn [fmul NumR]. f_equal.
    rewrite E11. set (z := Rmin (PI / 2) (acos (vz p))). f_equal.
    + rewrite <- clamp_minmax by lra. reflexivity.
    + f_equal. rewrite <- clamp_minmax by lra. reflexivity.
Qed.
Print Assumptions C53_sun.
