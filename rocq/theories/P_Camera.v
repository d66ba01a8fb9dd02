(** * Properties C27, C28: the pinhole camera *)
From Verif Require Import NumR Geometry Triangle Colour Ray Camera SpecGeom TriangleProofs CameraProofs.
Open Scope R_scope.

(** a view with perpendicular unit direction and up vectors *)
Definition proper_view (v : @View NumR) : Prop :=
  unit (view_direction v) /\ unit (view_up v) /\ dot (view_direction v) (view_up v) = 0 /\ 0 < field_of_view v <= 179.
Definition proper_film (f : Film) : Prop := (0 < film_width f /\ 0 < film_height f)%nat.
Definition in_film (f : Film) (p : nat * nat) : Prop := (fst p < film_width f /\ snd p < film_height f)%nat.
(** the ray generated for a pixel *)
Definition pixel_ray (v : @View NumR) (f : Film) (p : nat * nat) : RayR := r_geometry (fst (gen_ray (pinhole_new v f) p)).

(** ** C27 - the rays: unit vectors from the view point towards the centre of the pixel on a film two units wide, at the
    distance at which it is seen under the horizontal field of view; distinct pixels have distinct rays *)
Theorem C27_rays : forall v f px py, proper_view v -> proper_film f ->
  let right := cross (view_direction v) (view_up v) in
  let centre := plus (view_point v) (times (/ tan (field_of_view v * PI / 180 / 2)) (view_direction v)) in
  let x := (2 * INR px + 1) / INR (film_width f) - 1 in
  let z := (INR (film_height f) - 2 * INR py - 1) / INR (film_width f) in
  unit (direction (pixel_ray v f (px, py))) /\ origin (pixel_ray v f (px, py)) = view_point v /\
  exists s, 0 < s /\ along (pixel_ray v f (px, py)) s = plus centre (plus (times x right) (times z (view_up v))).
Proof.
  intros v f px py (Ud & Uu & Or & Hf) (Hw & Hh). cbv zeta. unfold pixel_ray. rewrite gen_ray_sight by assumption. cbn [origin direction].
  pose proof (sight_pos v f Ud Uu Or Hf px py) as HD.
  destruct (normalized_scale _ HD) as (k & Hk & En & Ekk & Ek). rewrite En. split; [|split; [reflexivity|]].
  - unfold unit. rewrite <- Ekk. generalize (sight v f px py). clear. intros D. dvec. vunf. ring.
  - exists (/ k). split; [apply Rinv_0_lt_compat; exact Hk|].
    unfold sight, film_x, film_z, half_fov. clear - Hk. 
    generalize ((2 * INR px + 1) / INR (film_width f) - 1) ((INR (film_height f) - 2 * INR py - 1) / INR (film_width f)) (/ tan (field_of_view v * PI / 180 / 2)).
    intros x z d. destruct v as [vp vd vu fov]. cbn [view_direction view_up view_point]. dvec. apply vec_ext; vunf; field; lra.
Qed.
Print Assumptions C27_rays.

Theorem C27_injective : forall v f p p', proper_view v -> proper_film f -> pixel_ray v f p = pixel_ray v f p' -> p = p'.
Proof.
  intros v f [px py] [px' py'] (Ud & Uu & Or & Hf) (Hw & Hh) E. unfold pixel_ray in E. rewrite !gen_ray_sight in E by assumption.
  apply (f_equal direction) in E. cbn [direction] in E.
  destruct (normalized_scale _ (sight_pos v f Ud Uu Or Hf px py)) as (k & Hk & En & _).
  destruct (normalized_scale _ (sight_pos v f Ud Uu Or Hf px' py')) as (k' & Hk' & En' & _).
  rewrite En, En' in E.
  destruct (sight_dots v f Ud Uu Or Hf px py) as (E1 & E2 & E3 & _).
  destruct (sight_dots v f Ud Uu Or Hf px' py') as (E1' & E2' & E3' & _).
  assert (L : forall c (D w : VecR), dot (times c D) w = c * dot D w) by (intros; dvec; vunf; ring).
  pose proof (fd_bound v Hf) as Hfd.
  pose proof (f_equal (fun D => dot D (view_direction v)) E) as F1. cbn beta in F1. rewrite !L, E1, E1' in F1.
  assert (Ek : k = k') by (apply Rmult_eq_reg_r with (/ tan (half_fov v)); lra). subst k'.
  pose proof (f_equal (fun D => dot D (cross (view_direction v) (view_up v))) E) as F2. cbn beta in F2. rewrite !L, E2, E2' in F2.
  pose proof (f_equal (fun D => dot D (view_up v)) E) as F3. cbn beta in F3. rewrite !L, E3, E3' in F3.
  apply Rmult_eq_reg_l in F2; [|lra]. apply Rmult_eq_reg_l in F3; [|lra].
  pose proof (W0 f Hw) as HW. unfold film_x, film_z in F2, F3.
  assert (X : INR px = INR px').
  { apply (f_equal (fun t => (t + 1) * INR (film_width f))) in F2. field_simplify in F2; lra. }
  assert (Y : INR py = INR py').
  { apply (f_equal (fun t => t * INR (film_width f))) in F3. field_simplify in F3; lra. }
  apply INR_eq in X. apply INR_eq in Y. congruence.
Qed.
Print Assumptions C27_injective.

Lemma floor_usize_bounds x z : 0 <= x -> x < 2 ^ 63 -> floor_usize (N := NumR) x = z -> IZR z <= x < IZR z + 1.
Proof.
  intros H1 H2 <-. unfold floor_usize. cbn [ftrunc NumR]. unfold Rtrunc. destruct (Rle_dec 0 x) as [_|C]; [|contradiction].
  destruct (base_Int_part x) as [B1 B2].
  assert (L : (-1 < Int_part x)%Z) by (apply lt_IZR; lra).
  assert (U : (Int_part x < 2 ^ 63)%Z). { apply lt_IZR. change (2 ^ 63)%Z with (2 ^ Z.of_nat 63)%Z. rewrite <- pow_IZR. lra. }
  replace (Z.max 0 (Z.min (2 ^ 64 - 1) (Int_part x))) with (Int_part x) by lia. lra.
Qed.

(** ** C27 - round trip.  It holds exactly for films that are square or one pixel taller than wide, and then for all pixels;
    for every other film it fails for every pixel. *)
Theorem C27_round_trip_partial : forall v f p, proper_view v -> proper_film f -> in_film f p ->
  (Z.of_nat (film_width f) < 2 ^ 32)%Z -> (Z.of_nat (film_height f) < 2 ^ 32)%Z ->
  (pixel_from_ray (pinhole_new v f) (pixel_ray v f p) = Ret ((Z.of_nat (fst p), Z.of_nat (snd p)), 1) <->
   film_height f = film_width f \/ film_height f = S (film_width f)).
Proof.
  intros v f [px py] (Ud & Uu & Or & Hf) (Hw & Hh) [Hx Hy] LW LH. unfold pixel_ray. cbn [fst snd] in *.
  rewrite (pixel_back v f Ud Uu Or Hw Hh Hf px py) by lia.
  pose proof (W0 f Hw) as HW. pose proof (H0 f Hh) as HH.
  pose proof Hx as NX. pose proof Hy as NY. apply lt_INR in Hx as Hx'. apply lt_INR in Hy as Hy'. pose proof (pos_INR px). pose proof (pos_INR py).
  assert (LW' : INR (film_width f) < 2 ^ 32) by (rewrite INR_IZR_INZ, (pow_IZR 2 32); apply IZR_lt; exact LW).
  assert (LH' : INR (film_height f) < 2 ^ 32) by (rewrite INR_IZR_INZ, (pow_IZR 2 32); apply IZR_lt; exact LH).
  apply le_INR in Hx. rewrite S_INR in Hx. apply le_INR in Hy. rewrite S_INR in Hy.
  set (W := INR (film_width f)) in *. set (H' := INR (film_height f)) in *.
  assert (P32 : (2 ^ 32 = 4294967296)%R) by (rewrite (pow_IZR 2 32); reflexivity).
  assert (P63 : 8589934592 * 2 < 2 ^ 63) by (rewrite (pow_IZR 2 63); rewrite <- mult_IZR; apply IZR_lt; reflexivity).
  split.
  - intros E. destruct (Rlt_dec _ (1 / 10 ^ 12)); [exfalso; injection E as _ _ E; lra|].
    destruct (Rlt_dec 1 (Rabs (film_z f py))) as [|Cz]; [exfalso; injection E as _ _ E; lra|].
    destruct (Rlt_dec 1 (Rabs (film_x f px))); [exfalso; injection E as _ _ E; lra|].
    injection E as _ E. 
    assert (Z1 : film_z f py <= 1) by (apply Rnot_lt_le in Cz; pose proof (Rle_abs (film_z f py)); lra).
    assert (Z2 : H' - 2 * INR py - 1 <= W).
    { unfold film_z in Z1. fold W H' in Z1. apply Rmult_le_reg_r with (/ W); [apply Rinv_0_lt_compat; exact HW|].
      rewrite Rinv_r by lra. exact Z1. }
    apply floor_usize_bounds in E; [|lra|lra]. rewrite <- INR_IZR_INZ in E.
    assert (D : (Z.of_nat (film_height f) - Z.of_nat (film_width f) < 2)%Z).
    { apply lt_IZR. rewrite minus_IZR, <- !INR_IZR_INZ. fold W H'. lra. }
    assert (D' : (-1 < Z.of_nat (film_height f) - Z.of_nat (film_width f))%Z).
    { apply lt_IZR. rewrite minus_IZR, <- !INR_IZR_INZ. fold W H'. lra. }
    lia.
  - intros Hcase.
    assert (HWc : W <= H' <= W + 1).
    { unfold W, H'. destruct Hcase as [-> | ->]; [lra|]. rewrite S_INR. lra. }
    assert (Xb : -1 <= film_x f px <= 1).
    { unfold film_x. fold W. split.
      - assert (0 <= (2 * INR px + 1) / W) by (apply Rmult_le_pos; [lra|left; apply Rinv_0_lt_compat; exact HW]). lra.
      - assert ((2 * INR px + 1) / W <= 2); [|lra]. apply Rmult_le_reg_r with W; [exact HW|]. unfold Rdiv. rewrite Rmult_assoc, Rinv_l by lra. lra. }
    assert (Zb : -1 <= film_z f py <= 1).
    { unfold film_z. fold W H'. split.
      - apply Rmult_le_reg_r with W; [exact HW|]. unfold Rdiv. rewrite Rmult_assoc, Rinv_l by lra. lra.
      - apply Rmult_le_reg_r with W; [exact HW|]. unfold Rdiv. rewrite Rmult_assoc, Rinv_l by lra. lra. }
    pose proof (fd_bound v Hf) as Hfd.
    destruct (Rlt_dec _ (1 / 10 ^ 12)) as [C|_].
    { exfalso. destruct (sight_dots v f Ud Uu Or Hf px py) as (_ & _ & _ & E4). rewrite E4 in C.
      set (d := / tan (half_fov v)) in *. set (q := d * d + film_x f px * film_x f px + film_z f py * film_z f py) in *.
      assert (Q0 : 0 < q) by (unfold q; nra). assert (Q1 : q <= (256 * d) * (256 * d)) by (unfold q; nra).
      assert (S0 : 0 < sqrt q) by (apply sqrt_lt_R0; exact Q0).
      assert (S1 : sqrt q <= 256 * d). { rewrite <- (sqrt_square (256 * d)) by lra. apply sqrt_le_1_alt. exact Q1. }
      assert (B : 1 / 256 <= d / sqrt q). { apply Rmult_le_reg_r with (sqrt q); [exact S0|]. unfold Rdiv at 2. rewrite Rmult_assoc, Rinv_l by lra. lra. }
      assert (1 / 10 ^ 12 < 1 / 256) by (apply Rmult_lt_compat_l; [lra|]; apply Rinv_lt_contravar; lra). lra. }
    destruct (Rlt_dec 1 (Rabs (film_z f py))) as [C|_]; [exfalso; revert C; apply Rle_not_lt; apply Rabs_le; lra|].
    destruct (Rlt_dec 1 (Rabs (film_x f px))) as [C|_]; [exfalso; revert C; apply Rle_not_lt; apply Rabs_le; lra|].
    f_equal. f_equal. f_equal; apply floor_usize_spec; try lia; fold W H'; lra.
Qed.
Print Assumptions C27_round_trip_partial.

(** what comes back for wider films: the right column, but a row shifted down by half the excess width *)
Theorem C27_round_trip_wide_refuted : forall v f p, proper_view v -> proper_film f -> in_film f p ->
  (Z.of_nat (film_width f) < 2 ^ 32)%Z -> (film_height f < film_width f)%nat ->
  pixel_from_ray (pinhole_new v f) (pixel_ray v f p) =
    Ret ((Z.of_nat (fst p), Z.of_nat (snd p + (film_width f - film_height f + 1) / 2)), 1).
Proof.
  intros v f [px py] (Ud & Uu & Or & Hf) (Hw & Hh) [Hx Hy] LW Hlt. unfold pixel_ray. cbn [fst snd] in *.
  rewrite (pixel_back v f Ud Uu Or Hw Hh Hf px py) by lia.
  pose proof (W0 f Hw) as HW. pose proof (H0 f Hh) as HH. pose proof (pos_INR px). pose proof (pos_INR py).
  assert (HWc : INR (film_height f) + 1 <= INR (film_width f)) by (rewrite <- S_INR; apply le_INR; lia).
  pose proof (Nat.div_mod_eq (film_width f - film_height f + 1) 2) as DM.
  pose proof (Nat.mod_upper_bound (film_width f - film_height f + 1) 2 ltac:(lia)) as DB.
  set (n := ((film_width f - film_height f + 1) / 2)%nat) in *.
  assert (N1 : 2 * INR n <= INR (film_width f) - INR (film_height f) + 1).
  { replace 2 with (INR 2) by reflexivity. rewrite <- mult_INR. replace (INR (film_width f) - INR (film_height f) + 1) with (INR (film_width f - film_height f + 1)).
    - apply le_INR. lia.
    - rewrite plus_INR, minus_INR by lia. cbn. lra. }
  assert (N2 : INR (film_width f) - INR (film_height f) + 1 <= 2 * INR n + 1).
  { replace (2 * INR n + 1) with (INR (2 * n + 1)) by (rewrite plus_INR, mult_INR; cbn; lra).
    replace (INR (film_width f) - INR (film_height f) + 1) with (INR (film_width f - film_height f + 1)).
    - apply le_INR. lia.
    - rewrite plus_INR, minus_INR by lia. cbn. lra. }
  assert (LN : (Z.of_nat (py + n) < 2 ^ 64)%Z) by lia.
  apply le_INR in Hx as Hx'. rewrite S_INR in Hx'. apply le_INR in Hy as Hy'. rewrite S_INR in Hy'.
  clear DM DB. set (W := INR (film_width f)) in *. set (H' := INR (film_height f)) in *. clearbody n.
  assert (Xb : -1 <= film_x f px <= 1).
  { unfold film_x. fold W. split.
    - assert (0 <= (2 * INR px + 1) / W) by (apply Rmult_le_pos; [lra|left; apply Rinv_0_lt_compat; exact HW]). lra.
    - assert ((2 * INR px + 1) / W <= 2); [|lra]. apply Rmult_le_reg_r with W; [exact HW|]. unfold Rdiv. rewrite Rmult_assoc, Rinv_l by lra. lra. }
  assert (Zb : -1 <= film_z f py <= 1).
  { unfold film_z. fold W H'. split.
    - apply Rmult_le_reg_r with W; [exact HW|]. unfold Rdiv. rewrite Rmult_assoc, Rinv_l by lra. lra.
    - apply Rmult_le_reg_r with W; [exact HW|]. unfold Rdiv. rewrite Rmult_assoc, Rinv_l by lra. lra. }
  pose proof (fd_bound v Hf) as Hfd.
  destruct (Rlt_dec _ (1 / 10 ^ 12)) as [C|_].
  { exfalso. destruct (sight_dots v f Ud Uu Or Hf px py) as (_ & _ & _ & E4). rewrite E4 in C.
    set (d := / tan (half_fov v)) in *. set (q := d * d + film_x f px * film_x f px + film_z f py * film_z f py) in *.
    assert (Q0 : 0 < q) by (unfold q; nra). assert (Q1 : q <= (256 * d) * (256 * d)) by (unfold q; nra).
    assert (S0 : 0 < sqrt q) by (apply sqrt_lt_R0; exact Q0).
    assert (S1 : sqrt q <= 256 * d). { rewrite <- (sqrt_square (256 * d)) by lra. apply sqrt_le_1_alt. exact Q1. }
    assert (B : 1 / 256 <= d / sqrt q). { apply Rmult_le_reg_r with (sqrt q); [exact S0|]. unfold Rdiv at 2. rewrite Rmult_assoc, Rinv_l by lra. lra. }
    assert (1 / 10 ^ 12 < 1 / 256) by (apply Rmult_lt_compat_l; [lra|]; apply Rinv_lt_contravar; lra). lra. }
  destruct (Rlt_dec 1 (Rabs (film_z f py))) as [C|_]; [exfalso; revert C; apply Rle_not_lt; apply Rabs_le; lra|].
  destruct (Rlt_dec 1 (Rabs (film_x f px))) as [C|_]; [exfalso; revert C; apply Rle_not_lt; apply Rabs_le; lra|].
  f_equal. f_equal. f_equal; apply floor_usize_spec; try lia; fold W H'; rewrite ?plus_INR; lra.
Qed.
Print Assumptions C27_round_trip_wide_refuted.

Definition some_view : @View NumR := mkView (pt 2 1 1) (pt 0 1 0) (pt 0 0 1) 60.
Example C27_hyp : proper_view some_view /\ proper_film (mkFilm 512 512) /\ in_film (mkFilm 512 512) (10, 20)%nat /\
  proper_film (mkFilm 640 480).
Proof.
  unfold proper_view, proper_film, in_film, unit, some_view. cbn [view_direction view_up field_of_view film_width film_height fst snd].
  repeat split; try lia; try lra; vunf; ring.
Qed.

(** ** C28 - pixel indices (any arithmetic) *)
Open Scope nat_scope.
Theorem C28_sample_in_film : forall (N : Num) (T : Trig N) v f x y, proper_film f ->
  exists p, gen_random_sample (pinhole_new v f) x y = Ret p /\ in_film f p.
Proof.
  intros N T v f x y [Hw Hh]. unfold gen_random_sample. cbn [ph_film pinhole_new]. cbv zeta.
  destruct (Nat.eqb_spec (film_width f) 0); [lia|]. destruct (Nat.eqb_spec (film_height f) 0); [lia|]. cbn [orb].
  eexists. split; [reflexivity|]. split; cbn [fst snd]; apply Nat.mod_upper_bound; lia.
Qed.
Print Assumptions C28_sample_in_film.
(** every pixel is drawn for some value of the generator, evenly: the values that give a pixel are those congruent to it *)
Theorem C28_sample_onto : forall (N : Num) (T : Trig N) v f p, proper_film f -> in_film f p ->
  gen_random_sample (pinhole_new v f) (fst p) (snd p) = Ret p.
Proof.
  intros N T v f [px py] [Hw Hh] [Hx Hy]. unfold gen_random_sample. cbn [ph_film pinhole_new fst snd] in *. cbv zeta.
  destruct (Nat.eqb_spec (film_width f) 0); [lia|]. destruct (Nat.eqb_spec (film_height f) 0); [lia|]. cbn [orb].
  rewrite !Nat.mod_small by lia. reflexivity.
Qed.
Print Assumptions C28_sample_onto.
Theorem C28_index_bijection : forall (N : Num) (T : Trig N) v f,
  (forall p, in_film f p -> pixel_index (pinhole_new v f) p < film_width f * film_height f) /\
  (forall p p', in_film f p -> in_film f p' -> pixel_index (pinhole_new v f) p = pixel_index (pinhole_new v f) p' -> p = p') /\
  (forall i, i < film_width f * film_height f -> exists p, in_film f p /\ pixel_index (pinhole_new v f) p = i).
Proof.
  intros N T v f. unfold pixel_index, in_film. cbn [ph_film pinhole_new]. set (w := film_width f). set (h := film_height f). split; [|split].
  - intros [x y]. cbn [fst snd]. nia.
  - intros [x y] [x' y']. cbn [fst snd]. intros [Hx Hy] [Hx' Hy'] E.
    assert (y = y') by nia. subst. assert (x = x') by lia. congruence.
  - intros i Hi. assert (w <> 0) by nia. exists (i mod w, i / w). cbn [fst snd].
    pose proof (Nat.mod_upper_bound i w ltac:(lia)). split; [split; [assumption|]|].
    + apply Nat.div_lt_upper_bound; lia.
    + rewrite (Nat.div_mod_eq i w) at 3. lia.
Qed.
Print Assumptions C28_index_bijection.
