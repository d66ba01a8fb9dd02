(** * Proofs about the pinhole camera (exact reals) *)
From Verif Require Import NumR Geometry Triangle Colour Ray Camera SpecGeom TriangleProofs.
Open Scope R_scope.

Lemma sin_half_lb a : 0 <= a -> a <= PI / 2 -> sin (2 * a) / 2 <= sin a.
Proof.
  intros H1 H2. rewrite sin_2a. assert (S : 0 <= sin a) by (apply sin_ge_0; pose proof PI_RGT_0; lra).
  pose proof (COS_bound a) as C. nra.
Qed.
Lemma sin_half_degree : 1 / 128 <= sin (PI / 360).
Proof.
  pose proof PI_RGT_0 as P.
  assert (A0 : sin (PI / 6) = 1 / 2) by apply sin_PI6.
  assert (A1 : 1 / 4 <= sin (PI / 12)).
  { pose proof (sin_half_lb (PI / 12)) as H. replace (2 * (PI / 12)) with (PI / 6) in H by field. lra. }
  assert (A2 : 1 / 8 <= sin (PI / 24)).
  { pose proof (sin_half_lb (PI / 24)) as H. replace (2 * (PI / 24)) with (PI / 12) in H by field. lra. }
  assert (A3 : 1 / 16 <= sin (PI / 48)).
  { pose proof (sin_half_lb (PI / 48)) as H. replace (2 * (PI / 48)) with (PI / 24) in H by field. lra. }
  assert (A4 : 1 / 32 <= sin (PI / 96)).
  { pose proof (sin_half_lb (PI / 96)) as H. replace (2 * (PI / 96)) with (PI / 48) in H by field. lra. }
  assert (A5 : 1 / 64 <= sin (PI / 192)).
  { pose proof (sin_half_lb (PI / 192)) as H. replace (2 * (PI / 192)) with (PI / 96) in H by field. lra. }
  assert (A6 : 1 / 128 <= sin (PI / 384)).
  { pose proof (sin_half_lb (PI / 384)) as H. replace (2 * (PI / 384)) with (PI / 192) in H by field. lra. }
  apply Rle_trans with (sin (PI / 384)); [exact A6|]. apply sin_incr_1; lra.
Qed.

(** half the field of view, in radians *)
Definition half_fov (v : @View NumR) : R := field_of_view v * PI / 180 / 2.
Lemma tan_bounds v : 0 < field_of_view v <= 179 -> 0 < tan (half_fov v) <= 128.
Proof.
  intros [H1 H2]. unfold half_fov. pose proof PI_RGT_0 as P. set (f := field_of_view v) in *.
  set (a := f * PI / 180 / 2). assert (A0 : 0 < a) by (unfold a; nra). assert (A1 : a <= PI / 2 - PI / 360) by (unfold a; nra).
  assert (S : 0 < sin a) by (apply sin_gt_0; lra).
  assert (C : 1 / 128 <= cos a).
  { apply Rle_trans with (sin (PI / 360)); [apply sin_half_degree|].
    rewrite <- cos_shift. apply cos_decr_1; lra. }
  unfold tan. split; [apply Rdiv_lt_0_compat; lra|].
  apply Rmult_le_reg_r with (cos a); [lra|]. unfold Rdiv. rewrite Rmult_assoc, Rinv_l by lra.
  pose proof (SIN_bound a). lra.
Qed.

(** coordinates of the centre of a pixel on the film: horizontal (to the right) and vertical (upwards) *)
Definition film_x (f : Film) (px : nat) : R := (2 * INR px + 1) / INR (film_width f) - 1.
Definition film_z (f : Film) (py : nat) : R := (INR (film_height f) - 2 * INR py - 1) / INR (film_width f).

Lemma dot_combo a b c (x y z w : VecR) : dot (plus (plus (times a x) (times b y)) (times c z)) w = a * dot x w + b * dot y w + c * dot z w.
Proof. dvec. vunf. ring. Qed.
Lemma dot_sym (x y : VecR) : dot x y = dot y x.
Proof. dvec. vunf. ring. Qed.
Lemma dot_times_l (k : R) (D w : VecR) : dot (times k D) w = k * dot D w.
Proof. dvec. vunf. ring. Qed.
Lemma dot_times_r (k : R) (D w : VecR) : dot w (times k D) = k * dot D w.
Proof. dvec. vunf. ring. Qed.
Lemma plane_dot (d : R) (p w : VecR) : dot (vsub (vadd p (vscale w d)) p) w = d * dot w w.
Proof. dvec. vunf. ring. Qed.
Lemma scale_back (k : R) (D : VecR) : 0 < k -> @vscale NumR (times k D) (/ k) = D.
Proof. intros H. dvec. apply vec_ext; vunf; field; lra. Qed.
Lemma vlen2_zero (w : VecR) : @vlen2 NumR (vsub w w) = 0.
Proof. dvec. vunf. ring. Qed.
Lemma normalized_scale (D : VecR) : 0 < dot D D -> exists k, 0 < k /\ vnormalized D = times k D /\ k * k * dot D D = 1 /\ k = / sqrt (dot D D).
Proof.
  intros H. assert (Hs : 0 < sqrt (dot D D)) by (apply sqrt_lt_R0; exact H).
  exists (/ sqrt (dot D D)). split; [apply Rinv_0_lt_compat; exact Hs|]. split; [|split; [|reflexivity]].
  - unfold vnormalized. rewrite vlen_norm. unfold norm. generalize dependent (sqrt (dot D D)). intros n Hn. clear H. dvec. apply vec_ext; vunf; field; lra.
  - rewrite <- (sqrt_sqrt (dot D D)) at 3 by lra. field. lra.
Qed.


Section Cam.
  Variables (v : @View NumR) (f : Film).
  Hypothesis (Ud : unit (view_direction v)) (Uu : unit (view_up v)) (Or : dot (view_direction v) (view_up v) = 0).
  Hypothesis (Hw : (0 < film_width f)%nat) (Hh : (0 < film_height f)%nat).
  Hypothesis (Hf : 0 < field_of_view v <= 179).
  Let fd : R := / tan (half_fov v).
  Let u : VecR := cross (view_direction v) (view_up v).
  Definition sight (px py : nat) : VecR :=
    plus (plus (times (/ tan (half_fov v)) (view_direction v)) (times (film_x f px) (cross (view_direction v) (view_up v))))
         (times (film_z f py) (view_up v)).

  Lemma fd_bound : 1 / 128 <= fd.
  Proof. unfold fd. destruct (tan_bounds v Hf). unfold Rdiv. rewrite Rmult_1_l. apply Rinv_le_contravar; assumption. Qed.
  Lemma ph_distance : ph_film_distance (pinhole_new v f) = fd.
  Proof.
    cbn [ph_film_distance pinhole_new]. unfold fd, half_fov, radians. rsimp. set (x := field_of_view v) in *. change F with R in x.
    replace (x * (PI / 180) / (2 / 1)) with (x * PI / 180 / 2) by field. unfold Rdiv at 1 2. rewrite Rinv_1, !Rmult_1_l. reflexivity.
  Qed.
  Lemma W0 : 0 < INR (film_width f). Proof. apply lt_0_INR. exact Hw. Qed.
  Lemma H0 : 0 < INR (film_height f). Proof. apply lt_0_INR. exact Hh. Qed.

  Lemma gen_ray_sight px py : r_geometry (fst (gen_ray (pinhole_new v f) (px, py))) = mkRay3D (view_point v) (vnormalized (sight px py)).
  Proof.
    unfold gen_ray. cbv zeta. cbn [fst r_geometry set_geometry]. rewrite ph_distance. f_equal. f_equal.
    unfold sight, film_x, film_z. fold fd. cbn [ph_view ph_film ph_u pinhole_new fst snd].
    unfold film_dx, film_dy, film_ylim. rsimp. rewrite <- !INR_IZR_INZ. pose proof W0. pose proof H0.
    generalize dependent (INR (film_width f)). intros W HW. generalize dependent (INR (film_height f)). intros H HH.
    clear - HW HH. clearbody fd. destruct v as [vp vd vu fov]. cbn [view_direction view_up] in *. clear - HW HH.
    dvec. apply vec_ext; vunf; field; lra.
  Qed.

  Lemma u_unit : dot u u = 1 /\ dot u (view_direction v) = 0 /\ dot u (view_up v) = 0.
  Proof.
    unfold u, unit in *. clear u fd. destruct v as [vp vd vu fov]. cbn [view_direction view_up] in *. dvec. vunf.
    repeat split; try ring. 
    transitivity ((vd_x * vd_x + vd_y * vd_y + vd_z * vd_z) * (vu_x * vu_x + vu_y * vu_y + vu_z * vu_z)
      - (vd_x * vu_x + vd_y * vu_y + vd_z * vu_z) * (vd_x * vu_x + vd_y * vu_y + vd_z * vu_z)); [ring|].
    rewrite Ud, Uu, Or. ring.
  Qed.
  Lemma combo_dots a b c : let D := plus (plus (times a (view_direction v)) (times b u)) (times c (view_up v)) in
    dot D (view_direction v) = a /\ dot D u = b /\ dot D (view_up v) = c /\ dot D D = a * a + b * b + c * c.
  Proof.
    intros D. destruct u_unit as (U1 & U2 & U3). unfold unit in *. unfold D. clear D.
    destruct v as [vp vd vu fov]. cbn [view_direction view_up] in *. clearbody u.
    pose proof (dot_combo a b c) as L. pose proof dot_sym as S.
    repeat split.
    - rewrite L, Ud, U2, (S vu vd), Or. ring.
    - rewrite L, (S vd u), (S vu u), U1, U2, U3. ring.
    - rewrite L, Or, U3, Uu. ring.
    - rewrite L, !(S _ (plus _ _)), !L. rewrite ?Ud, ?U2, ?(S vu vd), ?Or, ?(S vd u), ?(S vu u), ?U1, ?U2, ?U3, ?Uu. ring.
  Qed.
  Lemma sight_dots px py : dot (sight px py) (view_direction v) = fd /\ dot (sight px py) u = film_x f px /\
    dot (sight px py) (view_up v) = film_z f py /\
    dot (sight px py) (sight px py) = fd * fd + film_x f px * film_x f px + film_z f py * film_z f py.
  Proof. apply combo_dots. Qed.
  Lemma sight_pos px py : 0 < dot (sight px py) (sight px py).
  Proof. destruct (sight_dots px py) as (_ & _ & _ & ->). pose proof fd_bound. nra. Qed.

  (** what the inverse map answers *)
  Lemma pixel_back px py : (Z.of_nat px < 2 ^ 63)%Z -> (Z.of_nat py < 2 ^ 63)%Z ->
    let cosine := fd / sqrt (dot (sight px py) (sight px py)) in
    pixel_from_ray (pinhole_new v f) (r_geometry (fst (gen_ray (pinhole_new v f) (px, py)))) =
    if Rlt_dec cosine (1 / 10 ^ 12) then Ret ((0, 0)%Z, 0)
    else if Rlt_dec 1 (Rabs (film_z f py)) then Ret ((0, 0)%Z, 0)
    else if Rlt_dec 1 (Rabs (film_x f px)) then Ret ((0, 0)%Z, 0)
    else Ret ((floor_usize (N := NumR) (INR px + 1 / 2),
               floor_usize (N := NumR) (INR py + 1 / 2 + (INR (film_width f) - INR (film_height f)) / 2)), 1).
  Proof.
    intros Px Py cosine. rewrite gen_ray_sight. set (D := sight px py) in *. unfold cosine; clear cosine.
    destruct (sight_dots px py) as (E1 & E2 & E3 & E4). fold D in E1, E2, E3, E4.
    destruct (normalized_scale D (sight_pos px py)) as (k & Hk & En & Ekk & Ek). rewrite En.
    pose proof fd_bound as Hfd.
    unfold pixel_from_ray. cbv zeta. rewrite ph_distance. cbn [ph_view ph_film ph_u pinhole_new origin direction].
    assert (Z0 : fltb TINY24 (vlen2 (vsub (view_point v) (view_point v))) = false).
    { unfold TINY24. rsimp. apply Rltb_false. rewrite vlen2_zero.
      apply Rmult_le_pos; [lra|]. left. apply Rinv_0_lt_compat. apply IZR_lt. reflexivity. }
    rewrite Z0.
    assert (Ecos : @vdot NumR (view_direction v) (times k D) = k * fd).
    { rewrite <- E1. exact (dot_times_r k D (view_direction v)). }
    rewrite Ecos.
    assert (Epos : 0 < k * fd) by (apply Rmult_lt_0_compat; lra).
    assert (ELen : fdiv (vdot (vsub (vadd (view_point v) (vscale (view_direction v) fd)) (view_point v)) (view_direction v)) (k * fd) = / k).
    { pose proof (plane_dot fd (view_point v) (view_direction v)) as Q. unfold unit in Ud. rewrite Ud in Q.
      unfold fdiv, NumR. apply (@eq_trans R _ (fd * 1 / (k * fd)) _); [exact (f_equal (fun t : R => t / (k * fd)) Q)|]. clearbody fd. field. lra. }
    rewrite ELen.
    assert (ED : @vscale NumR (times k D) (/ k) = D) by (apply scale_back; exact Hk).
    rewrite ED. change (@vcross NumR (view_direction v) (view_up v)) with u. change (@vdot NumR D u) with (dot D u).
    change (@vdot NumR D (view_up v)) with (dot D (view_up v)). rewrite E2, E3.
    assert (Ekd : fd / sqrt (dot D D) = k * fd) by (rewrite Ek; unfold Rdiv; ring). rewrite Ekd.
    unfold TINY12. rsimp. rewrite (Rabs_pos_eq (k * fd)) by lra.
    assert (P12 : 1 / IZR (Z.pos (10 ^ 12)) = 1 / 10 ^ 12) by (apply (f_equal (fun t : R => 1 / t)); rewrite (pow_IZR 10 12); reflexivity).
    rewrite P12.
    assert (Z01 : 0 / 1 = 0) by field. assert (Z11 : 1 / 1 = 1) by field. rewrite !Z01, !Z11.
    unfold Rltb. destruct (Rlt_dec (k * fd) (1 / 10 ^ 12)); [reflexivity|].
    destruct (Rlt_dec 1 (Rabs (film_z f py))); cbn [orb]; [reflexivity|].
    destruct (Rlt_dec 1 (Rabs (film_x f px))); cbn [orb]; [reflexivity|].
    pose proof W0. pose proof H0.
    f_equal. f_equal. f_equal; f_equal.
    - unfold film_x, film_dx. rsimp. rewrite <- INR_IZR_INZ. field. lra.
    - unfold film_z, film_dy, film_ylim. rsimp. rewrite <- !INR_IZR_INZ. field. lra.
  Qed.
End Cam.

Lemma floor_usize_spec x (n : nat) : (Z.of_nat n < 2 ^ 64)%Z -> INR n <= x < INR n + 1 -> floor_usize (N := NumR) x = Z.of_nat n.
Proof.
  intros Hn [H1 H2]. unfold floor_usize. cbn [ftrunc NumR]. unfold Rtrunc.
  destruct (Rle_dec 0 x) as [C|C]; [|exfalso; apply C; pose proof (pos_INR n); lra].
  assert (E : Int_part x = Z.of_nat n).
  { destruct (base_Int_part x) as [B1 B2]. rewrite INR_IZR_INZ in H1, H2.
    assert (Z.of_nat n < Int_part x + 1)%Z by (apply lt_IZR; rewrite plus_IZR; lra).
    assert (Int_part x < Z.of_nat n + 1)%Z by (apply lt_IZR; rewrite plus_IZR; lra). lia. }
  rewrite E. lia.
Qed.
