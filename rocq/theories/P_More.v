(** * More about lights, the film and Ward's sampler (C08, C26, C27), added where wrong programs had not been noticed *)
From Verif Require Import NumR Geometry Triangle Colour Ray Bvh Samplers Material Camera Scene SpecGeom SpecOptics SpecScene TriangleProofs SphereProofs MaterialProofs
  BvhProofs SceneProofs CameraProofs P_Scene P_Camera P_Material.

(** ** C08 - the number of lights is that of the luminous objects that were pushed, near and distant ones *)
Theorem C08_light_count : forall (N : Num) (T : Trig N) (E : Ext), perm_sorts E ->
  forall h s, play scene_new h = Ret s ->
  exists lamps, selected (luminous (sc_materials s)) as_object (objects_of h) lamps /\ count_all_lights s = length lamps.
Proof.
  intros N T E HP h s H. destruct (C08_lights N T E HP h s H) as [A B]. unfold count_all_lights. clear H.
  revert A B. generalize (sc_lights s) (sc_distant_lights s) (objects_of h) (sc_materials s). clear s h HP.
  intros near far os ms A. revert far. induction A as [|a l r [P D] A IH|a l r P A IH]; intros far B.
  - inversion B; subst. exists []. split; [constructor|reflexivity].
  - inversion B as [|? ? ? [P' D'] ?|? ? ? P' B']; subst; [contradiction|]. destruct (IH far B') as (x & X & Y). exists (as_object a :: x).
    split; [constructor; assumption|]. cbn [length]. rewrite <- Y. reflexivity.
  - inversion B as [|? ? ? [P' D'] B'|? ? ? P' B']; subst.
    + match goal with B' : selected _ _ l ?z |- _ => destruct (IH z B') as (x & X & Y) end. exists (as_object a :: x). split; [constructor; assumption|]. cbn [length]. rewrite <- Y. lia.
    + destruct (IH far B') as (x & X & Y). exists x. split; [|exact Y]. apply sel_skip; [|exact X]. intros L. tauto.
Qed.
Print Assumptions C08_light_count.

Open Scope R_scope.
(** ** C27 - pixels are squares and the film has the aspect ratio it reports *)
(** the point at which the ray of a pixel meets the plane of the film *)
Definition film_point (v : @View NumR) (f : Film) (p : nat * nat) (q : VecR) : Prop :=
  (exists s, 0 < s /\ along (pixel_ray v f p) s = q) /\
  dot (minus q (plus (view_point v) (times (/ tan (field_of_view v * PI / 180 / 2)) (view_direction v)))) (view_direction v) = 0.
Lemma film_point_is v f px py q : proper_view v -> proper_film f -> film_point v f (px, py) q ->
  q = plus (plus (view_point v) (times (/ tan (field_of_view v * PI / 180 / 2)) (view_direction v)))
        (plus (times ((2 * INR px + 1) / INR (film_width f) - 1) (cross (view_direction v) (view_up v)))
              (times ((INR (film_height f) - 2 * INR py - 1) / INR (film_width f)) (view_up v))).
Proof.
  intros HV HF ((s & S1 & S2) & Q). destruct (C27_rays v f px py HV HF) as (_ & O & (s' & S1' & S2')). rewrite <- S2'. rewrite <- S2 in *. clear q S2.
  destruct HV as (Ud & Uu & Or & Fv).
  assert (TZ : / tan (field_of_view v * PI / 180 / 2) <> 0). { pose proof (fd_bound v Fv) as B. unfold half_fov in B. lra. }
  set (fd := / tan (field_of_view v * PI / 180 / 2)) in *. set (x := (2 * INR px + 1) / INR (film_width f) - 1) in *. set (z := (INR (film_height f) - 2 * INR py - 1) / INR (film_width f)) in *.
  unfold along in *. rewrite O in *. set (D := direction (pixel_ray v f (px, py))) in *. clearbody D fd x z. clear O.
  assert (E1 : s * dot D (view_direction v) = fd).
  { unfold unit in Ud. revert Q Ud. clear. generalize (view_direction v) (view_point v). intros d o Q Ud.
    assert (X : dot (minus (plus o (times s D)) (plus o (times fd d))) d = s * dot D d - fd * dot d d) by (clear; dvec; vunf; ring). rewrite X, Ud in Q. lra. }
  assert (E2 : s' * dot D (view_direction v) = fd).
  { pose proof (f_equal (fun w => dot (minus w (view_point v)) (view_direction v)) S2') as K. cbn beta in K. unfold unit in Ud. revert K Ud Or. clear.
    generalize (view_direction v) (view_point v) (view_up v). intros d o u K Ud Or.
    assert (X : dot (minus (plus o (times s' D)) o) d = s' * dot D d) by (clear; dvec; vunf; ring). rewrite X in K. rewrite K.
    assert (Y : dot (minus (plus (plus o (times fd d)) (plus (times x (cross d u)) (times z u))) o) d = fd * dot d d + z * dot d u) by (clear; dvec; vunf; ring).
    rewrite Y, Ud, Or. ring. }
  assert (s = s') as ->; [|reflexivity]. apply Rmult_eq_reg_r with (dot D (view_direction v)); [congruence|]. intros Z. rewrite Z in E1. lra.
Qed.
Theorem C27_square_pixels : forall v f px py q right_of_q below_q, proper_view v -> proper_film f ->
  film_point v f (px, py) q -> film_point v f (S px, py) right_of_q -> film_point v f (px, S py) below_q ->
  let side := 2 / INR (film_width f) in
  minus right_of_q q = times side (cross (view_direction v) (view_up v)) /\ minus q below_q = times side (view_up v) /\
  INR (film_width f) * side = aspect_ratio f * (INR (film_height f) * side).
Proof.
  intros v f px py q q1 q2 HV HF H H1 H2. cbv zeta. apply (film_point_is v f px py q HV HF) in H. apply (film_point_is v f _ _ _ HV HF) in H1. apply (film_point_is v f _ _ _ HV HF) in H2.
  destruct HF as [W H']. apply lt_INR in W. apply lt_INR in H'. cbn [INR] in W, H'. rewrite S_INR in H1, H2. subst q q1 q2.
  unfold aspect_ratio. cbn [fofZ fdiv NumR]. rewrite <- !INR_IZR_INZ. set (w := INR (film_width f)) in *. set (h := INR (film_height f)) in *. clearbody w h.
  generalize (/ tan (field_of_view v * PI / 180 / 2)) (cross (view_direction v) (view_up v)) (view_direction v) (view_up v) (view_point v). intros fd r d u o.
  split; [|split]; [apply vec_ext; dvec; vunf; field; lra|apply vec_ext; dvec; vunf; field; lra|field; lra].
Qed.
Print Assumptions C27_square_pixels.
(** and every pixel has such a point *)
Theorem C27_film_points : forall v f px py, proper_view v -> proper_film f -> exists q, film_point v f (px, py) q.
Proof.
  intros v f px py HV HF. destruct (C27_rays v f px py HV HF) as (_ & O & (s' & S1' & S2')). eexists. split; [exists s'; split; [exact S1'|reflexivity]|].
  rewrite S2'. destruct HV as (Ud & Uu & Or & Fv). unfold unit in Ud. set (fd := / tan _). set (x := _ / _ - 1). set (z := (_ - 1) / _). clearbody fd x z. clear S2' O.
  revert Or. generalize (view_direction v) (view_point v) (view_up v). intros d o u Or.
  assert (Y : dot (minus (plus (plus o (times fd d)) (plus (times x (cross d u)) (times z u))) (plus o (times fd d))) d = z * dot d u) by (clear; dvec; vunf; ring).
  rewrite Y, Or. ring.
Qed.
Print Assumptions C27_film_points.

(** ** C26 - the half vector of the specular branch is distributed as Ward's: a Gaussian slope of width alpha along e1 and beta along e2.
    (Then the direction to the eye is displaced along the normal only, see C26_no_sideways_scatter.) *)
Theorem C26_half_vector : forall (n e1 e2 l : VecR) (a b xi1 xi2 : R), frame e1 e2 n -> 0 < a -> 0 < b -> 1 / 1000000000 <= xi2 < 1 ->
  let slope := sqrt (- ln xi2) in
  let h := plus n (plus (times (a * slope * cos (2 * PI * xi1)) e1) (times (b * slope * sin (2 * PI * xi1)) e2)) in
  ward_direction n e1 e2 a b l xi1 xi2 = vnormalized (plus l (times (- 2 * dot h l / dot h h) n)).
Proof.
  intros n e1 e2 l a b xi1 xi2 Hf Ha Hb Hx slope h. unfold ward_direction. cbv zeta.
  rewrite (Rltb_is_false xi2 (1 / 1000000000) (proj1 Hx) : @fltb NumR xi2 (flit 1 1000000000) = false).
  unfold fsq, f1, f2. rewrite ?vadd_plus, ?vscale_times, !vdot_dot. change (@vadd NumR) with plus.
  cbn [fadd fsub fmul fdiv fneg fsqrt flit fexp fln fsin fcos fpi NumR TrigR].
  replace (2 / 1 * PI * xi1) with (2 * PI * xi1) by field. unfold h. set (phi := 2 * PI * xi1). pose proof (sin2_cos2 phi) as Q. unfold Rsqr in Q.
  assert (Hl : 0 < - ln xi2). { assert (X : ln xi2 < ln 1) by (apply ln_increasing; lra). rewrite ln_1 in X. lra. }
  set (r2 := cos phi * a * (cos phi * a) + sin phi * b * (sin phi * b)).
  assert (R2 : 0 < r2).
  { unfold r2. destruct (Req_dec (cos phi) 0) as [Z|Z].
    - assert (sin phi <> 0) by (intros Y; rewrite Z, Y in Q; lra). rewrite Z. assert (0 < (sin phi * b) * (sin phi * b)) by (apply Rsqr_pos_lt; apply Rmult_integral_contrapositive_currified; lra). lra.
    - assert (0 < (cos phi * a) * (cos phi * a)) by (apply Rsqr_pos_lt; apply Rmult_integral_contrapositive_currified; lra). pose proof (Rle_0_sqr (sin phi * b)) as K. unfold Rsqr in K. lra. }
  set (r := sqrt r2). assert (Rp : 0 < r) by (apply sqrt_lt_R0; exact R2). assert (RR : r * r = r2) by (apply sqrt_sqrt; lra).
  assert (E2 : - ln xi2 / (cos phi * a * (1 / 1 / r) / a * (cos phi * a * (1 / 1 / r) / a) + sin phi * b * (1 / 1 / r) / b * (sin phi * b * (1 / 1 / r) / b)) = r2 * - ln xi2).
  { replace (cos phi * a * (1 / 1 / r) / a * (cos phi * a * (1 / 1 / r) / a) + sin phi * b * (1 / 1 / r) / b * (sin phi * b * (1 / 1 / r) / b))
      with ((sin phi * sin phi + cos phi * cos phi) / (r * r)) by (field; lra).
    rewrite Q, RR. field. lra. }
  rewrite E2, sqrt_mult by lra. fold r. fold slope.
  assert (SS : slope * slope = - ln xi2) by (apply sqrt_sqrt; lra).
  destruct Hf as (A & B & C & D1 & D2 & D3). unfold unit in A, B, C.
  f_equal. f_equal. f_equal.
  assert (HH : dot (plus n (plus (times (a * slope * cos phi) e1) (times (b * slope * sin phi) e2))) (plus n (plus (times (a * slope * cos phi) e1) (times (b * slope * sin phi) e2))) = 1 + r * slope * (r * slope)).
  { transitivity (dot n n + (a * slope * cos phi) * (a * slope * cos phi) * dot e1 e1 + (b * slope * sin phi) * (b * slope * sin phi) * dot e2 e2
      + 2 * (a * slope * cos phi) * dot e1 n + 2 * (b * slope * sin phi) * dot e2 n + 2 * (a * slope * cos phi) * (b * slope * sin phi) * dot e1 e2).
    - clear. generalize (a * slope * cos phi) (b * slope * sin phi). intros. dvec. vunf. ring.
    - rewrite A, B, C, D1, D2, D3. replace (r * slope * (r * slope)) with (r * r * (slope * slope)) by ring. rewrite RR. unfold r2. ring. }
  rewrite HH. replace (dot (plus (plus n (times (r * slope) (times (cos phi * a * (1 / 1 / r)) e1))) (times (r * slope) (times (sin phi * b * (1 / 1 / r)) e2))) l)
    with (dot (plus n (plus (times (a * slope * cos phi) e1) (times (b * slope * sin phi) e2))) l).
  - assert (0 <= r * slope * (r * slope)) by nra. field. lra.
  - clear - Rp. dvec. vunf. field. lra.
Qed.
Print Assumptions C26_half_vector.
(** draws below 1e-9 give a slope of one, in the direction of the same azimuth *)
Theorem C26_half_vector_tail : forall (n e1 e2 l : VecR) (a b xi1 xi2 : R), frame e1 e2 n -> 0 < a -> 0 < b -> xi2 < 1 / 1000000000 ->
  exists c s, c * c + s * s = 1 /\ (exists k, 0 < k /\ c = k * a * cos (2 * PI * xi1) /\ s = k * b * sin (2 * PI * xi1)) /\
  let h := plus n (plus (times c e1) (times s e2)) in
  ward_direction n e1 e2 a b l xi1 xi2 = vnormalized (plus l (times (- 2 * dot h l / dot h h) n)).
Proof.
  intros n e1 e2 l a b xi1 xi2 Hf Ha Hb Hx. unfold ward_direction. cbv zeta.
  rewrite (Rltb_is_true xi2 (1 / 1000000000) Hx : @fltb NumR xi2 (flit 1 1000000000) = true).
  unfold fsq, f1, f2. rewrite ?vadd_plus, ?vscale_times, !vdot_dot. change (@vadd NumR) with plus.
  cbn [fadd fsub fmul fdiv fneg fsqrt flit fexp fln fsin fcos fpi NumR TrigR].
  replace (2 / 1 * PI * xi1) with (2 * PI * xi1) by field. set (phi := 2 * PI * xi1). pose proof (sin2_cos2 phi) as Q. unfold Rsqr in Q.
  set (r2 := cos phi * a * (cos phi * a) + sin phi * b * (sin phi * b)).
  assert (R2 : 0 < r2).
  { unfold r2. destruct (Req_dec (cos phi) 0) as [Z|Z].
    - assert (sin phi <> 0) by (intros Y; rewrite Z, Y in Q; lra). rewrite Z. assert (0 < (sin phi * b) * (sin phi * b)) by (apply Rsqr_pos_lt; apply Rmult_integral_contrapositive_currified; lra). lra.
    - assert (0 < (cos phi * a) * (cos phi * a)) by (apply Rsqr_pos_lt; apply Rmult_integral_contrapositive_currified; lra). pose proof (Rle_0_sqr (sin phi * b)) as K. unfold Rsqr in K. lra. }
  set (r := sqrt r2). assert (Rp : 0 < r) by (apply sqrt_lt_R0; exact R2). assert (RR : r * r = r2) by (apply sqrt_sqrt; lra).
  exists (cos phi * a * (1 / 1 / r)), (sin phi * b * (1 / 1 / r)).
  assert (U : cos phi * a * (1 / 1 / r) * (cos phi * a * (1 / 1 / r)) + sin phi * b * (1 / 1 / r) * (sin phi * b * (1 / 1 / r)) = 1).
  { replace (cos phi * a * (1 / 1 / r) * (cos phi * a * (1 / 1 / r)) + sin phi * b * (1 / 1 / r) * (sin phi * b * (1 / 1 / r))) with (r2 / (r * r)) by (unfold r2; field; lra). rewrite RR. field. lra. }
  split; [exact U|]. split; [exists (/ r); split; [apply Rinv_0_lt_compat; exact Rp|split; field; lra]|].
  set (c := cos phi * a * (1 / 1 / r)) in *. set (s := sin phi * b * (1 / 1 / r)) in *. clearbody c s.
  destruct Hf as (A & B & C & D1 & D2 & D3). unfold unit in A, B, C. f_equal. f_equal. f_equal.
  assert (HH : dot (plus n (plus (times c e1) (times s e2))) (plus n (plus (times c e1) (times s e2))) = 2).
  { transitivity (dot n n + c * c * dot e1 e1 + s * s * dot e2 e2 + 2 * c * dot e1 n + 2 * s * dot e2 n + 2 * c * s * dot e1 e2).
    - clear. dvec. vunf. ring.
    - rewrite A, B, C, D1, D2, D3. lra. }
  rewrite HH. replace (dot (plus (plus n (times (1 / 1) (times c e1))) (times (1 / 1) (times s e2))) l) with (dot (plus n (plus (times c e1) (times s e2))) l).
  - field.
  - clear. dvec. vunf. field.
Qed.
Print Assumptions C26_half_vector_tail.
Example C26_half_hyp : frame (pt 1 0 0) (pt 0 1 0) (pt 0 0 1) /\ 0 < 1/10 /\ 0 < 1/5 /\ 1 / 1000000000 <= 1/2 < 1 /\ 0 < 1 / 1000000000.
Proof. split; [unfold frame, unit; vunf; repeat split; ring|]. lra. Qed.
Example C27_square_hyp : proper_view (@mkView NumR (pt 0 0 0) (pt 0 1 0) (pt 0 0 1) 60) /\ proper_film (mkFilm 640 480).
Proof. split; [unfold proper_view, unit; cbn [view_direction view_up field_of_view]; vunf; repeat split; lra|split; cbn; lia]. Qed.

(** ** C32 - differences obey the triangle inequality, pixel by pixel *)
From Verif Require Import SpecColour Image SpecImage P_Image.
Theorem C32_diff_triangle : forall a b c ab bc ac : @ImageBuffer NumR, consistent a -> consistent b -> consistent c ->
  img_diff a b = Ret (Some ab) -> img_diff b c = Ret (Some bc) -> img_diff a c = Ret (Some ac) ->
  forall x y p q r, img_index ab x y = Ret p -> img_index bc x y = Ret q -> img_index ac x y = Ret r -> sr r <= sr p + sr q /\ sg r <= sg p + sg q /\ sb r <= sb p + sb q.
Proof.
  assert (OUT : forall a b d : @ImageBuffer NumR, img_diff a b = Ret (Some d) -> img_width d = img_width a /\ img_width a = img_width b /\
    forall i p, nth_error (img_pixels d) i = Some p -> exists u w, nth_error (img_pixels a) i = Some u /\ nth_error (img_pixels b) i = Some w /\ p = gray (Rabs (radiance u - radiance w) : R)).
  { intros a b d. unfold img_diff. destruct (Nat.eqb_spec (img_width a) (img_width b)) as [W|]; [|discriminate]. destruct (Nat.eqb_spec (img_height a) (img_height b)) as [H|]; [|discriminate].
    cbn [andb negb]. unfold from_pixels. destruct (Nat.eqb _ _); [|discriminate]. cbn [negb obind]. intros Q. injection Q as <-. cbn [img_width img_pixels]. split; [reflexivity|]. split; [exact W|].
    generalize (img_pixels a) (img_pixels b). clear. intros l. induction l as [|u l IH]; intros [|w l'] [|i] p; cbn [combine map nth_error fst snd]; try discriminate.
    - intros Q. injection Q as <-. exists u, w. repeat split.
    - apply IH. }
  intros a b c ab bc ac Ca Cb Cc H1 H2 H3 x y p q r. destruct (OUT _ _ _ H1) as (W1 & W1' & P1). destruct (OUT _ _ _ H2) as (W2 & W2' & P2). destruct (OUT _ _ _ H3) as (W3 & _ & P3).
  unfold img_index. replace (img_width bc) with (img_width ab) by congruence. replace (img_width ac) with (img_width ab) by congruence. set (i := (y * img_width ab + x)%nat).
  intros Hp Hq Hr.
  assert (RO : forall (o : option SpecR) z, ret_opt o = Ret z -> o = Some z) by (intros [o|] z; cbn; congruence). apply RO in Hp, Hq, Hr.
  destruct (P1 i p Hp) as (u1 & u2 & A1 & A2 & ->). destruct (P2 i q Hq) as (u2' & u3 & B2 & B3 & ->). destruct (P3 i r Hr) as (u1' & u3' & C1 & C3 & ->).
  assert (u2' = u2) by congruence. assert (u1' = u1) by congruence. assert (u3' = u3) by congruence. subst. unfold gray. cbn [sr sg sb].
  assert (K : Rabs (radiance u1 - radiance u3) <= Rabs (radiance u1 - radiance u2) + Rabs (radiance u2 - radiance u3)).
  { replace (@radiance NumR u1 - @radiance NumR u3) with ((@radiance NumR u1 - @radiance NumR u2) + (@radiance NumR u2 - @radiance NumR u3)) by ring. apply Rabs_triang. }
  split; [exact K|split; exact K].
Qed.
Print Assumptions C32_diff_triangle.

(** ** C27 - asked about a ray that does not start at the camera (to within 1e-12), the camera panics, and about no other ray *)
Theorem C27_foreign_rays : forall (c : @Pinhole NumR) (ray : RayR),
  pixel_from_ray c ray = Crash <-> / 10 ^ 12 < dist (origin ray) (view_point (ph_view c)).
Proof.
  intros c ray. unfold pixel_from_ray. cbv zeta.
  assert (K : @fltb NumR (TINY24 (N := NumR)) (vlen2 (vsub (origin ray) (view_point (ph_view c)))) = true <-> / 10 ^ 12 < dist (origin ray) (view_point (ph_view c))).
  { unfold dist, norm. change (@vlen2 NumR (@vsub NumR (origin ray) (view_point (ph_view c)))) with (dot (minus (origin ray) (view_point (ph_view c))) (minus (origin ray) (view_point (ph_view c)))).
    set (x := dot _ _). assert (X : 0 <= x) by (unfold x; apply dot_self_nonneg). clearbody x.
    assert (T : @TINY24 NumR = (/ 10 ^ 12) * (/ 10 ^ 12)). { unfold TINY24. cbn [flit NumR]. rewrite <- Rinv_mult. unfold Rdiv. rewrite Rmult_1_l. f_equal. change 10 with (IZR 10). rewrite pow_IZR, <- mult_IZR. reflexivity. }
    assert (P : 0 < / 10 ^ 12) by (apply Rinv_0_lt_compat, pow_lt; lra). set (e := / 10 ^ 12) in *. clearbody e. pose proof (sqrt_pos x) as S0. pose proof (sqrt_sqrt x X) as S1.
    split.
    - intros H. apply Rltb_true in H. rewrite T in H. set (q := sqrt x) in *. clearbody q. nra.
    - intros H. apply Rltb_is_true. rewrite T. set (q := sqrt x) in *. clearbody q. rewrite <- S1. nra. }
  destruct (@fltb NumR (TINY24 (N := NumR)) (vlen2 (vsub (origin ray) (view_point (ph_view c))))).
  - split; [intros _; apply K; reflexivity|reflexivity].
  - split; [|intros H; apply K in H; discriminate H].
    intros H. exfalso. revert H. repeat match goal with |- context [if ?b then _ else _] => destruct b end; discriminate.
Qed.
Print Assumptions C27_foreign_rays.
(** a ray that leaves the camera backwards is given the pixel of the opposite ray, with full weight *)
Theorem C27_backward_refuted : forall (c : @Pinhole NumR) (p d : VecR), pixel_from_ray c (mkRay3D p (times (-1) d)) = pixel_from_ray c (mkRay3D p d).
Proof.
  intros c p d. unfold pixel_from_ray. cbn [origin direction]. cbv zeta.
  set (n := view_direction (ph_view c)).
  assert (KD : @vdot NumR n (times (-1) d) = - dot n d) by (clearbody n; clear; dvec; vunf; ring). rewrite KD.
  change (@vdot NumR n d) with (dot n d). set (k := dot n d).
  change (@fabs NumR) with Rabs. rewrite Rabs_Ropp. destruct (@fltb NumR (Rabs k) TINY12) eqn:Q; [reflexivity|].
  assert (KN : k <> 0). { intros ->. apply Rltb_false in Q. rewrite Rabs_R0 in Q. revert Q. apply Rlt_not_le. unfold TINY12. cbn [flit NumR]. apply Rdiv_lt_0_compat; [lra|apply IZR_lt; reflexivity]. }
  set (w := @vdot NumR (@vsub NumR _ p) n). clearbody w. change R in w. change (@fdiv NumR) with Rdiv.
  replace (@vscale NumR (times (-1) d) (w / - k)) with (@vscale NumR d (w / k)); [reflexivity|].
  destruct d as [x y z]. apply vec_ext; vunf; cbn [vx vy vz]; rsimp; field; exact KN.
Qed.
Print Assumptions C27_backward_refuted.
