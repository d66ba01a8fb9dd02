(** * Properties C52 and C58: where samples fall, and with which density *)
From Verif Require Import NumR Geometry Triangle Sphere Scene Samplers Primitives SpecGeom SpecOptics TriangleProofs MaterialProofs.
Open Scope R_scope.

(** ** specification *)
Definition draw (x : R) : Prop := 0 <= x < 1.
(** strictly inside the triangle a b c *)
Definition inside (a b c p : VecR) : Prop :=
  exists u v, 0 < u /\ 0 < v /\ u + v < 1 /\ p = plus (times (1 - u - v) a) (plus (times u b) (times v c)).
(** the unit direction d leads from p to a point of X *)
Definition aims (p d : VecR) (X : VecR -> Prop) : Prop := unit d /\ exists s, 0 < s /\ X (plus p (times s d)).
(** what get_perpendicular is for: a unit vector orthogonal to a unit vector *)
Definition perpendicular_to (n e : VecR) : Prop := unit e /\ dot e n = 0.

Lemma clamp_in (x lo hi : R) : lo <= hi -> lo <= @fclamp NumR x lo hi <= hi.
Proof. intros H. unfold fclamp. cbn [fltb NumR]. repeat rcase; lra. Qed.
Lemma clamp_same (x lo hi : R) : lo <= x <= hi -> @fclamp NumR x lo hi = x.
Proof. intros H. unfold fclamp. cbn [fltb NumR]. repeat rcase; lra. Qed.
Lemma frame_of (n e : VecR) : unit n -> perpendicular_to n e -> frame (cross e n) e n.
Proof.
  intros U [P Q]. unfold frame, unit in *. dvec. vunf.
  repeat split; try assumption; try (ring || (unfold Rsqr in *; nra)).
Qed.

(** ** C52: every sample is on its domain *)
(* a point of a triangle: strictly inside it, whatever the draws *)
Theorem C52_triangle : forall (rand1 rand2 : R) (a b c : VecR), inside a b c (@uniform_sample_triangle NumR rand1 rand2 a b c).
Proof.
  intros r1 r2 a b c. unfold uniform_sample_triangle. cbv zeta.
  pose proof (clamp_in r1 (1/100000000) (1/1 - 1/100000000) ltac:(lra)) as H1.
  pose proof (clamp_in r2 (1/100000000) (1/1 - 1/100000000) ltac:(lra)) as H2.
  change (@TINY8 NumR) with (1/100000000). change (@fsub NumR (@f1 NumR) (1/100000000)) with (1/1 - 1/100000000).
  set (q1 := @fclamp NumR r1 _ _) in *. set (q2 := @fclamp NumR r2 _ _) in *. clearbody q1 q2. change R in q1, q2.
  assert (S0 : 0 < sqrt q1) by (apply sqrt_lt_R0; lra).
  assert (S1 : sqrt q1 < 1) by (rewrite <- sqrt_1; apply sqrt_lt_1; lra).
  change (@fsqrt NumR q1) with (sqrt q1). set (q := sqrt q1) in *. clearbody q.
  exists (1 - q), (q2 * q). split; [lra|]. split; [nra|]. split; [nra|].
  dvec. apply vec_ext; vunf; field.
Qed.
Print Assumptions C52_triangle.

(* a point of a horizontal disc: within the radius, strictly if the radius is not zero *)
Theorem C52_disc : forall r theta radius : R, draw r -> exists x y : R,
  @uniform_sample_horizontal_disc NumR TrigR r theta radius = (x, y) /\ x * x + y * y <= radius * radius /\
  (radius <> 0 -> x * x + y * y < radius * radius).
Proof.
  intros r theta radius [H0 H1]. destruct (disc_value r theta radius H0) as (x & y & Q & S). exists x, y. split; [exact Q|]. rewrite S.
  assert (0 <= radius * radius) by apply Rle_0_sqr. split; [nra|]. intros H2. assert (0 < radius * radius) by (apply Rsqr_pos_lt; assumption). nra.
Qed.
Print Assumptions C52_disc.

(* a cosine-weighted direction, in any orthonormal frame: a unit vector strictly above the surface *)
Theorem C52_cosine_hemisphere : forall (r theta : R) (e1 e2 n : VecR), draw r -> frame e1 e2 n ->
  let l := @sample_cosine_weighted_horizontal_hemisphere NumR TrigR r theta in
  let d := @local_to_world NumR e1 e2 n vorigin (vx l) (vy l) (vz l) in
  unit l /\ unit d /\ 0 < dot d n.
Proof.
  intros r theta e1 e2 n [H0 H1] HF l d. destruct (cosine_hemisphere r theta ltac:(lra)) as (x & y & Q & S). unfold d, l. rewrite Q. cbn [vx vy vz pt].
  assert (Z : sqrt (1 - r) * sqrt (1 - r) = 1 - r) by (apply sqrt_sqrt; lra).
  assert (Zp : 0 < sqrt (1 - r)) by (apply sqrt_lt_R0; lra).
  split. { unfold unit. vunf. lra. }
  rewrite local_world. destruct (frame_combo e1 e2 n x y (sqrt (1 - r)) HF) as [K1 K2]. cbv zeta in *.
  replace (plus (@vorigin NumR) _) with (plus (times x e1) (plus (times y e2) (times (sqrt (1 - r)) n))) by (apply vec_ext; unfold vorigin; vunf; field).
  split; [unfold unit; rewrite K1; lra|]. rewrite dot_comm, K2. exact Zp.
Qed.
Print Assumptions C52_cosine_hemisphere.

(* a uniform direction of a hemisphere: a unit vector, not below the surface *)
Theorem C52_hemisphere : forall (rand1 rand2 : R) (e1 e2 n : VecR), draw rand1 -> frame e1 e2 n ->
  unit (@uniform_sample_hemisphere NumR TrigR rand1 rand2 e1 e2 n) /\ 0 <= dot (@uniform_sample_hemisphere NumR TrigR rand1 rand2 e1 e2 n) n.
Proof.
  intros r1 r2 e1 e2 n [H0 H1] HF. unfold uniform_sample_hemisphere. cbv zeta. rewrite local_world.
  change (@fsqrt NumR (@fsub NumR (@f1 NumR) (@fmul NumR r1 r1))) with (sqrt (1 / 1 - r1 * r1)).
  set (t := @fmul NumR (fmul f2 fpi) r2). clearbody t. change R in t.
  change (@fcos NumR TrigR t) with (cos t). change (@fsin NumR TrigR t) with (sin t).
  pose proof (sin2_cos2 t) as Q. unfold Rsqr in Q.
  assert (Z : sqrt (1 / 1 - r1 * r1) * sqrt (1 / 1 - r1 * r1) = 1 - r1 * r1) by (rewrite sqrt_sqrt; nra).
  set (q := sqrt _) in *. clearbody q.
  destruct (frame_combo e1 e2 n (cos t * q) (sin t * q) r1 HF) as [K1 K2]. cbv zeta in *.
  replace (plus (@vorigin NumR) _) with (plus (times (cos t * q) e1) (plus (times (sin t * q) e2) (times r1 n))) by (apply vec_ext; unfold vorigin; vunf; field).
  split; [unfold unit; rewrite K1|rewrite dot_comm, K2; exact H0].
  replace (cos t * q * (cos t * q) + sin t * q * (sin t * q) + r1 * r1) with ((sin t * sin t + cos t * cos t) * (q * q) + r1 * r1) by ring. rewrite Q, Z. ring.
Qed.
Print Assumptions C52_hemisphere.

(* a point of the unit sphere, whatever the draws *)
Theorem C52_sphere : forall rand1 rand2 : R, unit (@uniform_sample_sphere NumR TrigR rand1 rand2).
Proof.
  intros r1 r2. unfold uniform_sample_sphere. cbv zeta.
  pose proof (clamp_in r1 (1/10000000) (1/1 - 1/10000000) ltac:(lra)) as H1.
  change (@TINY7 NumR) with (1/10000000). change (@fsub NumR (@f1 NumR) (1/10000000)) with (1/1 - 1/10000000).
  set (q1 := @fclamp NumR r1 _ _) in *. set (q2 := @fclamp NumR r2 _ _) in *. clearbody q1 q2. change R in q1, q2.
  set (t := @fmul NumR (fmul f2 fpi) q2). clearbody t. change R in t. unfold unit. vunf.
  pose proof (sin2_cos2 t) as Q. unfold Rsqr in Q.
  set (z := 1 / 1 - 2 / 1 * q1). assert (Hz : z * z <= 1) by (unfold z; nra). clearbody z.
  assert (Z : sqrt (1 / 1 - z * z) * sqrt (1 / 1 - z * z) = 1 - z * z) by (rewrite sqrt_sqrt; nra).
  set (q := sqrt _) in *. clearbody q.
  replace (cos t * q * (cos t * q) + sin t * q * (sin t * q) + z * z) with ((sin t * sin t + cos t * cos t) * (q * q) + z * z) by ring. rewrite Q, Z. ring.
Qed.
Print Assumptions C52_sphere.

(* a point of a disc in space: in the plane of the disc and within its radius *)
Theorem C52_disc_in_space : forall (perpendicular : VecR -> VecR) (r theta radius : R) (centre n : VecR), draw r -> unit n -> perpendicular_to n (perpendicular n) ->
  let p := @uniform_sample_disc NumR TrigR perpendicular r theta radius centre n in
  dot (minus p centre) n = 0 /\ dist2 p centre <= radius * radius.
Proof.
  intros perp r theta radius centre n Hr Un Hp p. unfold p, uniform_sample_disc.
  destruct (C52_disc r theta radius Hr) as (x & y & Q & B & _). rewrite Q. cbv zeta. rewrite local_world.
  pose proof (frame_of n (perp n) Un Hp) as HF. rewrite vcross_cross. change (@f0 NumR) with (0 / 1).
  destruct (frame_combo _ _ _ x y 0 HF) as [K1 K2]. cbv zeta in *. set (w := plus (times x _) (plus (times y _) _)) in *.
  match goal with |- context [plus centre ?v] => replace v with w by (apply vec_ext; unfold w; vunf; field) end.
  unfold dist2. replace (minus (plus centre w) centre) with w by (clearbody w; clear; dvec; apply vec_ext; vunf; ring).
  rewrite K1. split; [rewrite dot_comm, K2; reflexivity|lra].
Qed.
Print Assumptions C52_disc_in_space.

(** directions towards a light *)
Lemma normalized_aims (p q : VecR) (X : VecR -> Prop) : X q -> q <> p -> aims p (vnormalized (minus q p)) X.
Proof.
  intros HX HN. assert (HZ : minus q p <> pt 0 0 0).
  { intros Z. apply HN. dvec. unfold minus, pt in Z. injection Z as Z1 Z2 Z3. cbn [vx vy vz] in *.
    apply vec_ext; cbn [vx vy vz]; clear - Z1 Z2 Z3; [clear Z2 Z3; lra|clear Z1 Z3; lra|clear Z1 Z2; lra]. }
  split; [apply normalized_unit, HZ|]. exists (norm (minus q p)). split; [apply norm_pos, HZ|].
  rewrite normalized_times by exact HZ. pose proof (norm_pos _ HZ) as HP. set (k := norm _) in *. clearbody k.
  replace (plus p _) with q; [exact HX|]. clear - HP. dvec. apply vec_ext; vunf; field; lra.
Qed.
Section Towards.
  Context {RG : Gen NumR} {O : @Geo NumR}.
  (* a triangle: the direction leads to a point strictly inside it, unless the point lit is itself inside the triangle *)
  Theorem C52_towards_triangle : forall (t : TriR) (g g' : G) (p d : VecR), ~ inside (ta t) (tb t) (tc t) p ->
    sample_direction (PTriangle t) g p = Ret (d, g') -> aims p d (inside (ta t) (tb t) (tc t)).
  Proof.
    intros t g g' p d HN H. unfold sample_direction, sample_triangle_surface in H. destruct (gen g) as [r1 g1]. destruct (gen g1) as [r2 g2]. cbn [obind] in H.
    injection H as H _. subst d. apply normalized_aims; [apply C52_triangle|]. intros Q. apply HN. rewrite <- Q. apply C52_triangle.
  Qed.
  (* a sphere: the direction leads to a point of the sphere of 0.99999 times its radius, hence through the inside of the sphere *)
  Theorem C52_towards_sphere : forall (s : @Sphere3D NumR) (g g' : G) (p d : VecR), 0 < @s_radius NumR s -> @s_radius NumR s <= dist p (s_centre s) ->
    sample_direction (PSphere s) g p = Ret (d, g') -> aims p d (fun q => dist q (s_centre s) = s_radius s * (1 - 1 / 100000)).
  Proof.
    intros s g g' p d HR HD H. unfold sample_direction, sample_sphere_surface in H. destruct (gen g) as [r1 g1]. destruct (gen g1) as [r2 g2]. cbn [obind] in H.
    pose proof (C52_sphere r1 r2) as U. set (w := uniform_sample_sphere r1 r2) in *. clearbody w. injection H as H _. subst d. destruct s as [c rad]. cbn [s_radius s_centre] in *. change R in rad.
    assert (K : forall k : R, 0 <= k -> norm (times k w) = k). { intros k Hk. rewrite norm_scale, Rabs_right by lra. unfold norm. rewrite U, sqrt_1. ring. }
    match goal with |- aims p (vnormalized (vsub ?q p)) _ => set (q0 := q); assert (Q : q0 = plus c (times (rad * (1 - 1 / 100000)) w)) end.
    { clear. unfold q0. dvec. apply vec_ext; vunf; field. }
    assert (Hq : dist q0 c = rad * (1 - 1 / 100000)).
    { unfold dist. rewrite Q. replace (minus _ c) with (times (rad * (1 - 1/100000)) w) by (clear; dvec; apply vec_ext; vunf; field). apply K. nra. }
    apply normalized_aims; [exact Hq|]. intros Z. rewrite <- Z in HD. rewrite Hq in HD. nra.
  Qed.
  (* a distant source: the direction is within half the source's angle of its axis *)
  Theorem C52_towards_source : forall (s : @DistantSource3D NumR) (g g' : G) (p d : VecR),
    (forall g, draw (fst (gen g))) -> (forall n e, unit n -> get_perpendicular n = Some e -> perpendicular_to n e) ->
    0 < @ds_angle NumR s < PI -> ds_direction s <> pt 0 0 0 ->
    sample_direction (PSource s) g p = Ret (d, g') -> unit d /\ cos (ds_angle s / 2) <= dot d (vnormalized (ds_direction s)).
  Proof.
    intros s g g' p d HG HP HA HD H. unfold sample_direction, sample_source_disc in H. pose proof (HG g) as D1. destruct (gen g) as [r g1]. destruct (gen g1) as [th g2]. cbn [fst] in D1.
    pose proof (normalized_unit _ HD) as Un. set (n := vnormalized (ds_direction s)) in *. clearbody n.
    destruct (get_perpendicular n) as [e|] eqn:Hg; [|discriminate]. cbn [obind] in H. injection H as H _. subst d.
    set (a := @ds_angle NumR s) in *. clearbody a. change R in a. clear HD s.
    change (@ftan NumR TrigR (@fdiv NumR a (@f2 NumR))) with (tan (a / (2 / 1))). replace (a / (2 / 1)) with (a / 2) by field.
    destruct (C52_disc_in_space (fun _ => e) r th (tan (a / 2)) (plus p n) n D1 Un (HP _ _ Un Hg)) as [K1 K2]. cbv zeta in *.
    change (vadd p n) with (plus p n). set (q := uniform_sample_disc _ _ _ _ _ _) in *. clearbody q. clear HP Hg e g g' g1 g2 HG r th D1.
    set (w := minus q (plus p n)) in *. unfold dist2 in K2. fold w in K2. change (vsub q p) with (minus q p).
    assert (Q : minus q p = plus n w) by (unfold w; clear; dvec; apply vec_ext; vunf; ring). rewrite Q. clearbody w. clear Q q.
    assert (Hc : 0 < cos (a / 2)) by (apply cos_gt_0; lra).
    assert (Hn : dot (plus n w) (plus n w) = 1 + dot w w). { rewrite dot_plus_l, !dot_plus_r, Un, K1, (dot_comm n w), K1. ring. }
    assert (Hw : 0 <= dot w w) by apply dot_nonneg.
    assert (HZ : plus n w <> pt 0 0 0). { intros Z. rewrite Z in Hn. unfold dot, pt in Hn. cbn [vx vy vz] in Hn. vunf; clear - Hn Hw. match goal with K : @eq _ ?a ?b |- _ => assert (@eq R a b) by exact K end. match goal with K : Rle ?a ?b |- _ => idtac end. lra. }
    split; [apply normalized_unit, HZ|]. rewrite normalized_times by exact HZ. rewrite dot_times_l, dot_plus_l, Un, K1.
    unfold norm. rewrite Hn. rewrite Rplus_0_r, Rmult_1_r.
    assert (T : 1 + tan (a / 2) * tan (a / 2) = / (cos (a / 2) * cos (a / 2))).
    { unfold tan. pose proof (sin2_cos2 (a / 2)) as S. unfold Rsqr in S. field_simplify; [|lra|lra]. f_equal. lra. }
    assert (B : sqrt (1 + dot w w) <= / cos (a / 2)).
    { rewrite <- (sqrt_square (/ cos (a / 2))) by (left; apply Rinv_0_lt_compat; lra). apply sqrt_le_1_alt. rewrite <- Rinv_mult. lra. }
    assert (P : 0 < sqrt (1 + dot w w)) by (apply sqrt_lt_R0; lra).
    rewrite <- (Rinv_inv (cos (a / 2))). apply Rinv_le_contravar; assumption.
  Qed.
End Towards.
Print Assumptions C52_towards_source.

(** ** C58: the law of the samples
    Each theorem describes the samples that fall in a region of a family that determines the law (sub-triangles sharing a vertex
    and a side; sectors; zones): they are exactly the draws of a rectangle, and the rectangle has the share of the region. *)
(** area of a triangle *)
Definition area_of (t : TriR) : R := norm (cross (minus (tb t) (ta t)) (minus (tc t) (ta t))) / 2.
Definition mix (k : R) (a b : VecR) : VecR := plus a (times k (minus b a)).
(** the triangle b, point at x on the side from b to a, point at x on the way from b to the point at y on the side from a to c *)
Definition subtriangle (a b c : VecR) (x y : R) : TriR := mkTri (N := NumR) b (mix x b a) (mix x b (mix y a c)).

Theorem C58_triangle : forall (rand1 rand2 x y : R) (a b c : VecR), area_of (mkTri (N := NumR) a b c) <> 0 ->
  1 / 100000000 <= rand1 <= 1 - 1 / 100000000 -> 1 / 100000000 <= rand2 <= 1 - 1 / 100000000 -> 0 <= x <= 1 -> 0 <= y <= 1 ->
  (on_triangle (subtriangle a b c x y) (@uniform_sample_triangle NumR rand1 rand2 a b c) <-> rand1 <= x ^ 2 /\ rand2 <= y) /\
  area_of (subtriangle a b c x y) = x ^ 2 * y * area_of (mkTri (N := NumR) a b c).
Proof.
  intros r1 r2 x y a b c HA H1 H2 Hx Hy. split.
  - unfold uniform_sample_triangle. cbv zeta.
    change (@TINY8 NumR) with (1/100000000). change (@fsub NumR (@f1 NumR) (1/100000000)) with (1/1 - 1/100000000).
    rewrite !clamp_same by lra. change (@fsqrt NumR r1) with (sqrt r1).
    assert (S0 : 0 < sqrt r1) by (apply sqrt_lt_R0; lra). assert (SS : sqrt r1 * sqrt r1 = r1) by (apply sqrt_sqrt; lra). set (q := sqrt r1) in *. clearbody q.
    match goal with |- on_triangle _ ?p <-> _ => replace p with (plus b (plus (times q (minus a b)) (times (r2 * q) (minus c a)))) by (clear; dvec; apply vec_ext; vunf; field) end.
    split.
    + intros (u & v & Hu & Hv & Huv & Q).
      assert (Q' : plus b (plus (times ((u + v) * x) (minus a b)) (times (v * x * y) (minus c a))) = plus b (plus (times q (minus a b)) (times (r2 * q) (minus c a)))).
      { etransitivity; [|symmetry; exact Q]. clear. unfold subtriangle, mix. dvec. apply vec_ext; vunf; ring. }
      clear Q. assert (NN : cross (minus b a) (minus c a) <> pt 0 0 0).
      { intros Z. apply HA. unfold area_of. cbn [ta tb tc]. rewrite Z. replace (norm (pt 0 0 0)) with 0; [field|]. symmetry. apply norm_zero. reflexivity. }
      (* coordinates in a basis are unique *)
      assert (I : forall s1 t1 s2 t2, plus b (plus (times s1 (minus a b)) (times t1 (minus c a))) = plus b (plus (times s2 (minus a b)) (times t2 (minus c a))) -> s1 = s2 /\ t1 = t2).
      { intros s1 t1 s2 t2 E.
        assert (E1 : times (s1 - s2) (cross (minus b a) (minus c a)) = pt 0 0 0 /\ times (t1 - t2) (cross (minus b a) (minus c a)) = pt 0 0 0).
        { clear - E. dvec. vunf. injection E as X Y Z. 
          assert (X' : (s1 - s2) * (a_x - b_x) = (t2 - t1) * (c_x - a_x)) by lra.
          assert (Y' : (s1 - s2) * (a_y - b_y) = (t2 - t1) * (c_y - a_y)) by lra.
          assert (Z' : (s1 - s2) * (a_z - b_z) = (t2 - t1) * (c_z - a_z)) by lra.
          clear X Y Z. split; apply vec_ext; cbn [vx vy vz];
          repeat match goal with |- @eq _ ?l ?r => change (@eq R l r) end.
          - replace ((s1 - s2) * ((b_y - a_y) * (c_z - a_z) - (b_z - a_z) * (c_y - a_y))) with (- ((s1 - s2) * (a_y - b_y)) * (c_z - a_z) + ((s1 - s2) * (a_z - b_z)) * (c_y - a_y)) by ring. rewrite Y', Z'. ring.
          - replace ((s1 - s2) * ((b_z - a_z) * (c_x - a_x) - (b_x - a_x) * (c_z - a_z))) with (- ((s1 - s2) * (a_z - b_z)) * (c_x - a_x) + ((s1 - s2) * (a_x - b_x)) * (c_z - a_z)) by ring. rewrite X', Z'. ring.
          - replace ((s1 - s2) * ((b_x - a_x) * (c_y - a_y) - (b_y - a_y) * (c_x - a_x))) with (- ((s1 - s2) * (a_x - b_x)) * (c_y - a_y) + ((s1 - s2) * (a_y - b_y)) * (c_x - a_x)) by ring. rewrite X', Y'. ring.
          - replace ((t1 - t2) * ((b_y - a_y) * (c_z - a_z) - (b_z - a_z) * (c_y - a_y))) with (- (b_y - a_y) * ((t2 - t1) * (c_z - a_z)) + (b_z - a_z) * ((t2 - t1) * (c_y - a_y))) by ring. rewrite <- Y', <- Z'. ring.
          - replace ((t1 - t2) * ((b_z - a_z) * (c_x - a_x) - (b_x - a_x) * (c_z - a_z))) with (- (b_z - a_z) * ((t2 - t1) * (c_x - a_x)) + (b_x - a_x) * ((t2 - t1) * (c_z - a_z))) by ring. rewrite <- X', <- Z'. ring.
          - replace ((t1 - t2) * ((b_x - a_x) * (c_y - a_y) - (b_y - a_y) * (c_x - a_x))) with (- (b_x - a_x) * ((t2 - t1) * (c_y - a_y)) + (b_y - a_y) * ((t2 - t1) * (c_x - a_x))) by ring. rewrite <- X', <- Y'. ring. }
        pose proof (norm_pos _ NN) as NP. destruct E1 as [E1 E2]. apply norm_zero in E1, E2. rewrite norm_scale in E1, E2.
        split; apply Rminus_diag_uniq; [destruct (Req_dec (s1 - s2) 0) as [|Nz]|destruct (Req_dec (t1 - t2) 0) as [|Nz]]; try assumption; pose proof (Rabs_pos_lt _ Nz); nra. }
      destruct (I _ _ _ _ Q') as [J1 J2]. clear I Q' NN HA.
      assert (q <= x) by nra. split; [nra|].
      assert (r2 * q <= y * q); [|nra]. rewrite <- J2, <- J1. assert (0 <= u * (x * y)) by (apply Rmult_le_pos; [lra|apply Rmult_le_pos; lra]). lra.
    + intros [K1 K2]. assert (Hq : q <= x) by nra. assert (0 < x) by lra.
      (* q = (u + v) x, r2 q = v x y *)
      assert (0 < y) by lra.
      exists ((1 - r2 / y) * (q / x)), (r2 / y * (q / x)).
      assert (A1 : 0 <= q / x <= 1). { split; [apply Rmult_le_pos; [lra|left; apply Rinv_0_lt_compat; lra]|]. apply Rmult_le_reg_r with x; [lra|]. unfold Rdiv. rewrite Rmult_assoc, Rinv_l by lra. lra. }
      assert (A2 : 0 <= r2 / y <= 1). { split; [apply Rmult_le_pos; [lra|left; apply Rinv_0_lt_compat; lra]|]. apply Rmult_le_reg_r with y; [lra|]. unfold Rdiv. rewrite Rmult_assoc, Rinv_l by lra. lra. }
      split; [nra|]. split; [nra|]. split; [nra|]. unfold subtriangle, mix. clear - H H0. dvec. apply vec_ext; vunf; field; lra.
  - unfold area_of. cbn [ta tb tc subtriangle].
    replace (cross (minus (mix x b a) b) (minus (mix x b (mix y a c)) b)) with (times (- (x ^ 2 * y)) (cross (minus b a) (minus c a))) by (clear; unfold mix; dvec; apply vec_ext; vunf; ring).
    assert (0 <= x ^ 2 * y) by (apply Rmult_le_pos; [apply pow_le; lra|lra]).
    rewrite norm_scale, Rabs_Ropp, Rabs_right by lra. field.
Qed.
Print Assumptions C58_triangle.

(** polar coordinates are unique *)
Lemma polar_angle (a b : R) : 0 <= a < 2 * PI -> 0 <= b < 2 * PI -> sin a = sin b -> cos a = cos b -> a = b.
Proof.
  intros Ha Hb Hs Hc. assert (C : cos (a - b) = 1). { rewrite cos_minus, Hs, Hc. pose proof (sin2_cos2 b) as H. unfold Rsqr in H. lra. }
  assert (S : sin ((a - b) / 2) = 0).
  { replace (a - b) with (2 * ((a - b) / 2)) in C by field. rewrite cos_2a_sin in C. nra. }
  destruct (sin_eq_0_0 _ S) as [k Hk]. pose proof PI_RGT_0 as HP.
  assert (K : (- 1 < k < 1)%Z). { split; apply lt_IZR; nra. }
  assert (k = 0)%Z by lia. subst k. lra.
Qed.
(* a disc: the samples of a sector are the draws of a rectangle of the same share *)
Theorem C58_disc : forall r theta radius x y : R, 0 < r < 1 -> draw theta -> 0 < radius -> 0 <= x <= 1 -> 0 <= y <= 1 ->
  ((exists rho phi, 0 <= rho <= x * radius /\ 0 <= phi <= 2 * PI * y /\ phi < 2 * PI /\
    @uniform_sample_horizontal_disc NumR TrigR r theta radius = (rho * sin phi, rho * cos phi)) <-> r <= x ^ 2 /\ theta <= y) /\
  (x * radius) ^ 2 / 2 * (2 * PI * y) = x ^ 2 * y * (PI * radius ^ 2).
Proof.
  intros r theta radius x y Hr Ht Hrad Hx Hy. split; [|field]. pose proof PI_RGT_0 as HP.
  unfold uniform_sample_horizontal_disc. cbv zeta. unfold f2. cbn [fmul fsqrt fsin fcos fpi flit NumR TrigR].
  replace (2 / 1 * PI * theta) with (2 * PI * theta) by field.
  assert (S0 : 0 < sqrt r) by (apply sqrt_lt_R0; lra). assert (SS : sqrt r * sqrt r = r) by (apply sqrt_sqrt; lra). set (q := sqrt r) in *. clearbody q.
  unfold draw in Ht. split.
  - intros (rho & phi & H1 & H2 & H3 & Q). injection Q as Q1 Q2.
    pose proof (sin2_cos2 phi) as A. pose proof (sin2_cos2 (2 * PI * theta)) as B. unfold Rsqr in *.
    set (s1 := sin phi) in *. set (c1 := cos phi) in *. set (s2 := sin (2 * PI * theta)) in *. set (c2 := cos (2 * PI * theta)) in *.
    assert (E : rho * rho = radius * q * (radius * q)).
    { transitivity ((rho * s1) * (rho * s1) + (rho * c1) * (rho * c1)).
      - transitivity (rho * rho * (s1 * s1 + c1 * c1)); [rewrite A; ring|ring].
      - rewrite <- Q1, <- Q2. transitivity (radius * q * (radius * q) * (s2 * s2 + c2 * c2)); [ring|rewrite B; ring]. }
    assert (Pq : 0 < radius * q) by nra. assert (E' : rho = radius * q) by (apply Rsqr_inj; unfold Rsqr; lra).
    assert (Hq : q <= x) by nra. split; [nra|]. rewrite E' in *. assert (2 * PI * theta = phi); [|nra].
    apply polar_angle; [nra|lra|change (s2 = s1); nra|change (c2 = c1); nra].
  - intros [H1 H2]. exists (radius * q), (2 * PI * theta). assert (q <= x) by nra. repeat split; nra.
Qed.
Print Assumptions C58_disc.
(* a cosine-weighted hemisphere: the samples within the angle t of the normal are the draws r <= sin^2 t, and the rate of growth of
   that share is the circumference of the ring at t times cos t / pi; the horizontal part is a sample of the unit disc *)
Theorem C58_cosine_hemisphere : forall (r theta t : R), draw r -> 0 <= t <= PI / 2 ->
  (cos t <= vz (@sample_cosine_weighted_horizontal_hemisphere NumR TrigR r theta) <-> r <= sin t ^ 2) /\
  derivable_pt_lim (fun t => sin t ^ 2) t (2 * PI * sin t * (cos t / PI)) /\
  (vx (@sample_cosine_weighted_horizontal_hemisphere NumR TrigR r theta), vy (@sample_cosine_weighted_horizontal_hemisphere NumR TrigR r theta)) =
  @uniform_sample_horizontal_disc NumR TrigR r theta 1.
Proof.
  intros r theta t [H0 H1] Ht. split; [|split].
  - destruct (cosine_hemisphere r theta ltac:(lra)) as (x & y & Q & S). rewrite Q. cbn [vz pt].
    assert (Hc : 0 <= cos t) by (apply cos_ge_0; lra). pose proof (sin2_cos2 t) as A. unfold Rsqr in A.
    assert (P : 0 <= sqrt (1 - r)) by apply sqrt_pos. assert (SS : sqrt (1 - r) * sqrt (1 - r) = 1 - r) by (apply sqrt_sqrt; lra).
    set (q := sqrt (1 - r)) in *. clearbody q. change (cos t <= q <-> r <= sin t ^ 2). split; intros H; [nra|]. apply Rsqr_incr_0_var; [unfold Rsqr; nra|assumption].
  - pose proof PI_RGT_0. replace (2 * PI * sin t * (cos t / PI)) with (INR 2 * sin t ^ (Nat.pred 2) * cos t) by (cbn [INR Nat.pred pow]; field; lra).
    apply (derivable_pt_lim_comp sin (fun x => x ^ 2)); [apply derivable_pt_lim_sin|apply derivable_pt_lim_pow].
  - unfold sample_cosine_weighted_horizontal_hemisphere. destruct (@uniform_sample_horizontal_disc NumR TrigR r theta f1) as [lx ly] eqn:Q. cbn [vx vy]. rewrite <- Q.
    change (@f1 NumR) with (1 / 1). replace (1 / 1) with 1 by field. reflexivity.
Qed.
Print Assumptions C58_cosine_hemisphere.
(* a uniform hemisphere: the samples whose cosine is at most h are the draws rand1 <= h, the zone's share of the hemisphere (its area
   is 2 pi h); the azimuth is 2 pi rand2 *)
Theorem C58_hemisphere : forall (rand1 rand2 h : R) (e1 e2 n : VecR), draw rand1 -> frame e1 e2 n ->
  let d := @uniform_sample_hemisphere NumR TrigR rand1 rand2 e1 e2 n in
  (dot d n <= h <-> rand1 <= h) /\ dot d e1 = sqrt (1 - rand1 ^ 2) * cos (2 * PI * rand2) /\ dot d e2 = sqrt (1 - rand1 ^ 2) * sin (2 * PI * rand2).
Proof.
  intros r1 r2 h e1 e2 n [H0 H1] HF d. unfold d, uniform_sample_hemisphere. cbv zeta. rewrite local_world.
  change (@fsqrt NumR (@fsub NumR (@f1 NumR) (@fmul NumR r1 r1))) with (sqrt (1 / 1 - r1 * r1)).
  replace (1 / 1 - r1 * r1) with (1 - r1 ^ 2) by field.
  change (@fmul NumR (@fmul NumR (@f2 NumR) (@fpi NumR TrigR)) r2) with (2 / 1 * PI * r2). replace (2 / 1 * PI * r2) with (2 * PI * r2) by field. set (t := 2 * PI * r2). clearbody t.
  change (@fcos NumR TrigR t) with (cos t). change (@fsin NumR TrigR t) with (sin t).
  set (q := sqrt _) in *. clearbody q. destruct HF as (A & B & C & D & E & G). unfold unit in *.
  replace (plus (@vorigin NumR) _) with (plus (times (cos t * q) e1) (plus (times (sin t * q) e2) (times r1 n))) by (apply vec_ext; unfold vorigin; vunf; field).
  assert (L : forall w, dot (plus (times (cos t * q) e1) (plus (times (sin t * q) e2) (times r1 n))) w = cos t * q * dot e1 w + sin t * q * dot e2 w + r1 * dot n w).
  { intros w. rewrite !dot_plus_l, !dot_times_l. ring. }
  rewrite !L, A, B, C, (dot_comm e2 e1), (dot_comm n e1), (dot_comm n e2), D, E, G.
  split; [|split]; try (split; intros; lra); ring.
Qed.
Print Assumptions C58_hemisphere.
(* the unit sphere: the samples of height at least h are the draws rand1 <= (1 - h) / 2, the zone's share of the sphere *)
Theorem C58_sphere : forall rand1 rand2 h : R, 1 / 10000000 <= rand1 <= 1 - 1 / 10000000 -> 1 / 10000000 <= rand2 <= 1 - 1 / 10000000 ->
  let p := @uniform_sample_sphere NumR TrigR rand1 rand2 in
  (h <= vz p <-> rand1 <= (1 - h) / 2) /\ vx p = sqrt (1 - vz p * vz p) * cos (2 * PI * rand2) /\ vy p = sqrt (1 - vz p * vz p) * sin (2 * PI * rand2).
Proof.
  intros r1 r2 h H1 H2 p. unfold p, uniform_sample_sphere. cbv zeta.
  change (@TINY7 NumR) with (1/10000000). change (@fsub NumR (@f1 NumR) (1/10000000)) with (1/1 - 1/10000000).
  rewrite !clamp_same by lra. cbn [vx vy vz]. rsimp. replace (2 / 1 * PI * r2) with (2 * PI * r2) by field. replace (1 / 1 - 2 / 1 * r1) with (1 - 2 * r1) by field. replace (1 / 1) with 1 by field.
  repeat split; try (intros; lra); ring.
Qed.
Print Assumptions C58_sphere.

(** ** the hypotheses can be met *)
(* a perpendicular for every unit vector *)
Definition perpendicular_of (n : VecR) : VecR :=
  if Req_EM_T (vx n * vx n + vy n * vy n) 0 then pt 1 0 0
  else times (/ sqrt (vx n * vx n + vy n * vy n)) (pt (- vy n) (vx n) 0).
Lemma perpendicular_of_ok (n : VecR) : unit n -> perpendicular_to n (perpendicular_of n).
Proof.
  intros U. unfold perpendicular_of, perpendicular_to, unit in *. destruct n as [x y z]. cbn [vx vy vz] in *. destruct (Req_EM_T _ _) as [Z|Z].
  - vunf. assert (x = 0) by nra. assert (y = 0) by nra. subst. split; ring.
  - assert (P : 0 < x * x + y * y) by (pose proof (Rle_0_sqr x); pose proof (Rle_0_sqr y); unfold Rsqr in *; lra).
    pose proof (sqrt_lt_R0 _ P) as S0. pose proof (sqrt_sqrt _ (Rlt_le _ _ P)) as SS. set (q := sqrt _) in *. vunf. split; [|field; lra].
    replace (/ q * - y * (/ q * - y) + / q * x * (/ q * x) + / q * 0 * (/ q * 0)) with ((x * x + y * y) / (q * q)) by (field; lra). rewrite SS. field. lra.
Qed.
Example C52_hyp : draw 0 /\ draw (1 / 2) /\ frame (pt 1 0 0) (pt 0 1 0) (pt 0 0 1) /\ ~ inside (pt 0 0 0) (pt 1 0 0) (pt 0 1 0) (pt 0 0 1) /\
  area_of (mkTri (N := NumR) (pt 0 0 0) (pt 1 0 0) (pt 0 1 0)) <> 0 /\ (forall n, unit n -> perpendicular_to n (perpendicular_of n)).
Proof.
  split; [split; lra|]. split; [split; lra|]. split; [unfold frame, unit; vunf; repeat split; ring|]. split; [|split; [|exact perpendicular_of_ok]].
  - intros (u & v & H1 & H2 & H3 & H). unfold plus, times, pt in H. injection H as _ _ H. cbn [vx vy vz] in H. clear - H. lra.
  - intros H. unfold area_of in H. assert (Z : norm (cross (minus (pt 1 0 0) (pt 0 0 0)) (minus (pt 0 1 0) (pt 0 0 0))) = 0) by (cbn [ta tb tc] in H; lra).
    apply norm_zero in Z. unfold cross, pt in Z. injection Z as _ _ Z. unfold minus, pt in Z. cbn [vx vy vz] in Z. clear - Z. lra.
Qed.
