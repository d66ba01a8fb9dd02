(** * Property C59: is a light sample weighted by the density with which it is drawn? *)
From Verif Require Import NumR Geometry Triangle Sphere Scene Samplers Primitives SpecGeom SpecOptics TriangleProofs SphereProofs MaterialProofs P_Samplers.
Open Scope R_scope.

(** ** specification
    The directions whose cosine with the unit axis n is between c1 and c2 cover a solid angle 2 pi (c2 - c1) (Archimedes).  A sampler
    whose reported density does not depend on the direction therefore claims to draw a direction of that ring with probability *)
Definition claimed (pdf c1 c2 : R) : R := pdf * (2 * PI * (c2 - c1)).
(** the generator yields these two numbers *)
Definition draws {RG : Gen NumR} (g : G) (x y : R) : Prop := fst (gen g) = x /\ fst (gen (snd (gen g))) = y.

(** ** distant sources: almost *)
(* The draws that fall within the angle of cosine c' of the axis are those with rand1 <= share, where the share differs from the
   claimed probability by a factor between 2 c^2 / (1 + c) and 1 (c: the cosine of half the angle of the source) *)
Theorem C59_source_partial : forall (RG : Gen NumR) (O : @Geo NumR) (s : @DistantSource3D NumR) (g g' : G) (p d : VecR) (r theta c' : R),
  draws g r theta -> draw r -> (forall n e, unit n -> get_perpendicular n = Some e -> perpendicular_to n e) ->
  0 < @ds_angle NumR s < PI -> ds_direction s <> pt 0 0 0 ->
  sample_direction (PSource s) g p = Ret (d, g') ->
  let c := cos (ds_angle s / 2) in
  c <= c' < 1 -> exists share : R,
    (c' <= dot d (vnormalized (ds_direction s)) <-> r <= share) /\
    2 * c ^ 2 / (1 + c) * claimed (@source_solid_angle_pdf NumR TrigR s) c' 1 <= share <= claimed (@source_solid_angle_pdf NumR TrigR s) c' 1.
Proof.
  intros RG O s g g' p d r theta c' [D1 D2] Hr HP HA HD H c Hc'.
  unfold sample_direction, sample_source_disc in H. destruct (gen g) as [r0 g1]. cbn [fst snd] in D1, D2. subst r0. destruct (gen g1) as [th g2]. cbn [fst snd] in D2. subst th.
  pose proof (normalized_unit _ HD) as Un. set (n := vnormalized (ds_direction s)) in *. clearbody n.
  destruct (get_perpendicular n) as [e|] eqn:Hg; [|discriminate]. cbn [obind] in H. injection H as H _. subst d.
  unfold source_solid_angle_pdf, uniform_cone_pdf, cos_half_alpha, claimed.
  set (a := @ds_angle NumR s) in *. clearbody a. change R in a. clear HD s.
  change (@ftan NumR TrigR (@fdiv NumR a (@f2 NumR))) with (tan (a / (2 / 1))). change (@fcos NumR TrigR (@fdiv NumR a (@f2 NumR))) with (cos (a / (2 / 1))).
  replace (a / (2 / 1)) with (a / 2) by field. fold c. rsimp.
  (* the sample is p + n + w, |w|^2 = tan^2 r *)
  unfold uniform_sample_disc. destruct (disc_value r theta (tan (a / 2)) ltac:(unfold draw in Hr; lra)) as (x & y & Q & S). rewrite Q. rewrite local_world.
  pose proof (frame_of n e Un (HP _ _ Un Hg)) as HF. rewrite vcross_cross. change (@f0 NumR) with (0 / 1).
  destruct (frame_combo _ _ _ x y 1 HF) as [K1 K2]. cbv zeta in *. set (w := plus (times x _) (plus (times y _) _)) in *.
  match goal with |- context [vsub ?q p] => replace (vsub q p) with w by (unfold w; clear; dvec; apply vec_ext; vunf; field) end.
  assert (Hc : 0 < c) by (apply cos_gt_0; lra). pose proof (COS_bound (a / 2)) as [_ Hc1]. fold c in Hc1.
  assert (T : tan (a / 2) * tan (a / 2) = (1 - c * c) / (c * c)).
  { unfold tan. fold c. pose proof (sin2_cos2 (a / 2)) as S2. unfold Rsqr in S2. fold c in S2. apply Rmult_eq_reg_r with (c * c); [|nra]. field_simplify; [|lra|lra]. nra. }
  assert (Hw : dot w w = 1 + r * ((1 - c * c) / (c * c))). { rewrite K1, S, T. ring. }
  assert (Hd0 : 0 < (1 - c * c) / (c * c)). { apply Rmult_lt_0_compat; [nra|apply Rinv_0_lt_compat; nra]. }
  unfold draw in Hr.
  assert (HZ : w <> pt 0 0 0). { intros Z. rewrite Z in Hw. replace (dot (pt 0 0 0) (pt 0 0 0)) with 0 in Hw by (clear; vunf; ring). nra. }
  rewrite normalized_times by exact HZ. rewrite dot_times_l, dot_comm, K2. unfold norm. rewrite Hw. rewrite Rmult_1_r.
  clearbody w. clear HF K1 K2 Q S HP Hg x y e HZ Hw w g g' g1 g2 T. pose proof PI_RGT_0 as HPi.
  set (m := 1 + r * ((1 - c * c) / (c * c))). assert (Hm : 1 <= m) by (unfold m; nra).
  assert (Hs : 0 < sqrt m) by (apply sqrt_lt_R0; lra). assert (Ss : sqrt m * sqrt m = m) by (apply sqrt_sqrt; lra).
  exists ((1 - c' * c') / (c' * c') * (c * c / (1 - c * c))).
  assert (D0 : 0 < c * c) by nra. assert (D1 : 0 < 1 - c * c) by nra. assert (D2 : 0 < c' * c') by nra.
  assert (I1 : / (c * c) * (c * c) = 1) by (apply Rinv_l; lra). assert (I2 : / (1 - c * c) * (1 - c * c) = 1) by (apply Rinv_l; lra). assert (I3 : / (c' * c') * (c' * c') = 1) by (apply Rinv_l; lra).
  assert (M : m = 1 + r * (1 - c * c) * / (c * c)) by (unfold m, Rdiv; ring).
  split.
  - assert (A : c' <= / sqrt m <-> m * (c' * c') <= 1).
    { split; intros L; [rewrite <- Ss at 1|rewrite <- Ss in L at 1].
      - assert (L' : c' * sqrt m <= 1). { apply Rmult_le_reg_r with (/ sqrt m); [apply Rinv_0_lt_compat; lra|]. rewrite Rmult_assoc, Rinv_r by lra. lra. }
        assert (0 <= c' * sqrt m) by nra. assert (Z : (c' * sqrt m) * (c' * sqrt m) <= 1) by (set (z := c' * sqrt m) in *; clearbody z; nra). lra.
      - apply Rmult_le_reg_r with (sqrt m); [lra|]. rewrite Rinv_l by lra. assert (Z : (c' * sqrt m) * (c' * sqrt m) <= 1) by lra. set (z := c' * sqrt m) in *. clearbody z. nra. }
    rewrite A, M. clear A M Ss Hs Hm m Hd0. 
    set (i1 := / (c * c)) in *. set (i2 := / (1 - c * c)) in *. set (i3 := / (c' * c')) in *.
    assert (P1 : 0 < i1) by (apply Rinv_0_lt_compat; lra). assert (P2 : 0 < i2) by (apply Rinv_0_lt_compat; lra). assert (P3 : 0 < i3) by (apply Rinv_0_lt_compat; lra).
    unfold Rdiv. fold i1 i2 i3. clearbody i1 i2 i3.
    (* r (1 - c^2) i1 <= i3 - 1 *)
    assert (B : (1 + r * (1 - c * c) * i1) * (c' * c') <= 1 <-> r * (1 - c * c) * i1 <= (1 - c' * c') * i3).
    { split; intros L.
      - apply Rmult_le_reg_r with (c' * c'); [lra|]. replace ((1 - c' * c') * i3 * (c' * c')) with ((1 - c' * c') * (i3 * (c' * c'))) by ring. rewrite I3. lra.
      - apply Rmult_le_compat_r with (r := c' * c') in L; [|lra]. replace ((1 - c' * c') * i3 * (c' * c')) with ((1 - c' * c') * (i3 * (c' * c'))) in L by ring. rewrite I3 in L. lra. }
    rewrite B. split; intros L.
    + apply Rmult_le_reg_r with ((1 - c * c) * i1); [nra|]. replace ((1 - c' * c') * i3 * (c * c * i2) * ((1 - c * c) * i1)) with ((1 - c' * c') * i3 * ((i1 * (c * c)) * (i2 * (1 - c * c)))) by ring. rewrite I1, I2. lra.
    + apply Rmult_le_compat_r with (r := (1 - c * c) * i1) in L; [|nra]. replace ((1 - c' * c') * i3 * (c * c * i2) * ((1 - c * c) * i1)) with ((1 - c' * c') * i3 * ((i1 * (c * c)) * (i2 * (1 - c * c)))) in L by ring. rewrite I1, I2 in L. lra.
  - clear M Ss Hs Hm m Hd0 I1 I2 I3.
    replace (1 / 1 / (2 / 1 * PI * (1 / 1 - c)) * (2 * PI * (1 - c'))) with ((1 - c') / (1 - c)) by (field; lra).
    assert (Q : (1 - c' * c') / (c' * c') * (c * c / (1 - c * c)) = (1 - c') / (1 - c) * ((1 + c') * (c * c) / ((1 + c) * (c' * c')))) by (field; repeat split; nra).
    rewrite Q. assert (Pk : 0 <= (1 - c') / (1 - c)) by (apply Rmult_le_pos; [lra|left; apply Rinv_0_lt_compat; lra]).
    set (k := (1 - c') / (1 - c)) in *. clearbody k.
    assert (B1 : (1 + c') * (c * c) / ((1 + c) * (c' * c')) <= 1).
    { apply Rmult_le_reg_r with ((1 + c) * (c' * c')); [nra|]. unfold Rdiv. rewrite Rmult_assoc, Rinv_l by nra. rewrite Rmult_1_r, Rmult_1_l.
      assert (0 <= (c' - c) * (c' + c + c * c')) by (apply Rmult_le_pos; nra). lra. }
    assert (B2 : 2 * c ^ 2 / (1 + c) <= (1 + c') * (c * c) / ((1 + c) * (c' * c'))).
    { replace ((1 + c') * (c * c) / ((1 + c) * (c' * c'))) with (c ^ 2 / (1 + c) * ((1 + c') / (c' * c'))) by (field; nra).
      replace (2 * c ^ 2 / (1 + c)) with (c ^ 2 / (1 + c) * 2) by (field; lra). apply Rmult_le_compat_l; [apply Rmult_le_pos; [nra|left; apply Rinv_0_lt_compat; lra]|].
      apply Rmult_le_reg_r with (c' * c'); [nra|]. unfold Rdiv. rewrite Rmult_assoc, Rinv_l by nra. nra. }
    split; nra.
Qed.
Print Assumptions C59_source_partial.
(* for the sun of a Perez sky (0.533 degrees, scene.rs:137) the two agree within a ten-thousandth *)
Theorem C59_sun : let c := cos (533 / 1000 * (PI / 180) / 2) in 9999 / 10000 <= 2 * c ^ 2 / (1 + c) <= 1.
Proof.
  intros c. pose proof PI_RGT_0 as HP. pose proof PI_4 as H4. set (x := 533 / 1000 * (PI / 180) / 2) in *.
  assert (Hx : 0 < x < 6 / 1000 /\ x < PI) by (unfold x; lra). destruct Hx as [Hx Hxp].
  assert (Hc : 1 - x * x / 2 <= c).
  { unfold c. replace (cos x) with (cos (2 * (x / 2))) by (f_equal; field). rewrite cos_2a_sin. pose proof (sin_lt_x (x / 2) ltac:(lra)) as L.
    assert (G : 0 <= sin (x / 2)) by (apply sin_ge_0; lra). set (s := sin (x / 2)) in *. clearbody s. nra. }
  pose proof (COS_bound x) as [_ U]. fold c in U. assert (B : 1 - 18 / 1000000 <= c) by nra. clearbody c x.
  split; apply Rmult_le_reg_r with (1 + c); try lra; unfold Rdiv; rewrite (Rmult_assoc (2 * c ^ 2)), Rinv_l by lra; nra.
Qed.
Print Assumptions C59_sun.

(** ** spherical lights: no *)
(* A unit sphere seen from twice its radius: 64% of the draws fall in a ring of directions to which the density attributes less than
   half of the probability.  (Every direction towards the sphere has a cosine of at least cos_max.) *)
Theorem C59_sphere_refuted : exists (s : @Sphere3D NumR) (p axis : VecR) (cos_max c : R),
  unit axis /\ 0 < cos_max < c /\ c < 1 /\
  (forall (RG : Gen NumR) (O : @Geo NumR) (g g' : G) (r1 r2 : R) (d : VecR), draws g r1 r2 -> sample_direction (PSphere s) g p = Ret (d, g') ->
    cos_max <= dot d axis /\ (5 / 100 <= r1 <= 69 / 100 -> dot d axis <= c)) /\
  (forall (O : @Geo NumR) (d : VecR) info, exists density, solid_angle_pdf (PSphere s) info (mkRay3D p d) = Ret density /\ claimed density cos_max c < 1 / 2) /\ 69 / 100 - 5 / 100 = 64 / 100.
Proof.
  set (q3 := sqrt (3 / 4)). assert (Q3 : q3 * q3 = 3 / 4) by (apply sqrt_sqrt; lra). assert (Q3p : 0 < q3) by (apply sqrt_lt_R0; lra).
  assert (Q3b : 866025 / 1000000 < q3 < 866026 / 1000000) by nra.
  exists (mkSphere (N := NumR) (pt 0 0 0) 1), (pt 0 0 2), (pt 0 0 (-1)), q3, (933 / 1000).
  split; [unfold unit; vunf; ring|]. split; [lra|]. split; [lra|]. split; [|split; [|lra]].
  - intros RG O g g' r1 r2 d [D1 D2] H. unfold sample_direction, sample_sphere_surface in H.
    destruct (gen g) as [x1 g1]. cbn [fst snd] in D1, D2. subst x1. destruct (gen g1) as [x2 g2]. cbn [fst snd] in D2. subst x2. cbn [obind] in H.
    pose proof (C52_sphere r1 r2) as U. assert (Z : vz (@uniform_sample_sphere NumR TrigR r1 r2) = 1 - 2 * @fclamp NumR r1 (1/10000000) (1/1 - 1/10000000)).
    { unfold uniform_sample_sphere. cbv zeta. cbn [vz]. change (@TINY7 NumR) with (1/10000000). rsimp. field. }
    pose proof (clamp_in r1 (1/10000000) (1/1 - 1/10000000) ltac:(lra)) as C.
    assert (Z' : 5/100 <= r1 <= 69/100 -> -38 / 100 <= vz (@uniform_sample_sphere NumR TrigR r1 r2) <= 9 / 10). { intros Hr. rewrite clamp_same in Z by lra. rewrite Z. lra. }
    set (w := @uniform_sample_sphere NumR TrigR r1 r2) in *. clearbody w. injection H as H _. subst d. clear Z C. destruct w as [wx wy wz]. cbn [vx vy vz] in *. change R in wx, wy, wz.
    set (k := 99999 / 100000). unfold unit in U. vunf. cbn [s_radius s_centre vx vy vz pt]. rsimp.
    match goal with |- context [vnormalized ?v] => idtac | _ => idtac end.
    set (n2 := k * k + 4 - 4 * (k * wz)).
    match goal with |- context [sqrt ?e] => replace e with n2 by (unfold n2, k; nra) end.
    assert (Hwz : wz * wz <= 1) by nra. assert (Hn : 99 / 100 <= n2) by (unfold n2, k; nra).
    assert (S0 : 0 < sqrt n2) by (apply sqrt_lt_R0; lra). assert (SS : sqrt n2 * sqrt n2 = n2) by (apply sqrt_sqrt; lra). set (sn := sqrt n2) in *. clearbody sn.
    match goal with |- _ <= ?e /\ _ => replace e with ((2 - k * wz) / sn) by (unfold k; field; lra) end.
    assert (Hk : -1 <= k * wz <= 1) by (unfold k; nra).
    split.
    + apply Rmult_le_reg_r with sn; [lra|]. unfold Rdiv. rewrite Rmult_assoc, Rinv_l, Rmult_1_r by lra.
      apply Rsqr_incr_0_var; [|lra]. unfold Rsqr. replace (q3 * sn * (q3 * sn)) with ((q3 * q3) * (sn * sn)) by ring. rewrite Q3, SS. unfold n2. set (m := k * wz) in *. clearbody m. pose proof (Rle_0_sqr (m - 1 / 2)) as SQ. unfold Rsqr in SQ. unfold k. lra.
    + intros Hr. specialize (Z' Hr). apply Rmult_le_reg_r with sn; [lra|]. unfold Rdiv at 1. rewrite Rmult_assoc, Rinv_l, Rmult_1_r by lra.
      apply Rsqr_incr_0_var; [|lra]. unfold Rsqr. replace (933 / 1000 * sn * (933 / 1000 * sn)) with (933 / 1000 * (933 / 1000) * (sn * sn)) by ring. rewrite SS. unfold n2.
      assert (Hm : - 38 / 100 <= k * wz <= 9 / 10) by (unfold k; lra). set (m := k * wz) in *. clearbody m. unfold k. nra.
  - intros O d info. eexists. split; [reflexivity|]. unfold claimed, sphere_solid_angle_pdf, uniform_cone_pdf. cbn [s_radius s_centre origin]. pose proof PI_RGT_0 as HP.
    match goal with |- context [fsqrt ?e] => replace (@fsqrt NumR e) with q3 end.
    + rsimp. replace (1 / 1 / (2 / 1 * PI * (1 / 1 - q3)) * (2 * PI * (933 / 1000 - q3))) with ((933 / 1000 - q3) / (1 - q3)) by (field; lra).
      apply Rmult_lt_reg_r with (1 - q3); [lra|]. unfold Rdiv at 1. rewrite Rmult_assoc, Rinv_l by lra. lra.
    + unfold q3. change (@fsqrt NumR) with sqrt. f_equal. symmetry. change (@f0 NumR) with (0/1). change (@f1 NumR) with (1/1).
      match goal with |- @fclamp NumR ?e _ _ = _ => replace e with (3 / 4) by (clear; vunf; field) end. apply clamp_same. lra.
Qed.
Print Assumptions C59_sphere_refuted.
(* what is claimed: the uniform density over the cone of directions towards the sphere (of total probability one) *)
Theorem C59_sphere_claim : forall (O : @Geo NumR) (s : @Sphere3D NumR) (p d : VecR) info, 0 < @s_radius NumR s ->
  let dist := norm (minus (@s_centre NumR s) p) in @s_radius NumR s < dist ->
  exists density, solid_angle_pdf (PSphere s) info (mkRay3D p d) = Ret density /\ claimed density (sqrt (1 - (@s_radius NumR s / dist) ^ 2)) 1 = 1.
Proof.
  intros O [ctr r] p d info HR dist HD. cbn [s_radius s_centre] in *. change R in r. eexists. split; [reflexivity|]. unfold claimed, sphere_solid_angle_pdf, uniform_cone_pdf. cbn [origin s_radius s_centre].
  assert (D2 : @vlen2 NumR (@vsub NumR ctr p) = dist * dist).
  { unfold dist, norm. symmetry. apply sqrt_sqrt. apply dot_self_nonneg. }
  assert (B : 0 < (r / dist) ^ 2 < 1).
  { assert (Q : 0 < r / dist < 1) by (split; [apply Rdiv_lt_0_compat; lra|apply Rmult_lt_reg_r with dist; [lra|]; unfold Rdiv; rewrite Rmult_assoc, Rinv_l by lra; lra]). nra. }
  match goal with |- context [@fsqrt NumR ?e] => replace (@fsqrt NumR e) with (sqrt (1 - (r / dist) ^ 2)) end.
  - pose proof PI_RGT_0 as HP. set (k := sqrt (1 - (r / dist) ^ 2)).
    assert (K : k < 1). { unfold k. apply Rsqr_incrst_0; [|apply sqrt_pos|lra]. unfold Rsqr. rewrite sqrt_sqrt by lra. lra. }
    clearbody k. rsimp. field. lra.
  - change (@fsqrt NumR) with sqrt. f_equal. symmetry. change (@f0 NumR) with (0/1). change (@f1 NumR) with (1/1).
    match goal with |- @fclamp NumR ?e _ _ = _ => replace e with (1 - (r / dist) ^ 2) end; [apply clamp_same; lra|].
    match goal with |- _ = ?e => change e with (1/1 - r * r / @vlen2 NumR (@vsub NumR ctr p)) end. rewrite D2. field. lra.
Qed.
Print Assumptions C59_sphere_claim.
(* the sun, a perpendicular of geometry, draws of one half *)
Example C59_hyp : let RG : Gen NumR := {| G := Datatypes.unit; gen := fun g => (1 / 2 : @F NumR, g) |} in
  let O : @Geo NumR := {| is_parallel := fun _ _ => false; is_same_direction := fun _ _ => false; get_perpendicular := fun v => Some (perpendicular_of v);
    prim_intersect := fun _ _ => None; triangle3d_area := fun _ => 1 : @F NumR |} in
  let s := mkSource (N := NumR) (pt 0 0 1) (533 / 1000 * (PI / 180)) in
  (forall n e, unit n -> get_perpendicular n = Some e -> perpendicular_to n e) /\ 0 < @ds_angle NumR s < PI /\ ds_direction s <> pt 0 0 0 /\ draws tt (1 / 2) (1 / 2) /\
  exists d, sample_direction (PSource s) tt (pt 0 0 0) = Ret (d, tt).
Proof.
  cbv zeta. split; [|split; [|split; [|split]]].
  - intros n e Hn H. cbn in H. injection H as <-. apply perpendicular_of_ok, Hn.
  - cbn [ds_angle]. pose proof PI_RGT_0. lra.
  - intros H. cbn [ds_direction] in H. unfold pt in H. injection H as H. clear - H. lra.
  - split; reflexivity.
  - unfold sample_direction, sample_source_disc. cbn [gen get_perpendicular obind ds_direction ds_angle]. eexists. reflexivity.
Qed.
