(** * Proofs about ray/triangle intersection, areas, bounds (real arithmetic) *)
From Verif Require Import NumR Geometry Triangle SpecGeom.
Open Scope R_scope.

Lemma vec_ext (a b : VecR) : @eq R (vx a) (vx b) -> @eq R (vy a) (vy b) -> @eq R (vz a) (vz b) -> a = b.
Proof. destruct a, b; cbn; intros -> -> ->; reflexivity. Qed.

Ltac dvec := repeat match goal with
  | t : @Triangle NumR |- _ => let a := fresh "A" in let b := fresh "B" in let c := fresh "C" in destruct t as [a b c]
  | r : @Ray3D NumR |- _ => let o := fresh "o" in let d := fresh "d" in destruct r as [o d]
  | b : @BBox NumR |- _ => let o := fresh "lo" in let d := fresh "hi" in destruct b as [o d]
  | v : @Vec NumR |- _ => let x := fresh v "_x" in let y := fresh v "_y" in let z := fresh v "_z" in destruct v as [x y z] end.
Ltac vunf :=
  unfold along, bary, on_triangle, volume, in_box, translate, project, dist2, norm, vnormalized, vlen, vdivs, vcross, vdot, vscale, vlen2, vadd, vsub in *;
  unfold vlen2, dot, cross, plus, minus, times, pt in *;
  cbn [vx vy vz ta tb tc origin direction bmin bmax] in *; rsimp.

(** *** the model's vector helpers are the plain formulas *)
Lemma vdot_dot a b : @vdot NumR a b = dot a b. Proof. reflexivity. Qed.
Lemma vcross_cross a b : @vcross NumR a b = cross a b. Proof. reflexivity. Qed.
Lemma vsub_minus a b : @vsub NumR a b = minus a b. Proof. reflexivity. Qed.
Lemma vadd_plus a b : @vadd NumR a b = plus a b. Proof. reflexivity. Qed.
Lemma vscale_times a k : @vscale NumR a k = times k a.
Proof. apply vec_ext; vunf; ring. Qed.
Lemma project_along r s : @project NumR r s = along r s.
Proof. unfold project, along. rewrite vscale_times. reflexivity. Qed.
Lemma vlen2_dot a : @vlen2 NumR a = dot a a. Proof. reflexivity. Qed.
Lemma vlen_norm a : @vlen NumR a = norm a. Proof. reflexivity. Qed.

Lemma EPS_pos : 0 < @EPS NumR.
Proof. unfold EPS. rsimp. apply Rdiv_lt_0_compat; [lra|apply IZR_lt; reflexivity]. Qed.
Lemma EPS_val : @EPS NumR = epsilon.
Proof.
  unfold EPS, epsilon. rsimp. change (Z.pos (2 ^ 52)) with (2 ^ 52)%Z. rewrite (pow_IZR 2 52). unfold Rdiv. rewrite Rmult_1_l. reflexivity.
Qed.

Lemma Rabs_small_false x : Rltb (Rabs x) (1 / 100000) = false -> x <> 0.
Proof. rewrite Rltb_false. intros H E. rewrite E, Rabs_R0 in H. lra. Qed.

(** *** soundness *)
Lemma bary_sound ray t p u v : @baricentric_coordinates NumR ray t = Some (p, u, v) ->
  exists s, 1 / 100000 < s /\ p = along ray s /\ p = bary t u v /\ 1 / 100000 <= Rabs (volume ray t) /\
            - epsilon <= u /\ u <= 1 + epsilon /\ - epsilon <= v /\ u + v <= 1 + epsilon.
Proof.
  unfold baricentric_coordinates. cbv zeta.
  set (a := vdot (vsub (tb t) (ta t)) (vcross (direction ray) (vsub (tc t) (ta t)))).
  assert (Ha : a = volume ray t) by reflexivity.
  destruct (fltb (fabs a) TINY5) eqn:T; [discriminate|].
  set (u' := fmul (fdiv f1 a) (vdot (vsub (origin ray) (ta t)) (vcross (direction ray) (vsub (tc t) (ta t))))).
  destruct (fleb (fneg EPS) u') eqn:U1; cbn [andb negb]; [|discriminate].
  destruct (fleb u' (fadd f1 EPS)) eqn:U2; cbn [andb negb]; [|discriminate].
  set (q := vcross (vsub (origin ray) (ta t)) (vsub (tb t) (ta t))).
  set (v' := fmul (fdiv f1 a) (vdot (direction ray) q)).
  destruct (fltb (fadd f1 EPS) (fadd u' v')) eqn:V1; cbn [orb]; [discriminate|].
  destruct (fltb v' (fneg EPS)) eqn:V2; [discriminate|].
  set (t' := fmul (fdiv f1 a) (vdot (vsub (tc t) (ta t)) q)).
  destruct (fltb TINY5 t') eqn:T'; [|discriminate].
  intros H. injection H as <- <- <-. exists t'.
  unfold TINY5 in *. rsimp.
  pose proof (Rabs_small_false _ T) as Ha0.
  rewrite Rltb_false in T. rewrite Rleb_true in U1, U2. rewrite Rltb_false in V1, V2. rewrite Rltb_true in T'.
  split; [assumption|]. rewrite project_along. split; [reflexivity|]. split.
  { unfold u', v', t', q. rewrite Ha in *. clear - Ha0. dvec. apply vec_ext; vunf; field; assumption. }
  rewrite <- Ha. rewrite EPS_val in *. replace (1/1) with 1 in * by lra. tauto.
Qed.

(** *** completeness *)
Lemma Rltb_is_false x y : y <= x -> Rltb x y = false. Proof. apply Rltb_false. Qed.
Lemma Rltb_is_true x y : x < y -> Rltb x y = true. Proof. apply Rltb_true. Qed.
Lemma Rleb_is_true x y : x <= y -> Rleb x y = true. Proof. apply Rleb_true. Qed.

Lemma bary_complete_gen ray t s u v :
  along ray s = bary t u v -> 1 / 100000 <= Rabs (volume ray t) -> 1 / 100000 < s ->
  - epsilon <= u -> u <= 1 + epsilon -> - epsilon <= v -> u + v <= 1 + epsilon ->
  @baricentric_coordinates NumR ray t = Some (along ray s, u, v).
Proof.
  intros E HV Hs H1 H2 H3 H4. unfold baricentric_coordinates. cbv zeta.
  set (a := vdot (vsub (tb t) (ta t)) (vcross (direction ray) (vsub (tc t) (ta t)))).
  assert (Ha : a = volume ray t) by reflexivity.
  assert (Ha0 : volume ray t <> 0) by (intros D; rewrite D, Rabs_R0 in HV; lra).
  assert (Eu : fmul (fdiv f1 a) (vdot (vsub (origin ray) (ta t)) (vcross (direction ray) (vsub (tc t) (ta t)))) = u).
  { rewrite Ha. clear Ha a HV Hs H1 H2 H3 H4.
    pose proof (f_equal vx E) as X; pose proof (f_equal vy E) as Y; pose proof (f_equal vz E) as Z.
    clear E. dvec. vunf.
    assert (X' : o_x = (1 - u - v) * A_x + (u * B_x + v * C_x) - s * d_x) by lra.
    assert (Y' : o_y = (1 - u - v) * A_y + (u * B_y + v * C_y) - s * d_y) by lra.
    assert (Z' : o_z = (1 - u - v) * A_z + (u * B_z + v * C_z) - s * d_z) by lra.
    rewrite X', Y', Z'. field. assumption. }
  assert (Ev : fmul (fdiv f1 a) (vdot (direction ray) (vcross (vsub (origin ray) (ta t)) (vsub (tb t) (ta t)))) = v).
  { rewrite Ha. clear Ha a HV Hs H1 H2 H3 H4 Eu.
    pose proof (f_equal vx E) as X; pose proof (f_equal vy E) as Y; pose proof (f_equal vz E) as Z.
    clear E. dvec. vunf.
    assert (X' : o_x = (1 - u - v) * A_x + (u * B_x + v * C_x) - s * d_x) by lra.
    assert (Y' : o_y = (1 - u - v) * A_y + (u * B_y + v * C_y) - s * d_y) by lra.
    assert (Z' : o_z = (1 - u - v) * A_z + (u * B_z + v * C_z) - s * d_z) by lra.
    rewrite X', Y', Z'. field. assumption. }
  assert (Et : fmul (fdiv f1 a) (vdot (vsub (tc t) (ta t)) (vcross (vsub (origin ray) (ta t)) (vsub (tb t) (ta t)))) = s).
  { rewrite Ha. clear Ha a HV Hs H1 H2 H3 H4 Eu Ev.
    pose proof (f_equal vx E) as X; pose proof (f_equal vy E) as Y; pose proof (f_equal vz E) as Z.
    clear E. dvec. vunf.
    assert (X' : o_x = (1 - u - v) * A_x + (u * B_x + v * C_x) - s * d_x) by lra.
    assert (Y' : o_y = (1 - u - v) * A_y + (u * B_y + v * C_y) - s * d_y) by lra.
    assert (Z' : o_z = (1 - u - v) * A_z + (u * B_z + v * C_z) - s * d_z) by lra.
    rewrite X', Y', Z'. field. assumption. }
  rewrite Eu, Ev, Et. rewrite project_along. clearbody a. unfold TINY5. rewrite !EPS_val. rsimp. rewrite Ha.
  replace (1/1) with 1 by lra.
  rewrite (Rltb_is_false (Rabs _)) by assumption.
  rewrite (Rleb_is_true (- epsilon) u) by assumption.
  rewrite (Rleb_is_true u) by assumption. cbn [andb negb].
  rewrite (Rltb_is_false (1 + epsilon)) by assumption.
  rewrite (Rltb_is_false v) by assumption. cbn [orb].
  rewrite Rltb_is_true by assumption. reflexivity.
Qed.

(** *** bounds *)
Lemma fminb_le a b : @fminb NumR a b <= a /\ @fminb NumR a b <= b.
Proof. unfold fminb. rsimp. rcase; lra. Qed.
Lemma fmaxb_ge a b : a <= @fmaxb NumR a b /\ b <= @fmaxb NumR a b.
Proof. unfold fmaxb. rsimp. rcase; lra. Qed.
Lemma fminb_glb a b x : x <= a -> x <= b -> x <= @fminb NumR a b.
Proof. unfold fminb. rsimp. rcase; lra. Qed.
Lemma fmaxb_lub a b x : a <= x -> b <= x -> @fmaxb NumR a b <= x.
Proof. unfold fmaxb. rsimp. rcase; lra. Qed.

Lemma in_box_union_l a b p : in_box a p -> in_box (box_union a b) p.
Proof.
  unfold in_box, box_union, vmin, vmax. cbn [bmin bmax vx vy vz]. intros (H1 & H2 & H3).
  pose proof (fminb_le (vx (bmin a)) (vx (bmin b))). pose proof (fmaxb_ge (vx (bmax a)) (vx (bmax b))).
  pose proof (fminb_le (vy (bmin a)) (vy (bmin b))). pose proof (fmaxb_ge (vy (bmax a)) (vy (bmax b))).
  pose proof (fminb_le (vz (bmin a)) (vz (bmin b))). pose proof (fmaxb_ge (vz (bmax a)) (vz (bmax b))).
  rsimp. lra.
Qed.
Lemma in_box_union_r a b p : in_box b p -> in_box (box_union a b) p.
Proof.
  unfold in_box, box_union, vmin, vmax. cbn [bmin bmax vx vy vz]. intros (H1 & H2 & H3).
  pose proof (fminb_le (vx (bmin a)) (vx (bmin b))). pose proof (fmaxb_ge (vx (bmax a)) (vx (bmax b))).
  pose proof (fminb_le (vy (bmin a)) (vy (bmin b))). pose proof (fmaxb_ge (vy (bmax a)) (vy (bmax b))).
  pose proof (fminb_le (vz (bmin a)) (vz (bmin b))). pose proof (fmaxb_ge (vz (bmax a)) (vz (bmax b))).
  rsimp. lra.
Qed.
Lemma union_point_as_union (a : BoxR) p : box_union_point a p = box_union a (box_point p).
Proof. reflexivity. Qed.
Lemma in_box_point (p : VecR) : in_box (box_point p) p.
Proof. unfold in_box, box_point. cbn. lra. Qed.

Lemma world_bounds_vertices t : in_box (world_bounds t) (ta t) /\ in_box (world_bounds t) (tb t) /\ in_box (world_bounds t) (tc t).
Proof.
  unfold world_bounds. rewrite !union_point_as_union. repeat split; try (apply in_box_union_r, in_box_point).
  all: try (apply in_box_union_l, in_box_union_l, in_box_point); try (apply in_box_union_l, in_box_union_r, in_box_point).
Qed.

Lemma world_bounds_tight t b :
  in_box b (ta t) -> in_box b (tb t) -> in_box b (tc t) ->
  forall p, in_box (world_bounds t) p -> in_box b p.
Proof.
  intros HA HB HC p HP. unfold world_bounds, box_union_point, box_point, vmin, vmax, in_box in *.
  cbn [bmin bmax vx vy vz] in *.
  assert (G : forall lo hi a b c x : R, lo <= a <= hi -> lo <= b <= hi -> lo <= c <= hi ->
     @fminb NumR (@fminb NumR a b) c <= x <= @fmaxb NumR (@fmaxb NumR a b) c -> lo <= x <= hi).
  { intros lo' hi' a' b' c' x' [] [] [] []. split.
    - eapply Rle_trans; [|eassumption]. repeat apply fminb_glb; assumption.
    - eapply Rle_trans; [eassumption|]. repeat apply fmaxb_lub; assumption. }
  destruct HA as (A1 & A2 & A3), HB as (B1 & B2 & B3), HC as (C1 & C2 & C3), HP as (P1 & P2 & P3).
  split; [exact (G _ _ _ _ _ _ A1 B1 C1 P1)|]. split; [exact (G _ _ _ _ _ _ A2 B2 C2 P2)|exact (G _ _ _ _ _ _ A3 B3 C3 P3)].
Qed.

Lemma bary_in_box b t u v : in_box b (ta t) -> in_box b (tb t) -> in_box b (tc t) ->
  0 <= u -> 0 <= v -> u + v <= 1 -> in_box b (bary t u v).
Proof.
  intros HA HB HC Hu Hv Huv. unfold in_box in *. dvec. vunf.
  assert (G : forall lo hi a b c : R, lo <= a <= hi -> lo <= b <= hi -> lo <= c <= hi ->
              lo <= (1 - u - v) * a + (u * b + v * c) <= hi).
  { intros lo' hi' a b c [] [] []. split; nra. }
  split; [|split]; apply G; tauto.
Qed.

Lemma on_triangle_in_bounds t p : on_triangle t p -> in_box (world_bounds t) p.
Proof.
  intros (u & v & Hu & Hv & Huv & ->). destruct (world_bounds_vertices t) as (H1 & H2 & H3).
  apply bary_in_box; assumption.
Qed.

(** *** area: Heron's formula *)
Lemma side_len_norm p q : @side_len NumR p q = norm (minus q p).
Proof. unfold side_len, sq. dvec. vunf. f_equal. Qed.

Lemma heron (x y z X Y Z : R) : x * x = X -> y * y = Y -> z * z = Z ->
  (x + y + z) * ((x + y + z) / 2 - z) * ((x + y + z) / 2 - y) * ((x + y + z) / 2 - x) / 2 =
  (2 * X * Y + 2 * Y * Z + 2 * Z * X - X * X - Y * Y - Z * Z) / 16.
Proof. intros <- <- <-. field. Qed.

Lemma dot_nonneg (a : VecR) : 0 <= dot a a.
Proof. dvec. vunf. nra. Qed.
Lemma norm_sq (a : VecR) : norm a * norm a = dot a a.
Proof. unfold norm. apply sqrt_sqrt, dot_nonneg. Qed.
Lemma norm_nonneg (a : VecR) : 0 <= norm a.
Proof. apply sqrt_pos. Qed.

Lemma area_value t :
  @triangle_area NumR t = norm (cross (minus (tb t) (ta t)) (minus (tc t) (ta t))) / 2.
Proof.
  unfold triangle_area. cbv zeta. rewrite !side_len_norm. rsimp.
  replace (2/1) with 2 by lra.
  set (z := norm (minus (tb t) (ta t))). set (y := norm (minus (tc t) (tb t))). set (x := norm (minus (ta t) (tc t))).
  assert (Ex : x * x = dot (minus (ta t) (tc t)) (minus (ta t) (tc t))) by apply norm_sq.
  assert (Ey : y * y = dot (minus (tc t) (tb t)) (minus (tc t) (tb t))) by apply norm_sq.
  assert (Ez : z * z = dot (minus (tb t) (ta t)) (minus (tb t) (ta t))) by apply norm_sq.
  clearbody x y z. rewrite (heron x y z _ _ _ Ex Ey Ez).
  set (c := cross _ _).
  replace (_ / 16) with ((norm c / 2) * (norm c / 2)).
  - apply sqrt_square. pose proof (norm_nonneg c). lra.
  - replace (norm c / 2 * (norm c / 2)) with (norm c * norm c / 4) by field. rewrite norm_sq. unfold c.
    clear. dvec. vunf. field.
Qed.

Lemma norm_scale k (a : VecR) : norm (times k a) = Rabs k * norm a.
Proof.
  unfold norm. replace (dot (times k a) (times k a)) with (Rsqr k * dot a a) by (dvec; vunf; unfold Rsqr; ring).
  rewrite sqrt_mult; [|apply Rle_0_sqr|apply dot_nonneg]. rewrite sqrt_Rsqr_abs. reflexivity.
Qed.
Lemma norm_zero (a : VecR) : norm a = 0 <-> a = pt 0 0 0.
Proof.
  split.
  - intros H. apply sqrt_eq_0 in H; [|apply dot_nonneg]. dvec. vunf. f_equal; nra.
  - intros ->. unfold norm. vunf. replace (0 * 0 + 0 * 0 + 0 * 0) with 0 by ring. apply sqrt_0.
Qed.

Lemma area_swap a b c : @triangle_area NumR (mkTri b a c) = triangle_area (mkTri a b c) /\
                        @triangle_area NumR (mkTri b c a) = triangle_area (mkTri a b c).
Proof.
  rewrite !area_value. cbn [ta tb tc]. split; f_equal.
  - replace (cross (minus a b) (minus c b)) with (times (-1) (cross (minus b a) (minus c a))).
    + rewrite norm_scale. rewrite Rabs_left by lra. rsimp. ring.
    + dvec. apply vec_ext; vunf; ring.
  - f_equal. dvec. apply vec_ext; vunf; ring.
Qed.

Lemma area_translate d t : @triangle_area NumR (translate d t) = triangle_area t.
Proof. rewrite !area_value. f_equal. f_equal. dvec. apply vec_ext; vunf; ring. Qed.

Lemma area_zero t : @triangle_area NumR t = 0 <-> cross (minus (tb t) (ta t)) (minus (tc t) (ta t)) = pt 0 0 0.
Proof. rewrite area_value. rewrite <- norm_zero. rsimp. split; intros; lra. Qed.

(** *** normals *)
Lemma norm_pos (a : VecR) : a <> pt 0 0 0 -> 0 < norm a.
Proof. intros H. destruct (Rle_lt_or_eq_dec 0 (norm a) (norm_nonneg a)) as [|E]; [assumption|]. symmetry in E. apply norm_zero in E. congruence. Qed.
Lemma norm_pos_nz (a : VecR) : 0 < norm a -> a <> pt 0 0 0.
Proof. intros H E. assert (norm a = 0) by (apply norm_zero; assumption). lra. Qed.

Lemma normalized_times (a : VecR) : a <> pt 0 0 0 -> vnormalized a = times (/ norm a) a.
Proof. intros H. unfold vnormalized. rewrite vlen_norm. apply norm_pos in H. apply vec_ext; unfold vdivs, times, pt; cbn [vx vy vz]; rsimp; field; lra. Qed.
Lemma normalized_unit (a : VecR) : a <> pt 0 0 0 -> unit (vnormalized a).
Proof.
  intros H. rewrite normalized_times by assumption. apply norm_pos in H. unfold unit.
  replace (dot (times (/ norm a) a) (times (/ norm a) a)) with (/ norm a * / norm a * dot a a) by (dvec; vunf; ring).
  rewrite <- norm_sq. field. lra.
Qed.
Lemma normalized_scale_pos (a : VecR) k : 0 < k -> vnormalized (times k a) = vnormalized a.
Proof.
  intros Hk. unfold vnormalized. rewrite (vlen_norm (times k a)), (vlen_norm a), norm_scale, Rabs_pos_eq by lra.
  destruct (Req_dec (norm a) 0) as [E|E].
  - apply norm_zero in E. subst a. apply vec_ext; unfold vdivs, times, pt; cbn [vx vy vz]; rsimp; unfold Rdiv; ring.
  - set (m := norm a) in *. clearbody m. dvec. apply vec_ext; unfold vdivs, times, pt; cbn [vx vy vz]; rsimp; field; lra.
Qed.
Lemma normalized_of_unit (a : VecR) : unit a -> vnormalized a = a.
Proof.
  intros H. unfold vnormalized. rewrite vlen_norm. unfold norm. rewrite H, sqrt_1.
  dvec. apply vec_ext; unfold vdivs; cbn [vx vy vz]; rsimp; field.
Qed.

(** *** C14 *)
Definition oriented (g : @IntersectionInfo NumR) (n : VecR) : VecR :=
  match i_side g with Back => times (-1) n | _ => n end.

Lemma interpolate_normal_value g n0 n1 n2 :
  i_normal (interpolate_normal g (n0, n1, n2)) =
  oriented g (vnormalized (plus (plus (times (i_u g) n0) (times (i_v g) n1)) (times (1 - i_u g - i_v g) n2))).
Proof.
  unfold interpolate_normal, oriented. cbv zeta. cbn [i_normal].
  rewrite !vadd_plus, !vscale_times. rsimp. replace (1/1) with 1 by lra.
  destruct (i_side g); cbn [side_eqb]; [reflexivity| |reflexivity].
  reflexivity.
Qed.

Lemma interpolate_constant g n : unit n -> i_normal (interpolate_normal g (n, n, n)) = oriented g n.
Proof.
  intros H. rewrite interpolate_normal_value. f_equal.
  replace (plus (plus (times (i_u g) n) (times (i_v g) n)) (times (1 - i_u g - i_v g) n)) with n.
  - apply normalized_of_unit. assumption.
  - dvec. apply vec_ext; vunf; ring.
Qed.

(** *** the full intersection record *)
Lemma volume_winding r t : volume r t = - dot (cross (minus (tb t) (ta t)) (minus (tc t) (ta t))) (direction r).
Proof. dvec. vunf. ring. Qed.

Lemma dot_times_l k (a b : VecR) : dot (times k a) b = k * dot a b.
Proof. dvec. vunf. ring. Qed.
Lemma cross_orth (a b : VecR) : dot (cross a b) a = 0 /\ dot (cross a b) b = 0.
Proof. dvec. vunf. split; ring. Qed.

Lemma triangle_intersect_info t ray info : @triangle_intersect NumR t ray = Some info ->
  baricentric_coordinates ray t = Some (i_p info, i_u info, i_v info) /\
  unit (i_normal info) /\ dot (i_normal info) (direction ray) < 0 /\
  dot (i_normal info) (minus (tb t) (ta t)) = 0 /\ dot (i_normal info) (minus (tc t) (ta t)) = 0 /\
  (i_side info = Front <-> dot (cross (minus (tb t) (ta t)) (minus (tc t) (ta t))) (direction ray) < 0) /\
  (i_side info = Back <-> dot (cross (minus (tb t) (ta t)) (minus (tc t) (ta t))) (direction ray) > 0).
Proof.
  unfold triangle_intersect. destruct (baricentric_coordinates ray t) as [[[p u] v]|] eqn:B; [|discriminate].
  intros H. injection H as <-.
  destruct (bary_sound _ _ _ _ _ B) as (s & _ & _ & _ & HV & _).
  unfold new_info. cbv zeta.
  change (@vcross NumR (vsub (tb t) (ta t)) (vsub (tc t) (ta t))) with (cross (minus (tb t) (ta t)) (minus (tc t) (ta t))).
  rewrite volume_winding in HV.
  set (c := cross (minus (tb t) (ta t)) (minus (tc t) (ta t))) in *.
  assert (Hd : dot c (direction ray) <> 0).
  { intros D. rewrite D, Ropp_0, Rabs_R0 in HV. lra. }
  assert (Hc : c <> pt 0 0 0).
  { intros D. apply Hd. rewrite D. clear. dvec. vunf. ring. }
  assert (O1 : dot c (minus (tb t) (ta t)) = 0) by apply cross_orth.
  assert (O2 : dot c (minus (tc t) (ta t)) = 0) by apply cross_orth.
  pose proof (norm_pos _ Hc) as Hn. pose proof (normalized_unit _ Hc) as Hu.
  rewrite (normalized_times _ Hc) in *.
  set (k := / norm c) in *. assert (Hk : 0 < k) by (apply Rinv_0_lt_compat; assumption).
  unfold get_side. cbv zeta. rewrite !vdot_dot, !dot_times_l.
  remember (dot c (direction ray)) as D eqn:ED. clearbody k.
  rsimp. unfold f0 in *. rsimp. replace (0/1) with 0 by lra.
  destruct (Rltb_spec (k * D) 0) as [L|L]; [|destruct (Rltb_spec 0 (k * D)) as [L'|L']].
  - cbn [i_p i_u i_v i_normal i_side]. repeat split; try assumption.
    + rewrite dot_times_l. rewrite <- ED. nra.
    + rewrite dot_times_l, O1. ring.
    + rewrite dot_times_l, O2. ring.
    + nra.
    + discriminate.
    + nra.
  - cbn [i_p i_u i_v i_normal i_side]. rewrite vscale_times. repeat split; try assumption.
    + unfold unit in *. rewrite dot_times_l.
      replace (dot (times k c) (times (-(1/1)) (times k c))) with (-1 * dot (times k c) (times k c)); [rewrite Hu; field|].
      clear. dvec. vunf. field.
    + rewrite dot_times_l, dot_times_l. rewrite <- ED. nra.
    + rewrite dot_times_l, dot_times_l, O1. ring.
    + rewrite dot_times_l, dot_times_l, O2. ring.
    + discriminate.
    + nra.
    + nra.
  - exfalso. assert (k * D = 0) by lra. apply Rmult_integral in H as [|]; lra.
Qed.
