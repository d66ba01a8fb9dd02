(** * Properties C11, C12, C13, C14, C15, C17 (real arithmetic; see DESIGN.md for what rounding may change) *)
From Verif Require Import NumR Geometry Triangle SpecGeom TriangleProofs.
Open Scope R_scope.

(** ** C11 - ray/triangle intersection is sound *)
Theorem C11_hit_sound : forall (t : TriR) (ray : RayR) info, triangle_intersect t ray = Some info ->
  exists s, 1 / 100000 < s /\ i_p info = along ray s /\ i_p info = bary t (i_u info) (i_v info) /\
    - epsilon <= i_u info <= 1 + epsilon /\ - epsilon <= i_v info /\ i_u info + i_v info <= 1 + epsilon.
Proof.
  intros t ray info H. apply triangle_intersect_info in H as [H _].
  destruct (bary_sound _ _ _ _ _ H) as (s & H1 & H2 & H3 & _ & H4 & H5 & H6 & H7). exists s. rsimp. tauto.
Qed.
Print Assumptions C11_hit_sound.

(** the reported normal is the unit normal of the triangle's plane, turned towards the ray, and the side is the
    one seen by the winding order *)
Theorem C11_hit_normal : forall (t : TriR) (ray : RayR) info, triangle_intersect t ray = Some info ->
  unit (i_normal info) /\ dot (i_normal info) (direction ray) < 0 /\
  dot (i_normal info) (minus (tb t) (ta t)) = 0 /\ dot (i_normal info) (minus (tc t) (ta t)) = 0 /\
  (i_side info = Front <-> dot (cross (minus (tb t) (ta t)) (minus (tc t) (ta t))) (direction ray) < 0) /\
  (i_side info = Back <-> dot (cross (minus (tb t) (ta t)) (minus (tc t) (ta t))) (direction ray) > 0).
Proof. intros t ray info H. apply triangle_intersect_info in H. tauto. Qed.
Print Assumptions C11_hit_normal.

(** the cheap test used for shadow rays answers exactly like the full one, with the same point *)
Theorem C11_simple_same : forall (t : TriR) (ray : RayR),
  simple_triangle_intersect t ray = option_map i_p (triangle_intersect t ray).
Proof.
  intros t ray. unfold simple_triangle_intersect, triangle_intersect.
  destruct (baricentric_coordinates ray t) as [[[p u] v]|]; [|reflexivity]. cbn [option_map].
  unfold new_info. cbv zeta. destruct (get_side _ _). reflexivity.
Qed.
Print Assumptions C11_simple_same.

(** ** C12 - completeness.  True whenever the triangle is not tiny or seen edge-on: the volume spanned by the
    direction and the two edges has to reach 1e-5 *)
Theorem C12_hit_complete_partial : forall (t : TriR) (ray : RayR) s u v,
  along ray s = bary t u v -> 0 <= u -> 0 <= v -> u + v <= 1 ->
  1 / 100000 < s -> 1 / 100000 <= Rabs (volume ray t) ->
  exists info, triangle_intersect t ray = Some info /\ i_p info = along ray s /\ i_u info = u /\ i_v info = v.
Proof.
  intros t ray s u v E Hu Hv Huv Hs HV.
  assert (He : 0 < epsilon) by (rewrite <- EPS_val; apply EPS_pos).
  unfold triangle_intersect. rewrite (bary_complete_gen ray t s u v) by (try assumption; lra).
  eexists. split; [reflexivity|]. unfold new_info. cbv zeta. destruct (get_side _ _). cbn [i_p i_u i_v]. auto.
Qed.
Print Assumptions C12_hit_complete_partial.

Definition unit_tri : TriR := mkTri (pt 0 0 0) (pt 1 0 0) (pt 0 1 0).
Definition down (x y z : R) : RayR := mkRay3D (pt x y z) (pt 0 0 (-1)).
Lemma down_volume x y z k : volume (down x y z) (mkTri (pt 0 0 0) (pt k 0 0) (pt 0 k 0)) = k * k.
Proof. unfold down. vunf. ring. Qed.
(* the hypotheses hold for a ray straight down into the middle of a triangle *)
Example C12_hit_complete_hyp :
  along (down (1/4) (1/4) 1) 1 = bary unit_tri (1/4) (1/4) /\ 1 / 100000 <= Rabs (volume (down (1/4) (1/4) 1) unit_tri).
Proof.
  split; [apply vec_ext; unfold unit_tri, down; vunf; field|].
  unfold unit_tri. rewrite down_volume. rewrite Rabs_pos_eq; lra.
Qed.
Example C11_hit_sound_hyp : exists info, triangle_intersect unit_tri (down (1/4) (1/4) 1) = Some info.
Proof.
  destruct (C12_hit_complete_partial unit_tri (down (1/4) (1/4) 1) 1 (1/4) (1/4)) as (info & H & _); try lra;
    try apply C12_hit_complete_hyp. exists info. exact H.
Qed.

(** Without that proviso the property is false: a triangle with 1 mm legs hit head-on in its interior is missed. *)
Theorem C12_small_triangle_refuted : exists (t : TriR) (ray : RayR),
  unit (direction ray) /\ on_triangle t (along ray 1) /\ 0 < triangle_area t /\ triangle_intersect t ray = None.
Proof.
  set (k := 1 / 1000).
  exists (mkTri (pt 0 0 0) (pt k 0 0) (pt 0 k 0)), (down (k/4) (k/4) 1).
  split; [unfold unit, down; vunf; ring|]. split.
  { exists (1/4), (1/4). repeat split; try lra. apply vec_ext; unfold down; vunf; field. }
  split.
  { rewrite area_value. unfold norm. vunf. unfold Rdiv. apply Rmult_lt_0_compat; [|lra].
    apply sqrt_lt_R0. assert (Hk : 0 < k) by (unfold k; lra). clearbody k.
    match goal with |- 0 < ?x => replace x with (k * k * (k * k)) by ring end.
    apply Rmult_lt_0_compat; apply Rmult_lt_0_compat; assumption. }
  unfold triangle_intersect, baricentric_coordinates. cbv zeta.
  assert (V := down_volume (k/4) (k/4) 1 k).
  match goal with |- context [fltb (fabs ?a) TINY5] => change a with (volume (down (k/4) (k/4) 1) (mkTri (pt 0 0 0) (pt k 0 0) (pt 0 k 0))) end.
  rewrite V. unfold TINY5. rsimp. rewrite Rltb_is_true; [reflexivity|].
  rewrite Rabs_pos_eq; unfold k; nra.
Qed.
Print Assumptions C12_small_triangle_refuted.

(** ** C13 - triangle area *)
Theorem C13_area_half_cross : forall t : TriR,
  triangle_area t = norm (cross (minus (tb t) (ta t)) (minus (tc t) (ta t))) / 2.
Proof. exact area_value. Qed.
Print Assumptions C13_area_half_cross.

Theorem C13_area_invariant : forall (a b c d : VecR),
  triangle_area (mkTri b a c) = triangle_area (mkTri a b c) /\
  triangle_area (mkTri b c a) = triangle_area (mkTri a b c) /\
  triangle_area (translate d (mkTri a b c)) = triangle_area (mkTri a b c).
Proof. intros a b c d. pose proof (area_swap a b c). pose proof (area_translate d (mkTri a b c)). tauto. Qed.
Print Assumptions C13_area_invariant.

(** zero exactly when the three vertices are on one line *)
Theorem C13_area_zero_iff : forall t : TriR, triangle_area t = 0 <->
  (exists k l, (k <> 0 \/ l <> 0) /\ times k (minus (tb t) (ta t)) = times l (minus (tc t) (ta t))).
Proof.
  intros t. rewrite area_zero. set (e := minus (tb t) (ta t)). set (f := minus (tc t) (ta t)). clearbody e f. split.
  - intros H.
    assert (H1 : @eq R (vx (cross e f)) 0) by (rewrite H; reflexivity).
    assert (H2 : @eq R (vy (cross e f)) 0) by (rewrite H; reflexivity).
    assert (H3 : @eq R (vz (cross e f)) 0) by (rewrite H; reflexivity).
    destruct e as [ex ey ez], f as [fx fy fz]. unfold cross, times, pt in *. cbn [vx vy vz] in *. rsimp.
    destruct (Req_dec ex 0) as [Ex|Ex]; [|exists fx, ex; split; [right; assumption|f_equal; lra]].
    destruct (Req_dec ey 0) as [Ey|Ey]; [|exists fy, ey; split; [right; assumption|f_equal; lra]].
    destruct (Req_dec ez 0) as [Ez|Ez]; [|exists fz, ez; split; [right; assumption|f_equal; lra]].
    exists 1, 0. split; [left; lra|]. subst. f_equal; lra.
  - intros (k & l & Hkl & H).
    assert (H1 : @eq R (vx (times k e)) (vx (times l f))) by (rewrite H; reflexivity).
    assert (H2 : @eq R (vy (times k e)) (vy (times l f))) by (rewrite H; reflexivity).
    assert (H3 : @eq R (vz (times k e)) (vz (times l f))) by (rewrite H; reflexivity).
    destruct e as [ex ey ez], f as [fx fy fz]. unfold cross, times, pt in *. cbn [vx vy vz] in *. rsimp.
    assert (G : forall x, k * x = 0 -> l * x = 0 -> x = 0).
    { intros x Hx1 Hx2. destruct Hkl as [K|K].
      - apply Rmult_integral in Hx1 as [|]; [contradiction|assumption].
      - apply Rmult_integral in Hx2 as [|]; [contradiction|assumption]. }
    f_equal; apply G.
    + replace (k * (ey * fz - ez * fy)) with ((k * ey) * fz - (k * ez) * fy) by ring. rewrite H2, H3. ring.
    + replace (l * (ey * fz - ez * fy)) with (ey * (l * fz) - ez * (l * fy)) by ring. rewrite <- H2, <- H3. ring.
    + replace (k * (ez * fx - ex * fz)) with ((k * ez) * fx - (k * ex) * fz) by ring. rewrite H1, H3. ring.
    + replace (l * (ez * fx - ex * fz)) with (ez * (l * fx) - ex * (l * fz)) by ring. rewrite <- H1, <- H3. ring.
    + replace (k * (ex * fy - ey * fx)) with ((k * ex) * fy - (k * ey) * fx) by ring. rewrite H1, H2. ring.
    + replace (l * (ex * fy - ey * fx)) with (ex * (l * fy) - ey * (l * fx)) by ring. rewrite <- H1, <- H2. ring.
Qed.
Print Assumptions C13_area_zero_iff.
Example C13_area_nonzero : triangle_area unit_tri = 1 / 2.
Proof.
  rewrite area_value. unfold unit_tri, norm. vunf. match goal with |- sqrt ?x / 2 = _ => replace x with 1 by ring end.
  rewrite sqrt_1. reflexivity.
Qed.

(** ** C14 - shading normals.  The hit point is (1-u-v) a + u b + v c (C11), so at vertex a the shading normal should
    be the normal of a.  It is the normal of c: *)
Theorem C14_vertex_normal_refuted : exists (t : TriR) (ray : RayR) info (na nb nc : VecR),
  triangle_intersect t ray = Some info /\ i_p info = ta t /\ i_side info = Front /\ unit na /\ unit nb /\ unit nc /\
  i_normal (interpolate_normal info (na, nb, nc)) = nc /\ nc <> na.
Proof.
  destruct (C12_hit_complete_partial unit_tri (down 0 0 1) 1 0 0) as (info & H & Hp & Hu & Hv); try lra.
  { apply vec_ext; unfold unit_tri, down; vunf; ring. }
  { unfold unit_tri. rewrite down_volume, Rabs_pos_eq; lra. }
  exists unit_tri, (down 0 0 1), info, (pt 1 0 0), (pt 0 1 0), (pt 0 0 1).
  assert (HS : i_side info = Front).
  { apply (proj1 (proj2 (proj2 (proj2 (proj2 (C11_hit_normal _ _ _ H)))))). unfold unit_tri, down. vunf. lra. }
  split; [assumption|]. split.
  { rewrite Hp. apply vec_ext; unfold unit_tri, down; vunf; ring. }
  split; [assumption|]. split; [unfold unit; vunf; ring|]. split; [unfold unit; vunf; ring|]. split; [unfold unit; vunf; ring|].
  split.
  - rewrite interpolate_normal_value. unfold oriented. rewrite HS, Hu, Hv.
    match goal with |- vnormalized ?x = _ => replace x with (pt 0 0 1) by (apply vec_ext; vunf; ring) end.
    apply normalized_of_unit. unfold unit; vunf; ring.
  - intros D. apply (f_equal vx) in D. cbn in D. lra.
Qed.
Print Assumptions C14_vertex_normal_refuted.

(** What holds: the blend is normalised, its weights are the barycentric coordinates shifted by one vertex
    (u on the first, v on the second, 1-u-v on the third normal), and it is flipped on the back side; *)
Theorem C14_blend_partial : forall g (na nb nc : VecR),
  let m := plus (plus (times (i_u g) na) (times (i_v g) nb)) (times (1 - i_u g - i_v g) nc) in
  m <> pt 0 0 0 ->
  i_normal (interpolate_normal g (na, nb, nc)) =
    times (match i_side g with Back => - / norm m | _ => / norm m end) m /\
  unit (i_normal (interpolate_normal g (na, nb, nc))) /\
  i_p (interpolate_normal g (na, nb, nc)) = i_p g /\ i_side (interpolate_normal g (na, nb, nc)) = i_side g.
Proof.
  intros g na nb nc m Hm.
  assert (E : i_normal (interpolate_normal g (na, nb, nc)) =
              times (match i_side g with Back => - / norm m | _ => / norm m end) m).
  { rewrite interpolate_normal_value. fold m. rewrite normalized_times by assumption. unfold oriented.
    destruct (i_side g); try reflexivity. generalize (/ norm m). clearbody m. intros k. clear. dvec. apply vec_ext; vunf; ring. }
  split; [exact E|]. split; [|split; reflexivity].
  rewrite E. unfold unit. rewrite dot_times_l.
  assert (G : forall k, dot m (times k m) = k * dot m m) by (intros k; clearbody m; clear; dvec; vunf; ring).
  rewrite G, <- norm_sq. pose proof (norm_pos _ Hm). destruct (i_side g); field; lra.
Qed.
Print Assumptions C14_blend_partial.

(** so for equal vertex normals (flat triangles) the shading normal is right. *)
Theorem C14_flat_normal_partial : forall g (n : VecR), unit n ->
  i_normal (interpolate_normal g (n, n, n)) = match i_side g with Back => times (-1) n | _ => n end.
Proof. exact interpolate_constant. Qed.
Print Assumptions C14_flat_normal_partial.
Example C14_flat_normal_hyp : unit (pt 0 (3/5) (4/5)).
Proof. unfold unit; vunf; field. Qed.

(** ** C15 - the solid-angle density.  It changes when the whole scene is moved: *)
Theorem C15_translation_refuted : exists (t : TriR) (point normal o d dir : VecR),
  triangle_solid_angle_pdf t point normal (mkRay3D o dir) = 2 /\
  triangle_solid_angle_pdf (translate d t) (plus point d) normal (mkRay3D (plus o d) dir) = 1.
Proof.
  exists unit_tri, (pt 0 0 0), (pt 0 0 1), (pt 0 0 1), (pt 0 0 1), (pt 0 0 (-1)).
  unfold triangle_solid_angle_pdf. cbv zeta. rewrite area_translate, C13_area_nonzero. vunf.
  rewrite !Rltb_is_false by lra. rewrite !Rabs_pos_eq by lra. split; field.
Qed.
Print Assumptions C15_translation_refuted.

(** it is invariant only under translations parallel to the surface. *)
Theorem C15_translation_partial : forall (t : TriR) (point normal o d dir : VecR), dot d normal = 0 ->
  triangle_solid_angle_pdf (translate d t) (plus point d) normal (mkRay3D (plus o d) dir) =
  triangle_solid_angle_pdf t point normal (mkRay3D o dir).
Proof.
  intros t point normal o d dir H. unfold triangle_solid_angle_pdf. cbv zeta. cbn [origin]. rewrite area_translate.
  replace (vlen2 (vsub (plus point d) (plus o d))) with (vlen2 (vsub point o)).
  replace (vdot (plus o d) normal) with (vdot o normal). reflexivity.
  - change (dot o normal = dot (plus o d) normal).
    transitivity (dot o normal + dot d normal); [rewrite H; lra|clear; dvec; vunf; ring].
  - clear. dvec. vunf. ring.
Qed.
Print Assumptions C15_translation_partial.
Example C15_translation_hyp : dot (pt 3 4 0) (pt 0 0 1) = 0.
Proof. vunf; ring. Qed.

(** ** C17 - meshing a triangle and bounding boxes *)
Theorem C17_mesh_triangle : forall t : TriR,
  cross (minus (tb t) (ta t)) (minus (tc t) (ta t)) <> pt 0 0 0 ->
  exists n, mesh_triangle t = ([t], [(n, n, n)]) /\ unit n /\
    dot n (minus (tb t) (ta t)) = 0 /\ dot n (minus (tc t) (ta t)) = 0 /\
    0 < dot n (cross (minus (tb t) (ta t)) (minus (tc t) (ta t))).
Proof.
  intros t H. exists (vnormalized (cross (minus (tb t) (ta t)) (minus (tc t) (ta t)))).
  split; [destruct t; reflexivity|]. split; [apply normalized_unit; assumption|].
  rewrite (normalized_times _ H), !dot_times_l. destruct (cross_orth (minus (tb t) (ta t)) (minus (tc t) (ta t))) as [O1 O2].
  rewrite O1, O2, <- norm_sq. pose proof (norm_pos _ H).
  repeat split; try ring. rewrite <- Rmult_assoc, Rinv_l by lra. lra.
Qed.
Print Assumptions C17_mesh_triangle.
Example C17_mesh_triangle_hyp : cross (minus (tb unit_tri) (ta unit_tri)) (minus (tc unit_tri) (ta unit_tri)) <> pt 0 0 0.
Proof. intros D. apply (f_equal vz) in D. cbn in D. lra. Qed.

Theorem C17_box_encloses_and_is_smallest : forall t : TriR,
  in_box (world_bounds t) (ta t) /\ in_box (world_bounds t) (tb t) /\ in_box (world_bounds t) (tc t) /\
  (forall p, on_triangle t p -> in_box (world_bounds t) p) /\
  (forall b, in_box b (ta t) -> in_box b (tb t) -> in_box b (tc t) -> forall p, in_box (world_bounds t) p -> in_box b p).
Proof.
  intros t. destruct (world_bounds_vertices t) as (A & B & C). repeat split; try apply A; try apply B; try apply C.
  1-6: apply on_triangle_in_bounds; assumption.
  all: eapply world_bounds_tight; [| | |eassumption]; assumption.
Qed.
Print Assumptions C17_box_encloses_and_is_smallest.
