(** * Property C11, continued: the tangents reported with a hit *)
From Verif Require Import NumR Geometry Triangle SpecGeom SpecOptics TriangleProofs P_Triangle.
Open Scope R_scope.

Lemma cross_dots (a b : VecR) : dot (cross a b) (cross a b) = dot a a * dot b b - dot a b * dot a b.
Proof. dvec. vunf. ring. Qed.

(** the two tangents and the normal of a reported hit are an orthonormal frame, the first tangent along the first edge *)
Theorem C11_hit_frame : forall (t : TriR) (ray : RayR) info, triangle_intersect t ray = Some info ->
  frame (i_dpdu info) (i_dpdv info) (i_normal info) /\
  exists k, 0 < k /\ i_dpdu info = times k (minus (tb t) (ta t)).
Proof.
  intros t ray info H. destruct (C11_hit_normal t ray info H) as (U & _ & O1 & _).
  assert (Hb : minus (tb t) (ta t) <> pt 0 0 0).
  { unfold triangle_intersect in H. destruct (baricentric_coordinates ray t) as [[[p u] v]|] eqn:B; [|discriminate].
    destruct (bary_sound _ _ _ _ _ B) as (_ & _ & _ & _ & HV & _). intros Q. unfold volume in HV. rewrite Q in HV.
    replace (dot (pt 0 0 0) _) with 0 in HV by (generalize (cross (direction ray) (minus (tc t) (ta t))); intros w; dvec; vunf; ring).
    rewrite Rabs_R0 in HV. lra. }
  assert (E1 : i_dpdu info = vnormalized (minus (tb t) (ta t)) /\ i_dpdv info = vnormalized (cross (i_normal info) (i_dpdu info))).
  { unfold triangle_intersect in H. destruct (baricentric_coordinates ray t) as [[[p u] v]|]; [|discriminate].
    unfold new_info in H. cbv zeta in H. destruct (get_side _ _) as [nn sd]. injection H as <-. split; reflexivity. }
  destruct E1 as [E1 E2]. pose proof (normalized_unit _ Hb) as U1. rewrite <- E1 in U1.
  assert (K : exists k, 0 < k /\ i_dpdu info = times k (minus (tb t) (ta t))).
  { exists (/ norm (minus (tb t) (ta t))). split; [apply Rinv_0_lt_compat, norm_pos, Hb|]. rewrite E1. apply normalized_times, Hb. }
  split; [|exact K]. destruct K as (k & Hk & Ek).
  assert (D1 : dot (i_dpdu info) (i_normal info) = 0).
  { rewrite Ek, dot_times_l. replace (dot (minus (tb t) (ta t)) (i_normal info)) with (dot (i_normal info) (minus (tb t) (ta t))) by (unfold dot; ring).
    rewrite O1. ring. }
  assert (U2 : unit (cross (i_normal info) (i_dpdu info))).
  { unfold unit in *. rewrite cross_dots, U, U1. replace (dot (i_normal info) (i_dpdu info)) with 0 by (rewrite <- D1; unfold dot; ring). ring. }
  rewrite normalized_of_unit in E2 by exact U2. rewrite E2. destruct (cross_orth (i_normal info) (i_dpdu info)) as [C1 C2].
  unfold frame. repeat split; try assumption. rewrite <- C2. unfold dot. ring.
Qed.
Print Assumptions C11_hit_frame.
