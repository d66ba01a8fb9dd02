(** Matte surfaces with interpolated ("smooth") normals: the frame that the sampler is given is not orthogonal, and the density can be
    negative (C26, C71). *)
From Coq Require Import ZArith List Lia Reals Lra Psatz.
From Verif Require Import Num NumR Geometry Triangle Colour Ray Samplers Material SpecGeom SpecOptics SpecColour TriangleProofs ColourProofs MaterialProofs P_Material.
Import ListNotations.
Local Open Scope R_scope.

Lemma disc_axes (r : R) : 0 <= r ->
  @uniform_sample_horizontal_disc NumR TrigR r (1/4) 1 = (sqrt r, 0) /\ @uniform_sample_horizontal_disc NumR TrigR r (3/4) 1 = (- sqrt r, 0) /\
  @uniform_sample_horizontal_disc NumR TrigR r 0 1 = (0, sqrt r) /\ @uniform_sample_horizontal_disc NumR TrigR r (1/2) 1 = (0, - sqrt r).
Proof.
  intros Hr. unfold uniform_sample_horizontal_disc. cbv zeta. unfold f2. cbn [fmul fsqrt fsin fcos fpi flit NumR TrigR].
  replace (2 / 1 * PI * (1/4)) with (PI / 2) by field. replace (2 / 1 * PI * (3/4)) with (3 * (PI / 2)) by field.
  replace (2 / 1 * PI * 0) with 0 by field. replace (2 / 1 * PI * (1/2)) with PI by field.
  rewrite sin_PI2, cos_PI2, sin_3PI2, cos_3PI2, sin_0, cos_0, sin_PI, cos_PI. repeat split; f_equal; ring.
Qed.
Lemma hemisphere_axes (r : R) : 0 <= r <= 1 -> forall (theta x y : R), @uniform_sample_horizontal_disc NumR TrigR r theta 1 = (x, y) -> x * x + y * y = r ->
  @sample_cosine_weighted_horizontal_hemisphere NumR TrigR r theta = pt x y (sqrt (1 - r)).
Proof.
  intros Hr theta x y E S. unfold sample_cosine_weighted_horizontal_hemisphere. change (@f1 NumR) with (1 / 1). replace (1 / 1) with 1 by field. rewrite E.
  assert (C := clamp_id (x * x + y * y) ltac:(lra)). cbn [fadd fmul NumR].
  replace (@f1 NumR) with 1 in C by (unfold f1; cbn [flit NumR]; field). rewrite C, S. reflexivity.
Qed.

(** whenever the shading normal is not perpendicular to the surface's own tangents, some draw of the matte branch has a negative density:
    the direction leaves on the far side of the shading normal *)
Theorem C26_smooth_refuted : forall (m : @Material NumR) (c : SpecR) (s rough : R) (n e1 e2 p : VecR) (ray : RayTR) prob pairs,
  (m = Plastic c s rough \/ m = Metal c s rough) -> s <= prob -> dot n e1 <> 0 \/ dot n e2 <> 0 ->
  exists r theta pdf ray', 0 <= r < 1 /\ 0 <= theta < 1 /\
    sample_bsdf m n e1 e2 p ray (mkWD prob pairs (r, theta)) = Ret (smulf c ((1 - s) / PI), pdf, ray') /\ pdf < 0 /\ dot (dir_of ray') n < 0.
Proof.
  intros m c s rough n e1 e2 p ray prob pairs Hm Hs Ht.
  (* a unit vector (x, y) = sqrt r (a, b) of the disc with a * (n.e1) + b * (n.e2) = - k, k > 0 *)
  assert (HA : exists a b theta k : R, 0 <= theta < 1 /\ 0 < k /\ a * a + b * b = 1 /\ a * dot n e1 + b * dot n e2 = - k /\
            forall r, 0 <= r -> @uniform_sample_horizontal_disc NumR TrigR r theta 1 = (sqrt r * a, sqrt r * b)).
  { destruct (Rtotal_order (dot n e1) 0) as [L|[Z|G]].
    - exists 1, 0, (1/4), (- dot n e1). repeat split; try lra. intros r Hr. destruct (disc_axes r Hr) as (Q & _). rewrite Q. f_equal; ring.
    - destruct (Rtotal_order (dot n e2) 0) as [L2|[Z2|G2]]; [|exfalso; destruct Ht; contradiction|].
      + exists 0, 1, 0, (- dot n e2). repeat split; try lra. intros r Hr. destruct (disc_axes r Hr) as (_ & _ & Q & _). rewrite Q. f_equal; ring.
      + exists 0, (-1), (1/2), (dot n e2). repeat split; try lra. intros r Hr. destruct (disc_axes r Hr) as (_ & _ & _ & Q). rewrite Q. f_equal; ring.
    - exists (-1), 0, (3/4), (dot n e1). repeat split; try lra. intros r Hr. destruct (disc_axes r Hr) as (_ & Q & _). rewrite Q. f_equal; ring. }
  destruct HA as (a & b & theta & k & Hth & Hk & Hab & Hak & HD).
  set (N := dot n n). assert (HN : 0 <= N) by (unfold N; dvec; vunf; nra).
  set (r := (N * N + k * k / 2) / (N * N + k * k)).
  assert (HNk : 0 < N * N + k * k) by nra.
  assert (Hr : 0 < r < 1). { unfold r. split; [apply Rdiv_lt_0_compat; nra|]. apply Rmult_lt_reg_r with (N * N + k * k); [assumption|]. unfold Rdiv. rewrite Rmult_assoc, Rinv_l by lra. nra. }
  assert (Hlt : (1 - r) * (N * N) < r * (k * k)).
  { assert (Er : r * (N * N + k * k) = N * N + k * k / 2) by (unfold r; field; lra). nra. }
  assert (Hsq : sqrt (1 - r) * N < sqrt r * k).
  { apply Rsqr_incrst_0; [|apply Rmult_le_pos; [apply sqrt_pos|assumption]|apply Rmult_le_pos; [apply sqrt_pos|lra]].
    rewrite !Rsqr_mult, !Rsqr_sqrt by lra. unfold Rsqr. lra. }
  specialize (HD r ltac:(lra)).
  assert (HH := hemisphere_axes r ltac:(lra) theta _ _ HD ltac:(transitivity (sqrt r * sqrt r * (a * a + b * b)); [ring|rewrite Hab, sqrt_sqrt by lra; ring])).
  set (v := plus (times (sqrt r * a) e1) (plus (times (sqrt r * b) e2) (times (sqrt (1 - r)) n))).
  assert (Hv : dot n v < 0).
  { replace (dot n v) with (sqrt r * (a * dot n e1 + b * dot n e2) + sqrt (1 - r) * N); [rewrite Hak; lra|]. unfold v, N. generalize (sqrt r) (sqrt (1 - r)). clear. intros q z. dvec. vunf. ring. }
  assert (Hv0 : v <> pt 0 0 0) by (intros E; rewrite E in Hv; clear - Hv; dvec; vunf; revert Hv; vunf; lra).
  assert (Hu : dot n (vnormalized v) < 0).
  { rewrite normalized_times by assumption. replace (dot n (times (/ norm v) v)) with (/ norm v * dot n v) by (generalize (/ norm v); clearbody v; clear; intros q; dvec; vunf; ring).
    pose proof (Rinv_0_lt_compat _ (norm_pos _ Hv0)). nra. }
  assert (Es : exists ray', @sample_ward NumR TrigR n e1 e2 p s rough rough ray (mkWD prob pairs (r, theta)) =
     Ret (0, (1 - s) / PI, dot n (vnormalized v) / PI, ray') /\ dir_of ray' = vnormalized v).
  { unfold sample_ward. cbv zeta. cbn [wd_prob wd_pairs wd_disc fst snd].
    rewrite (Rltb_is_false prob s Hs : @fltb NumR prob s = false). rewrite HH.
    unfold pt. cbn [vx vy vz]. rewrite local_world.
    replace (plus vorigin (plus (times (sqrt r * a) e1) (plus (times (sqrt r * b) e2) (times (sqrt (1 - r)) n)))) with v.
    2:{ unfold v. dvec. unfold vorigin. apply vec_ext; vunf; field. }
    eexists. split.
    - unfold f0, f1. cbn [flit fsub fdiv fpi NumR TrigR]. replace (1 / 1) with 1 by field. replace (0 / 1) with 0 by field. reflexivity.
    - reflexivity. }
  destruct Es as (ray' & Es & Dr).
  exists r, theta, (dot n (vnormalized v) / PI), ray'. split; [lra|]. split; [assumption|]. split.
  - assert (EB : forall k : R, plastic_bsdf c 0 k = smulf c k /\ metal_bsdf c 0 k = smulf c k)
      by (intros k0; unfold plastic_bsdf, metal_bsdf; spec_tac; split; f_equal; field).
    destruct Hm; subst m; cbn [sample_bsdf]; rewrite Es; cbn [obind]; destruct (EB ((1 - s) / PI)) as [E1 E2]; rewrite ?E1, ?E2; reflexivity.
  - rewrite Dr, (dot_comm (vnormalized v) n). split; [|assumption]. pose proof PI_RGT_0. apply Rmult_lt_reg_r with PI; [assumption|]. unfold Rdiv. rewrite Rmult_assoc, Rinv_l by lra. lra.
Qed.
Print Assumptions C26_smooth_refuted.
