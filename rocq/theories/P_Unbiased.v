(** * Properties C78, C79: the random estimates are right on average (real arithmetic) *)
From Coquelicot Require Import Coquelicot.
From Verif Require Import NumR Geometry Triangle Sphere Colour Ray Bvh Material Scene Samplers Primitives SpecGeom SpecColour SpecOptics TriangleProofs MaterialProofs P_Material P_Samplers.
From Verif Require Import Calculus SpecMean.
Open Scope R_scope.

Lemma clamp_unit (x : R) : 0 <= x <= 1 -> @fclamp NumR x f0 f1 = x.
Proof. intros H. apply clamp_id. lra. Qed.

(** the drawn direction, as angles *)
Lemma cosine_direction (u v : R) (e1 e2 n : VecR) : 0 <= u <= 1 ->
  let l := @sample_cosine_weighted_horizontal_hemisphere NumR TrigR u v in
  @local_to_world NumR e1 e2 n vorigin (vx l) (vy l) (vz l) = towards e1 e2 n (angle_of u) (2 * PI * v).
Proof.
  intros H l. destruct (angle_of_facts u H) as (A & B & _). 
  assert (L : l = pt (sqrt u * sin (2 * PI * v)) (sqrt u * cos (2 * PI * v)) (sqrt (1 - u))).
  { unfold l, sample_cosine_weighted_horizontal_hemisphere, uniform_sample_horizontal_disc. cbv zeta.
    change (@fsqrt NumR u) with (sqrt u). change (@fmul NumR (@fmul NumR (@f2 NumR) (@fpi NumR TrigR)) v) with (2 / 1 * PI * v). replace (2 / 1 * PI * v) with (2 * PI * v) by field.
    set (t := 2 * PI * v). change (@fsin NumR TrigR t) with (sin t). change (@fcos NumR TrigR t) with (cos t). change (@fmul NumR (@f1 NumR) (sqrt u)) with (1 / 1 * sqrt u). replace (1 / 1 * sqrt u) with (sqrt u) by field.
    cbn [fadd fmul NumR].
    assert (Q : sqrt u * sin t * (sqrt u * sin t) + sqrt u * cos t * (sqrt u * cos t) = u).
    { pose proof (sin2_cos2 t) as P. unfold Rsqr in P. pose proof (sqrt_sqrt u ltac:(lra)) as P2. replace (sqrt u * sin t * (sqrt u * sin t) + sqrt u * cos t * (sqrt u * cos t)) with (sqrt u * sqrt u * (sin t * sin t + cos t * cos t)) by ring. rewrite P, P2. ring. }
    rewrite Q. rewrite clamp_unit by exact H. change (@fsqrt NumR (@fsub NumR (@f1 NumR) u)) with (sqrt (1 / 1 - u)). replace (1 / 1 - u) with (1 - u) by field. reflexivity. }
  rewrite L. cbn [vx vy vz pt]. rewrite local_world. unfold towards. rewrite A, B. 
  generalize (sin (2 * PI * v)) (cos (2 * PI * v)) (sqrt u) (sqrt (1 - u)). intros s c q k. destruct e1, e2, n. apply vec_ext; unfold vorigin; vunf; field.
Qed.

Lemma towards_facts e1 e2 n theta phi : frame e1 e2 n -> unit (towards e1 e2 n theta phi) /\ dot (towards e1 e2 n theta phi) n = cos theta.
Proof.
  intros HF. unfold towards. destruct (frame_combo e1 e2 n (sin theta * sin phi) (sin theta * cos phi) (cos theta) HF) as [A B]. split; [|rewrite dot_comm; exact B].
  unfold unit. rewrite A. pose proof (sin2_cos2 theta) as P. pose proof (sin2_cos2 phi) as Q. unfold Rsqr in *. 
  replace (sin theta * sin phi * (sin theta * sin phi) + sin theta * cos phi * (sin theta * cos phi) + cos theta * cos theta) with (sin theta * sin theta * (sin phi * sin phi + cos phi * cos phi) + cos theta * cos theta) by ring. rewrite Q. lra.
Qed.

(** The cosine-weighted sampler draws each direction with density cos/pi: the mean of any quantity is its integral with that weight. *)
Lemma cosine_mean e1 e2 n (f : VecR -> R) I : frame e1 e2 n ->
  (forall phi, 0 < phi < 2 * PI -> piecewise (fun theta => f (towards e1 e2 n theta phi)) 0 (PI / 2)) ->
  hemisphere_integral e1 e2 n (fun d => f d * dot d n) I ->
  mean_is (fun u v => f (towards e1 e2 n (angle_of u) (2 * PI * v))) (I / PI).
Proof.
  intros HF HP (inner & HI & HO). pose proof PI_RGT_0 as P0. exists (fun v => 2 * inner (2 * PI * v)). split.
  - intros v Hv. apply (substitute_sin2 (fun t => f (towards e1 e2 n t (2 * PI * v)))); [apply HP; split; nra|].
    pose proof (HI (2 * PI * v) ltac:(split; nra)) as H. apply (is_RInt_scal (V := R_NormedModule) _ _ _ 2) in H.
    eapply is_RInt_ext; [|exact H]. intros t _. cbn beta. rewrite (proj2 (towards_facts e1 e2 n t (2 * PI * v) HF)). unfold scal. cbn. unfold mult. cbn. ring.
  - replace (I / PI) with (scal 2 (I / (2 * PI))) by (unfold scal; cbn; unfold mult; cbn; field; lra).
    apply (is_RInt_scal (V := R_NormedModule)). apply (substitute_linear inner (2 * PI)); [lra|exact HO].
Qed.

Theorem C79_cosine : forall e1 e2 n (f : VecR -> R) I, frame e1 e2 n ->
  (forall phi, 0 < phi < 2 * PI -> piecewise (fun theta => f (towards e1 e2 n theta phi)) 0 (PI / 2)) ->
  hemisphere_integral e1 e2 n (fun d => f d * dot d n) I ->
  mean_is (fun u v => let l := @sample_cosine_weighted_horizontal_hemisphere NumR TrigR u v in f (@local_to_world NumR e1 e2 n vorigin (vx l) (vy l) (vz l))) (I / PI).
Proof.
  intros e1 e2 n f I HF HP HI. destruct (cosine_mean e1 e2 n f I HF HP HI) as (inner & A & B). exists inner. split; [|exact B].
  intros v Hv. eapply is_RInt_ext; [|exact (A v Hv)]. intros u. rewrite Rmin_left, Rmax_right by lra. intros Hu. cbn beta zeta. rewrite cosine_direction by lra. reflexivity.
Qed.
Print Assumptions C79_cosine.

(** ** C78
    What one draw contributes to the reflected light, in one channel: the light found in the drawn direction, times the reflectance
    function, times the cosine, over the density (ray_tracer.rs and daylight_coefficients.rs use exactly these factors). *)
Definition reflected (channel : @Spectrum NumR -> R) (m : @Material NumR) (n e1 e2 p : VecR) (ray : @Ray NumR) (prob : R) (L : VecR -> R) (u v : R) (x : R) : Prop :=
  exists bsdf (pdf : R) ray', sample_bsdf m n e1 e2 p ray (mkWD (N := NumR) prob [] (u, v)) = Ret (bsdf, pdf, ray') /\
    x = L (direction (r_geometry ray')) * channel bsdf * Rabs (dot n (direction (r_geometry ray'))) / pdf.
Definition a_channel (ch : @Spectrum NumR -> R) : Prop := ch = @sr NumR \/ ch = @sg NumR \/ ch = @sb NumR.

Theorem C78_matte : forall (m : @Material NumR) (c : @Spectrum NumR) (s rough prob : R) (n e1 e2 p : VecR) (ray : @Ray NumR) (L : VecR -> R) (I : R) ch,
  a_channel ch -> (m = Plastic c s rough \/ m = Metal c s rough) -> s <= prob -> frame e1 e2 n ->
  (forall phi, 0 < phi < 2 * PI -> piecewise (fun theta => L (towards e1 e2 n theta phi)) 0 (PI / 2)) ->
  hemisphere_integral e1 e2 n (fun d => L d * dot d n) I ->
  exists estimate, (forall u v, 0 < u < 1 -> 0 < v < 1 -> reflected ch m n e1 e2 p ray prob L u v (estimate u v)) /\
    mean_is estimate ((1 - s) * ch c / PI * I).
Proof.
  intros m c s rough prob n e1 e2 p ray L I ch HCh Hm Hs HF HP HI. pose proof PI_RGT_0 as P0.
  assert (HS : forall x : R, ch (@smulf NumR c x) = ch c * x) by (intros x; destruct HCh as [->|[->| ->]]; reflexivity).
  exists (fun u v => (1 - s) * ch c * L (towards e1 e2 n (angle_of u) (2 * PI * v))). split.
  - intros u v Hu Hv. destruct (C26_diffuse_branch m c s rough n e1 e2 p ray prob [] u v Hm HF Hs ltac:(lra)) as (pdf & ray' & SB & U & D & Pp & Pe & Pc & _).
    exists (smulf c ((1 - s) / PI)), pdf, ray'. split; [exact SB|]. rewrite HS. fold (dir_of ray') in *.
    assert (Dd : dir_of ray' = towards e1 e2 n (angle_of u) (2 * PI * v)).
    { destruct (towards_facts e1 e2 n (angle_of u) (2 * PI * v) HF) as [U' _].
      assert (X : forall sp r', sample_ward n e1 e2 p s rough rough ray (mkWD (N := NumR) prob [] (u, v)) = Ret (sp, r') -> dir_of r' = towards e1 e2 n (angle_of u) (2 * PI * v)).
      { intros sp r'. unfold sample_ward. cbn [wd_prob wd_disc fst snd]. assert (QF : @fltb NumR prob s = false) by (apply Rltb_is_false; lra). rewrite QF. cbv zeta. rewrite cosine_direction by lra.
        rewrite normalized_of_unit by exact U'. intros H. injection H as _ <-. reflexivity. }
      destruct Hm as [-> | ->]; cbn [sample_bsdf] in SB; (destruct (sample_ward _ _ _ _ _ _ _ _ _) as [[[[a b] w'] r2]| |] eqn:SW; cbn [obind] in SB; [|discriminate|discriminate]); assert (Er : ray' = r2) by congruence; rewrite Er; eapply X; reflexivity. }
    rewrite Pe, (dot_comm n), Rabs_pos_eq by lra. rewrite Dd in *. field. split; lra.
  - destruct (cosine_mean e1 e2 n L I HF HP HI) as (inner & A & B). exists (fun v => (1 - s) * ch c * inner v). split.
    + intros v Hv. apply (is_RInt_scal (V := R_NormedModule) _ _ _ ((1 - s) * ch c) _ (A v Hv)).
    + replace ((1 - s) * ch c / PI * I) with (scal ((1 - s) * ch c) (I / PI)) by (unfold scal; cbn; unfold mult; cbn; field; lra). apply (is_RInt_scal (V := R_NormedModule)). exact B.
Qed.
Print Assumptions C78_matte.

(** ** the other samplers *)
(** the uniform sampler of the hemisphere draws each direction with density 1/(2 pi) *)
Lemma uniform_direction (u v : R) (e1 e2 n : VecR) : 0 <= u <= 1 ->
  @uniform_sample_hemisphere NumR TrigR u v e1 e2 n = towards e2 e1 n (angle_of (1 - u * u)) (2 * PI * v).
Proof.
  intros H. destruct (acos_of_facts u H) as (A & B & _). unfold uniform_sample_hemisphere. cbv zeta. rewrite local_world. unfold towards. rewrite A, B.
  change (@fsqrt NumR (@fsub NumR (@f1 NumR) (@fmul NumR u u))) with (sqrt (1 / 1 - u * u)). replace (1 / 1 - u * u) with (1 - u * u) by field.
  change (@fmul NumR (@fmul NumR (@f2 NumR) (@fpi NumR TrigR)) v) with (2 / 1 * PI * v). replace (2 / 1 * PI * v) with (2 * PI * v) by field.
  set (t := 2 * PI * v). change (@fsin NumR TrigR t) with (sin t). change (@fcos NumR TrigR t) with (cos t).
  generalize (sin t) (cos t) (sqrt (1 - u * u)). intros s c q. destruct e1, e2, n. apply vec_ext; unfold vorigin; vunf; field.
Qed.
Theorem C79_hemisphere : forall e1 e2 n (f : VecR -> R) I, frame e1 e2 n ->
  (forall phi, 0 < phi < 2 * PI -> piecewise (fun theta => f (towards e2 e1 n theta phi)) 0 (PI / 2)) ->
  hemisphere_integral e2 e1 n f I -> mean_is (fun u v => f (@uniform_sample_hemisphere NumR TrigR u v e1 e2 n)) (I / (2 * PI)).
Proof.
  intros e1 e2 n f I HF HP (inner & HI & HO). pose proof PI_RGT_0 as P0. exists (fun v => inner (2 * PI * v)). split.
  - intros v Hv. apply (is_RInt_ext (fun u => f (towards e2 e1 n (angle_of (1 - u * u)) (2 * PI * v)))).
    { intros u. rewrite Rmin_left, Rmax_right by lra. intros Hu. rewrite uniform_direction by lra. reflexivity. }
    apply (substitute_cos (fun t => f (towards e2 e1 n t (2 * PI * v)))); [apply HP; split; nra|]. apply HI. split; nra.
  - apply (substitute_linear inner (2 * PI)); [lra|exact HO].
Qed.
Print Assumptions C79_hemisphere.

(** the disc sampler draws each point with density 1/(pi radius^2) *)
Lemma disc_point (u v radius : R) (c n e : VecR) : 0 <= u ->
  @uniform_sample_disc NumR TrigR (fun _ => e) u v radius c n = plus c (plus (times (radius * sqrt u * sin (2 * PI * v)) (cross e n)) (times (radius * sqrt u * cos (2 * PI * v)) e)).
Proof.
  intros H. unfold uniform_sample_disc, uniform_sample_horizontal_disc. cbv zeta. rewrite local_world, vcross_cross.
  change (@fsqrt NumR u) with (sqrt u). change (@fmul NumR (@fmul NumR (@f2 NumR) (@fpi NumR TrigR)) v) with (2 / 1 * PI * v). replace (2 / 1 * PI * v) with (2 * PI * v) by field.
  set (t := 2 * PI * v). change (@fsin NumR TrigR t) with (sin t). change (@fcos NumR TrigR t) with (cos t).
  generalize (sin t) (cos t) (sqrt u) (cross e n). intros s k q w. destruct e, n, c, w. apply vec_ext; vunf; field.
Qed.
Theorem C79_disc : forall (c n e : VecR) (radius : R) (f : VecR -> R) I, 0 < radius ->
  (forall phi, 0 < phi < 2 * PI -> piecewise (fun rho => f (plus c (plus (times (rho * sin phi) (cross e n)) (times (rho * cos phi) e)))) 0 radius) ->
  disc_integral (cross e n) e c radius f I -> mean_is (fun u v => f (@uniform_sample_disc NumR TrigR (fun _ => e) u v radius c n)) (I / (PI * (radius * radius))).
Proof.
  intros c n e radius f I HR HP (inner & HI & HO). pose proof PI_RGT_0 as P0. exists (fun v => 2 / (radius * radius) * inner (2 * PI * v)). split.
  - intros v Hv. set (phi := 2 * PI * v). set (F0 := fun rho => f (plus c (plus (times (rho * sin phi) (cross e n)) (times (rho * cos phi) e)))).
    assert (H : is_RInt (fun t => F0 t * (2 * t)) 0 radius (2 * inner phi)).
    { pose proof (HI phi ltac:(unfold phi; split; nra)) as H. apply (is_RInt_scal (V := R_NormedModule) _ _ _ 2) in H.
      eapply is_RInt_ext; [|exact H]. intros t _. unfold F0, scal. cbn. unfold mult. cbn. ring. }
    pose proof (substitute_square F0 radius (2 * inner phi) ltac:(lra) (HP phi ltac:(unfold phi; split; nra)) H) as S.
    pose proof (substitute_linear _ (radius * radius) _ ltac:(nra) S) as S2. cbn beta in S2.
    replace (2 / (radius * radius) * inner phi) with (2 * inner phi / (radius * radius)) by (field; lra).
    eapply is_RInt_ext; [|exact S2]. intros u. rewrite Rmin_left, Rmax_right by lra. intros Hu. rewrite disc_point by lra. unfold F0. cbn beta.
    assert (Sq : sqrt (radius * radius * u) = radius * sqrt u) by (rewrite sqrt_mult, sqrt_square by nra; reflexivity). rewrite Sq. reflexivity.
  - replace (I / (PI * (radius * radius))) with (scal (2 / (radius * radius)) (I / (2 * PI))) by (unfold scal; cbn; unfold mult; cbn; field; split; nra).
    apply (is_RInt_scal (V := R_NormedModule)). apply (substitute_linear inner (2 * PI)); [lra|exact HO].
Qed.
Print Assumptions C79_disc.

(** ** the hypotheses can be met: an environment that is lit only lower than 60 degrees from the normal *)
Definition half_lit (n d : VecR) : R := if Rlt_dec (dot d n) (1 / 2) then 1 else 0.
Lemma half_lit_at e1 e2 n t phi : frame e1 e2 n -> 0 <= t <= PI / 2 -> half_lit n (towards e1 e2 n t phi) = if Rlt_dec (PI / 3) t then 1 else 0.
Proof.
  intros HF Ht. unfold half_lit. rewrite (proj2 (towards_facts e1 e2 n t phi HF)). pose proof PI_RGT_0. rewrite <- cos_PI3.
  destruct (Rlt_dec (cos t) (cos (PI / 3))) as [L|L], (Rlt_dec (PI / 3) t) as [M|M]; try reflexivity; exfalso.
  - apply M. apply cos_lt_inv; lra.
  - apply L. apply cos_decreasing_1; lra.
Qed.
Example C78_hyp : forall e1 e2 n, frame e1 e2 n ->
  (forall phi, 0 < phi < 2 * PI -> piecewise (fun theta => half_lit n (towards e1 e2 n theta phi)) 0 (PI / 2)) /\ hemisphere_integral e1 e2 n (fun d => half_lit n d * dot d n) (PI / 4).
Proof.
  intros e1 e2 n HF. pose proof PI_RGT_0 as P0. split.
  - intros phi _. apply two_pieces with (PI / 3).
    + apply one_piece with (fun _ => 0); [lra|intros; apply continuous_const|]. intros x Hx. rewrite half_lit_at by (trivial; lra). destruct (Rlt_dec (PI / 3) x); lra.
    + apply one_piece with (fun _ => 1); [lra|intros; apply continuous_const|]. intros x Hx. rewrite half_lit_at by (trivial; lra). destruct (Rlt_dec (PI / 3) x); lra.
  - exists (fun _ => 1 / 8). split.
    + intros phi _. replace (1 / 8) with (Hierarchy.plus (0 : R_NormedModule) (1 / 8)) by (unfold Hierarchy.plus; cbn; ring).
      apply (is_RInt_Chasles (V := R_NormedModule) _ 0 (PI / 3) (PI / 2)).
      * apply (is_RInt_ext (fun _ => 0)). { intros x. rewrite Rmin_left, Rmax_right by lra. intros Hx. rewrite half_lit_at by (trivial; lra). destruct (Rlt_dec (PI / 3) x); [exfalso; lra|]. match goal with |- ?a = ?b => change (@eq R a b) end. ring. }
        replace (0 : R_NormedModule) with (scal (PI / 3 - 0) (0 : R_NormedModule)) at 2 by (unfold scal; cbn; unfold mult; cbn; ring). apply (is_RInt_const (V := R_NormedModule)).
      * apply (is_RInt_ext (fun t => cos t * sin t)). { intros x. rewrite Rmin_left, Rmax_right by lra. intros Hx. rewrite half_lit_at by (trivial; lra). rewrite (proj2 (towards_facts e1 e2 n x phi HF)). destruct (Rlt_dec (PI / 3) x); [|exfalso; lra]. match goal with |- ?a = ?b => change (@eq R a b) end. ring. }
        replace (1 / 8) with (Hierarchy.minus ((fun t => sin t * sin t / 2) (PI / 2)) ((fun t => sin t * sin t / 2) (PI / 3))).
        2:{ unfold Hierarchy.minus, Hierarchy.plus, opp. cbn. rewrite sin_PI2. pose proof (sin2_cos2 (PI / 3)) as Q. unfold Rsqr in Q. rewrite cos_PI3 in Q. lra. }
        apply (is_RInt_derive (V := R_CompleteNormedModule) (fun t => sin t * sin t / 2) (fun t => cos t * sin t)).
        -- intros x _. auto_derive; [trivial|]. field.
        -- intros x _. apply (continuous_mult (K := R_AbsRing)); [apply continuous_cos|apply continuous_sin].
    + replace (PI / 4) with (scal (2 * PI - 0) (1 / 8 : R_NormedModule)) by (unfold scal; cbn; unfold mult; cbn; field). apply (is_RInt_const (V := R_NormedModule)).
Qed.
(** so that a matte surface of reflectance 1/2 reflects, on average, 1/8 *)
Example C78_hyp2 : forall e1 e2 n p (ray : @Ray NumR), frame e1 e2 n -> exists estimate, mean_is estimate (1 / 8) /\
  forall u v, 0 < u < 1 -> 0 < v < 1 -> reflected (@sr NumR) (Plastic (@gray NumR (1/2 : R)) (0 : R) (0 : R)) n e1 e2 p ray 0 (half_lit n) u v (estimate u v).
Proof.
  intros e1 e2 n p ray HF. destruct (C78_hyp e1 e2 n HF) as [H1 H2].
  destruct (C78_matte (Plastic (@gray NumR (1/2 : R)) (0 : R) (0 : R)) (@gray NumR (1/2 : R)) 0 0 0 n e1 e2 p ray (half_lit n) (PI / 4) (@sr NumR)) as (est & A & B); try assumption.
  - left; reflexivity.
  - left; reflexivity.
  - lra.
  - exists est. split; [|exact A]. replace (1 / 8) with ((1 - 0) * sr (@gray NumR (1/2 : R)) / PI * (PI / 4)); [exact B|]. cbn [sr gray]. change ((1 - 0) * (1 / 2) / PI * (PI / 4) = 1 / 8). field. apply Rgt_not_eq, PI_RGT_0.
Qed.
