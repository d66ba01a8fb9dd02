(** * Properties C18-C26: optics of the materials (exact real arithmetic unless said otherwise) *)
From Coq Require Import SpecFloat.
From Verif Require Import NumR NumSF Geometry Triangle Ray Colour Samplers Material SpecGeom SpecColour SpecOptics TriangleProofs ColourProofs MaterialProofs.
Open Scope R_scope.

Notation RayTR := (@Ray NumR).
Definition dir_of (r : RayTR) : VecR := direction (r_geometry r).
Definition start_of (r : RayTR) : VecR := origin (r_geometry r).

(** a concrete situation meeting the hypotheses below: a ray coming down at an angle (3-4-5 triangle) on the floor *)
Definition slanted : VecR := pt (3/5) 0 (-4/5).
Definition up : VecR := pt 0 0 1.
Definition slanted_ray : RayTR :=
  mkRay (mkRay3D (pt 0 0 1) slanted) 1 (mkInter (pt 0 0 0) (pt 0 0 0) (mkInfo (pt 0 0 0) (pt 1 0 0) (pt 0 1 0) up Front 0 0)) 0 1 ONE.
Example slanted_ok : unit slanted /\ unit up /\ dot slanted up = -4/5.
Proof. unfold unit, slanted, up. vunf. repeat split; field. Qed.

(** ** C18 - law of reflection *)
Theorem C18_reflection : forall v n : VecR, unit v -> unit n ->
  let m := mirror_direction v n in
  unit m /\ in_span m v n /\ dot m n = - dot v n /\ tangent m n = tangent v n /\ mirror_direction m n = v.
Proof.
  intros v n U V m. assert (E : m = mirrored v n) by (apply mirror_value; assumption).
  assert (Um : unit m) by (rewrite E; apply mirrored_unit; assumption).
  rewrite (mirror_value m n Um V), E. split; [rewrite <- E; assumption|].
  split; [apply mirrored_span|]. split; [apply mirrored_dot; assumption|].
  split; [apply mirrored_tangent; assumption|]. apply mirrored_twice; assumption.
Qed.
Print Assumptions C18_reflection.

(** the reflected path of every specular material follows it, starting just off the surface on the side of incidence *)
Theorem C18_reflected_paths : forall (m : @Material NumR) (n p : VecR) (ray : RayTR) p1 p2, unit (dir_of ray) -> unit n ->
  get_possible_paths m n p ray = Ret (p1, p2) ->
  exists ray1 value, p1 = Some (ray1, value) /\ dir_of ray1 = mirror_direction (dir_of ray) n /\
    start_of ray1 = plus p (times (1 / 100000) n) /\
    r_refraction_index ray1 = r_refraction_index ray /\ r_colour ray1 = r_colour ray /\ r_depth ray1 = r_depth ray.
Proof.
  intros m n p ray p1 p2 U V H.
  assert (ES : @SHIFT NumR = 1 / 100000) by reflexivity.
  destruct m; cbn [get_possible_paths] in H; try discriminate.
  - unfold mirror_paths, mirror_bsdf in H. injection H as <- _. eexists _, _. split; [reflexivity|].
    unfold dir_of, start_of. cbn. repeat split. rewrite <- ES. rewrite vadd_plus, vscale_times. reflexivity.
  - unfold dielectric_paths in H. cbv zeta in H. destruct (cos_and_n _ _ _ _) as [[[n1 c1] n2] c2].
    destruct (dielectric_refl_trans _ _ _ _ _) as [refl trans]. injection H as <- _. eexists _, _. split; [reflexivity|].
    unfold dir_of, start_of. cbn. repeat split. rewrite <- ES. rewrite vadd_plus, vscale_times. reflexivity.
  - unfold glass_paths in H. cbv zeta in H. destruct (cos_and_n _ _ _ _) as [[[n1 c1] n2] c2].
    destruct (glass_refl_trans _ _ _ _ _) as [refl trans]. injection H as <- _. eexists _, _. split; [reflexivity|].
    unfold dir_of, start_of. cbn. repeat split. rewrite <- ES. rewrite vadd_plus, vscale_times. reflexivity.
Qed.
Print Assumptions C18_reflected_paths.
Example C18_hyp : mirror_direction slanted up = pt (3/5) 0 (4/5).
Proof.
  rewrite mirror_value by apply slanted_ok. unfold mirrored. rewrite (proj2 (proj2 slanted_ok)).
  unfold slanted, up. apply vec_ext; vunf; field.
Qed.

(** ** C19 - Snell's law and total internal reflection *)
Theorem C19_snell : forall (d n : VecR) (n1 ri : R), unit d -> unit n -> 0 < n1 -> 0 < ri ->
  exists c2 : option R, cos_and_n d n1 n ri = (n1, Rabs (dot d n), beyond n1 ri, c2) /\
    (c2 = None <-> beyond n1 ri < n1 * sin_of (Rabs (dot d n))) /\
    (forall c, c2 = Some c -> 0 <= c <= 1 /\ snell n1 (Rabs (dot d n)) (beyond n1 ri) c).
Proof.
  intros d n n1 ri U V P1 P2. destruct (cos_and_n_value d n1 n ri U V P1 P2) as (Pn & Pc & E). cbv zeta in E.
  set (n2 := beyond n1 ri) in *. set (c1 := Rabs (dot d n)) in *.
  eexists. split; [exact E|]. destruct (Rlt_dec n2 (n1 * sin_of c1)) as [L|L].
  - split; [tauto|discriminate].
  - split; [split; [discriminate|tauto]|]. intros c [= <-].
    assert (Hs : 0 <= sin_of c1) by apply sqrt_pos. set (q := n1 * sin_of c1 / n2).
    assert (Hq0 : 0 <= q). { apply Rmult_le_pos; [nra|]. left; apply Rinv_0_lt_compat; assumption. }
    assert (Hq1 : q <= 1). { unfold q. apply Rmult_le_reg_r with n2; [assumption|]. unfold Rdiv. rewrite Rmult_assoc, Rinv_l; lra. }
    assert (Hr : 0 <= 1 - Rsqr q <= 1) by (unfold Rsqr; nra).
    split; [split; [apply sqrt_pos|]|].
    + apply Rle_trans with (sqrt 1); [apply sqrt_le_1_alt; lra|rewrite sqrt_1; lra].
    + unfold snell. unfold sin_of at 2. rewrite sqrt_sqrt by lra.
      replace (1 - (1 - Rsqr q)) with (Rsqr q) by ring. rewrite sqrt_Rsqr by assumption.
      unfold q. field. lra.
Qed.
Print Assumptions C19_snell.

(** a ray already inside the material leaves towards air; another one enters the material *)
Theorem C19_leaves_to_air : forall n1 ri : R,
  (n1 = ri -> beyond n1 ri = 1) /\ (1 / 10000000 <= Rabs (n1 - ri) -> beyond n1 ri = ri).
Proof.
  intros n1 ri. unfold beyond. split; intros H; destruct (Rlt_dec _ _) as [L|L]; try reflexivity; exfalso.
  - apply L. subst. rewrite Rminus_diag_eq, Rabs_R0 by reflexivity. lra.
  - lra.
Qed.
Print Assumptions C19_leaves_to_air.
(* total internal reflection does occur: leaving a medium of index 2 at 3-4-5 incidence: 2 * 3/5 > 1 *)
Example C19_tir : exists c1 n2, cos_and_n slanted 2 up 2 = (2, c1, n2, None).
Proof.
  destruct slanted_ok as (U & V & D). destruct (C19_snell slanted up 2 2 U V) as (c2 & E & T & _); try lra.
  exists (Rabs (dot slanted up)), (beyond 2 2). rewrite E. assert (X : c2 = None); [|rewrite X; reflexivity]. apply T.
  rewrite (proj1 (C19_leaves_to_air 2 2) eq_refl), D, Rabs_left by lra.
  unfold sin_of. replace (1 - - (-4 / 5) * - (-4 / 5)) with (Rsqr (3/5)) by (unfold Rsqr; field). rewrite sqrt_Rsqr; lra.
Qed.

(** ** C20 - Fresnel reflectance *)
Theorem C20_is_fresnel : forall n1 c1 n2 c2 : R, 0 < n1 -> 0 < n2 -> 0 < c1 -> 0 < c2 ->
  fresnel_reflectance n1 c1 n2 c2 = fresnel n1 c1 n2 c2 /\
  0 <= fresnel_reflectance n1 c1 n2 c2 <= 1 /\
  fresnel_reflectance n2 c2 n1 c1 = fresnel_reflectance n1 c1 n2 c2.
Proof.
  intros n1 c1 n2 c2 A B C D. rewrite !fresnel_value by assumption. split; [reflexivity|].
  split; [apply fresnel_range; lra|]. unfold fresnel, R_s, R_p.
  rewrite (Rsqr_neg ((n2 * c2 - n1 * c1) / (n2 * c2 + n1 * c1))), (Rsqr_neg ((n1 * c2 - n2 * c1) / (n1 * c2 + n2 * c1))).
  f_equal; f_equal; f_equal; field; nra.
Qed.
Print Assumptions C20_is_fresnel.

Theorem C20_normal_incidence : forall n1 n2 : R, 0 < n1 -> 0 < n2 ->
  fresnel_reflectance n1 1 n2 1 = Rsqr ((n1 - n2) / (n1 + n2)).
Proof. intros. rewrite fresnel_value by lra. unfold fresnel, R_s, R_p, Rsqr. cbn [F NumR]. field. lra. Qed.
Print Assumptions C20_normal_incidence.

(** approaching grazing incidence the reflectance tends to 1 ... *)
Theorem C20_grazing_limit : forall n1 n2 c2 tol : R, 0 < n1 -> 0 < n2 -> 0 < c2 -> 0 < tol ->
  exists delta, 0 < delta /\ forall c1, 0 < c1 < delta -> 1 - tol < fresnel_reflectance n1 c1 n2 c2 <= 1.
Proof.
  intros n1 n2 c2 tol A B C T.
  assert (K : forall a b c : R, 0 < a -> 0 < b -> 0 < c -> 1 - 4 * a * c / b <= Rsqr ((a * c - b) / (a * c + b))).
  { intros a b c Ha Hb Hc. assert (0 < a * c) by nra. unfold Rsqr.
    assert (E : (a * c - b) / (a * c + b) * ((a * c - b) / (a * c + b)) = 1 - 4 * (a * c) * b / ((a * c + b) * (a * c + b))) by (field; lra).
    rewrite E. assert (4 * (a * c) * b / ((a * c + b) * (a * c + b)) <= 4 * a * c / b); [|lra].
    assert (E2 : 4 * a * c / b = 4 * (a * c) * b / (b * b)) by (field; lra). rewrite E2.
    apply Rmult_le_compat_l; [nra|]. apply Rinv_le_contravar; nra. }
  set (k := 4 * n1 / (n2 * c2) + 4 * n2 / (n1 * c2)).
  assert (Hk : 0 < k).
  { unfold k. assert (0 < 4 * n1 / (n2 * c2)) by (apply Rdiv_lt_0_compat; nra).
    assert (0 < 4 * n2 / (n1 * c2)) by (apply Rdiv_lt_0_compat; nra). lra. }
  exists (tol / k). split; [apply Rdiv_lt_0_compat; lra|]. intros c1 [H1 H2].
  destruct (C20_is_fresnel n1 c1 n2 c2 A B H1 C) as (E & Rg & _). split; [|lra]. rewrite E.
  unfold fresnel, R_s, R_p.
  pose proof (K n1 (n2 * c2) c1 A ltac:(nra) H1) as K1. pose proof (K n2 (n1 * c2) c1 B ltac:(nra) H1) as K2.
  assert (Hc : k * c1 < tol).
  { apply Rmult_lt_reg_r with (/ k); [apply Rinv_0_lt_compat; assumption|].
    replace (k * c1 * / k) with c1 by (field; lra). exact H2. }
  assert (Ek : 4 * n1 * c1 / (n2 * c2) + 4 * n2 * c1 / (n1 * c2) = k * c1) by (unfold k; field; lra).
  assert (0 < k * c1) by nra. lra.
Qed.
Print Assumptions C20_grazing_limit.

(** ... but in binary64 the value AT grazing incidence (cos = 0) is not 1: it is NaN (inf/inf) *)
Theorem C20_grazing_refuted :
  @fresnel_reflectance NumSF (sf_lit 1 1) (sf_lit 0 1) (sf_lit 3 2) (sf_lit 1 2) = S754_nan.
Proof. vm_compute. reflexivity. Qed.
Print Assumptions C20_grazing_refuted.

(** ** C21 - refracted directions *)
Theorem C21_refraction : forall (v n : VecR) (n1 ri n2 c1 c2 : R), unit v -> unit n -> dot v n <= 0 -> 0 < n1 -> 0 < ri ->
  cos_and_n v n1 n ri = (n1, c1, n2, Some c2) ->
  let t := fresnel_transmission_dir v n n1 c1 n2 c2 in
  unit t /\ in_span t v n /\ dot t n <= 0 /\ snell n1 (Rabs (dot v n)) n2 (Rabs (dot t n)) /\
  tangent t n = times (n1 / n2) (tangent v n) /\
  (n1 * sin_of (Rabs (dot v n)) < n2 -> dot t n < 0).
Proof.
  intros v n n1 ri n2 c1 c2 U V D P1 P2 E t.
  destruct (C19_snell v n n1 ri U V P1 P2) as (c2' & E' & Tir & Sn). destruct (cos_and_n_value v n1 n ri U V P1 P2) as (Pn & Pc & Ev).
  rewrite E in E'. injection E' as Ec1 En2 Ec2. symmetry in Ec2. destruct (Sn _ Ec2) as [R2 S2].
  cbv zeta in Ev. rewrite E in Ev. injection Ev as _ _ Ev. rewrite <- Ec1 in *.
  destruct (Rlt_dec (beyond n1 ri) (n1 * sin_of c1)) as [L|L]; [discriminate|]. injection Ev as Ev.
  rewrite <- En2 in *.
  assert (Hq : 0 <= n1 * sin_of c1 / n2 <= 1).
  { assert (0 <= sin_of c1) by apply sqrt_pos. split.
    - apply Rmult_le_pos; [nra|]. left; apply Rinv_0_lt_compat; assumption.
    - apply Rmult_le_reg_r with n2; [assumption|]. unfold Rdiv. rewrite Rmult_assoc, Rinv_l; lra. }
  assert (Hsq : c2 * c2 = 1 - Rsqr (n1 * sin_of c1 / n2)) by (rewrite Ev; apply sqrt_sqrt; unfold Rsqr; nra).
  rewrite Ec1 in Hsq.
  destruct (refracted v n n1 n2 c2 U V D P1 Pn Hsq) as (F1 & F2 & F3 & F4). rewrite <- Ec1 in F1, F2, F3, F4. fold t in F1, F2, F3, F4.
  split; [assumption|]. split; [assumption|]. split; [rewrite F3; lra|].
  split; [rewrite F3, Rabs_Ropp, (Rabs_pos_eq c2) by lra; exact S2|].
  split; [assumption|].
  intros Hlt. rewrite F3. rewrite <- Ec1 in *. destruct (Req_dec c2 0) as [Z|Z]; [|lra]. exfalso.
  rewrite Z, Rmult_0_l in Hsq. unfold Rsqr in Hsq. set (q := n1 * sin_of c1 / n2) in *.
  assert (Eq : n1 * sin_of c1 = q * n2) by (unfold q; field; lra). rewrite Eq in Hlt.
  assert (q < 1) by nra. nra.
Qed.
Print Assumptions C21_refraction.
Example C21_hyp : exists c1 n2 c2, cos_and_n slanted 1 up (3/2) = (1, c1, n2, Some c2).
Proof.
  destruct slanted_ok as (U & V & D). destruct (C19_snell slanted up 1 (3/2) U V) as (c2 & E & T & _); try lra.
  destruct c2 as [c2|]; [eexists _, _, _; exact E|]. exfalso.
  assert (H := proj1 T eq_refl). rewrite (proj2 (C19_leaves_to_air 1 (3/2))) in H.
  - rewrite D, Rabs_left in H by lra. unfold sin_of in H.
    replace (1 - - (-4 / 5) * - (-4 / 5)) with (Rsqr (3/5)) in H by (unfold Rsqr; field). rewrite sqrt_Rsqr in H; lra.
  - rewrite Rabs_left; lra.
Qed.

(** ** C22 - dielectrics *)
Theorem C22_paths : forall (colour : SpecR) (ri : R) (n p : VecR) (ray : RayTR),
  unit (dir_of ray) -> unit n -> dot (dir_of ray) n < 0 -> 0 < r_refraction_index ray -> 0 < ri ->
  let n1 := r_refraction_index ray in let n2 := beyond n1 ri in let c1 := - dot (dir_of ray) n in
  exists ray1 v1 p2, get_possible_paths (Dielectric colour ri) n p ray = Ret (Some (ray1, v1), p2) /\
    dir_of ray1 = mirror_direction (dir_of ray) n /\ r_refraction_index ray1 = n1 /\
    (p2 = None <-> n2 < n1 * sin_of c1) /\
    (n2 < n1 * sin_of c1 -> v1 = rgb 1 1 1) /\
    (n1 * sin_of c1 < n2 -> exists ray2 v2 c2, p2 = Some (ray2, v2) /\
       0 < c2 <= 1 /\ snell n1 c1 n2 c2 /\ dot (dir_of ray2) n = - c2 /\ unit (dir_of ray2) /\ in_span (dir_of ray2) (dir_of ray) n /\
       r_refraction_index ray2 = n2 /\
       start_of ray2 = minus p (times (1 / 100000) n) /\
       v1 = rgb (fresnel n1 c1 n2 c2) (fresnel n1 c1 n2 c2) (fresnel n1 c1 n2 c2) /\
       v2 = smulf colour ((1 - fresnel n1 c1 n2 c2) * Rsqr (n2 / n1))).
Proof.
  intros colour ri n p ray U V D P1 P2 n1 n2 c1.
  destruct (C19_snell (dir_of ray) n n1 ri U V P1 P2) as (c2 & E & Tir & Sn). fold n2 in E, Tir, Sn.
  destruct (cos_and_n_value (dir_of ray) n1 n ri U V P1 P2) as (Pn & Pc & _). fold n2 in Pn. cbv zeta in Pc.
  assert (Ec1 : Rabs (dot (dir_of ray) n) = c1) by (apply Rabs_left; assumption). rewrite Ec1 in *.
  assert (Hc1 : 0 < c1) by (unfold c1; lra).
  assert (HC21 := C21_refraction (dir_of ray) n n1 ri n2 c1).
  cbn [get_possible_paths]. unfold dielectric_paths. cbv zeta. fold (dir_of ray). fold n1. rewrite E.
  destruct c2 as [c2|].
  - destruct (Sn c2 eq_refl) as [R2 S2]. cbn [dielectric_refl_trans]. cbv zeta.
    eexists _, _, _. split; [reflexivity|]. split; [reflexivity|]. split; [reflexivity|].
    split; [split; [discriminate|intros H; apply Tir in H; discriminate]|].
    split; [intros H; apply Tir in H; discriminate|]. intros Hlt.
    destruct (HC21 c2 U V ltac:(lra) P1 P2 E) as (T1 & T2 & T3 & T4 & T5 & T6).
    assert (T7 := T6 ltac:(rewrite Ec1; assumption)).
    assert (Etd : dot (fresnel_transmission_dir (dir_of ray) n n1 c1 n2 c2) n = - c2).
    { unfold fresnel_transmission_dir. cbv zeta. rewrite vadd_plus, !vscale_times. dots. unfold unit in V. rewrite V. unfold c1. rsimp. ring. }
    assert (Hc2 : 0 < c2) by lra.
    assert (Fv : @fresnel_reflectance NumR n1 c1 n2 c2 = fresnel n1 c1 n2 c2) by (apply fresnel_value; assumption).
    eexists _, _, c2. split; [reflexivity|]. split; [lra|]. split; [assumption|]. split; [exact Etd|]. split; [exact T1|].
    split; [exact T2|]. split; [reflexivity|].
    split; [unfold start_of; cbn; rewrite vsub_minus, vscale_times; reflexivity|].
    change (@f1 NumR) with (1 / 1).
    rewrite Fv. generalize (fresnel n1 c1 n2 c2). intros f. assert (P1x : 0 < n1) by exact P1. clearbody n1 n2 c1. clear - Hc1 Hc2 P1x Pn.
    unfold rgb, Rsqr. spec_tac. split; f_equal; field; lra.
  - assert (HT := proj1 Tir eq_refl). cbn [dielectric_refl_trans].
    eexists _, _, _. split; [reflexivity|]. split; [reflexivity|]. split; [reflexivity|].
    split; [tauto|]. split; [|intros; lra]. intros _. clearbody c1. unfold rgb. spec_tac. f_equal; field; lra.
Qed.
Print Assumptions C22_paths.

(** for a white dielectric the reflected fraction and the transmitted one (undoing the radiance scaling) make up one *)
Theorem C22_energy : forall (ri : R) (n p : VecR) (ray ray1 ray2 : RayTR) (v1 v2 : SpecR),
  unit (dir_of ray) -> unit n -> dot (dir_of ray) n < 0 -> 0 < r_refraction_index ray -> 0 < ri ->
  r_refraction_index ray * sin_of (dot (dir_of ray) n) <> beyond (r_refraction_index ray) ri ->
  get_possible_paths (Dielectric ONE ri) n p ray = Ret (Some (ray1, v1), Some (ray2, v2)) ->
  sadd v1 (smulf v2 (Rsqr (r_refraction_index ray / r_refraction_index ray2))) = ONE /\
  all_channels (fun x => 0 <= x) v1 /\ all_channels (fun x => 0 <= x) v2.
Proof.
  intros ri n p ray ray1 ray2 v1 v2 U V D P1 P2 Hne H.
  destruct (C22_paths ONE ri n p ray U V D P1 P2) as (r1 & w1 & p2 & E & _ & _ & Tir & _ & Some2).
  rewrite E in H. injection H as -> -> ->.
  assert (Es : sin_of (dot (dir_of ray) n) = sin_of (- dot (dir_of ray) n)) by (unfold sin_of; f_equal; ring).
  rewrite Es in Hne.
  destruct (Rlt_dec (r_refraction_index ray * sin_of (- dot (dir_of ray) n)) (beyond (r_refraction_index ray) ri)) as [L|L].
  2:{ exfalso. assert (X := proj2 Tir ltac:(lra)). discriminate. }
  destruct (Some2 L) as (r2 & w2 & c2 & E2 & Hc2 & _ & _ & _ & _ & Hi & _ & F1 & F2). injection E2 as <- <-.
  rewrite Hi, F1, F2. set (n1 := r_refraction_index ray) in *. set (n2 := beyond n1 ri) in *.
  assert (Pn : 0 < n2) by (unfold n2, beyond; destruct (Rlt_dec _ _); lra).
  pose proof (fresnel_range n1 (- dot (dir_of ray) n) n2 c2 P1 Pn ltac:(lra) ltac:(lra) ltac:(lra)) as Hf.
  set (f := fresnel _ _ _ _) in *. clearbody f n2.
  assert (0 <= (1 - f) * Rsqr (n2 / n1)) by (apply Rmult_le_pos; [lra|apply Rle_0_sqr]).
  change (@r_refraction_index NumR ray) with n1. clearbody n1.
  unfold all_channels. split.
  - unfold rgb. spec_tac. unfold Rsqr. f_equal; field; lra.
  - unfold rgb. spec_tac. lra.
Qed.
Print Assumptions C22_energy.
Example C22_hyp : unit (dir_of slanted_ray) /\ unit up /\ dot (dir_of slanted_ray) up < 0 /\ 0 < r_refraction_index slanted_ray /\
  r_refraction_index slanted_ray * sin_of (dot (dir_of slanted_ray) up) < beyond (r_refraction_index slanted_ray) (3/2).
Proof.
  change (dir_of slanted_ray) with slanted. destruct slanted_ok as (U & V & D). cbn [r_refraction_index slanted_ray].
  rewrite D. rewrite (proj2 (C19_leaves_to_air 1 (3/2))) by (rewrite Rabs_left; lra).
  repeat split; try assumption; try lra. unfold sin_of.
  replace (1 - -4 / 5 * (-4 / 5)) with (Rsqr (3/5)) by (unfold Rsqr; field). rewrite sqrt_Rsqr; lra.
Qed.

(** ** C23 - glass *)
Theorem C23_energy : forall (colour : SpecR) (ri : R) (n d : VecR) (c refl trans : _), in_range 0 1 colour -> 1 <= ri ->
  unit n -> unit d -> dot n d <> 0 -> glass_refl_trans colour ri n d c = (refl, trans) ->
  all_channels (fun x => 0 <= x) refl /\ all_channels (fun x => 0 <= x) trans /\
  channels2 (fun r t : R => r + t <= 1) refl trans.
Proof.
  intros colour ri n d c refl trans Hc Hr U V D E.
  assert (Hp : 0 < Rabs (dot n d) <= 1).
  { split; [apply Rabs_pos_lt; assumption|]. apply Rabs_le, unit_dot; assumption. }
  rewrite (glass_value colour ri n d c Hr Hp Hc) in E.
  destruct (faces_range ri _ Hr Hp) as [He Hm]. destruct (absorb_range ri _ colour Hr Hp Hc) as (D1 & D2 & D3).
  set (a := absorb ri (Rabs (dot n d)) colour) in *. clearbody a. set (re := face_e _ _) in *. set (rm := face_m _ _) in *. clearbody re rm.
  destruct (slab_energy re (sr a) He D1) as (A1 & A2 & A3). destruct (slab_energy rm (sr a) Hm D1) as (A4 & A5 & A6).
  destruct (slab_energy re (sg a) He D2) as (B1 & B2 & B3). destruct (slab_energy rm (sg a) Hm D2) as (B4 & B5 & B6).
  destruct (slab_energy re (sb a) He D3) as (E1 & E2 & E3). destruct (slab_energy rm (sb a) Hm D3) as (E4 & E5 & E6).
  unfold all_channels, channels2. injection E as <- <-. destruct (Rlt_dec _ _); unfold half_sum, rgb, BLACK; cbn [sr sg sb]; rsimp; lra.
Qed.
Print Assumptions C23_energy.

(** the transmitted fraction is what multiple internal reflection in the pane gives: for each polarisation with face
    reflectance r and one-way transmittance d, the sum over k of (1-r) d (r d)^(2k) (1-r); likewise for reflection *)
Theorem C23_slab_series : forall (colour : SpecR) (ri : R) (n d : VecR) (c refl trans : _), in_range 0 1 colour -> 1 <= ri ->
  unit n -> unit d -> dot n d <> 0 -> 1 / 10 ^ 15 <= smax colour -> glass_refl_trans colour ri n d c = (refl, trans) ->
  exists c2 rs rp : R, 0 < c2 <= 1 /\ snell 1 (Rabs (dot n d)) ri c2 /\
    rs = R_s 1 (Rabs (dot n d)) ri c2 /\ rp = R_p 1 (Rabs (dot n d)) ri c2 /\
    (forall ch : SpecR -> R, In ch [sr (N := NumR); sg (N := NumR); sb (N := NumR)] ->
      let tau := Rpowf (ch colour) (1 / c2) in
      exists Ts Tp Rs_ Rp_,
        infinite_sum (fun k => (1 - rs) * tau * (rs * tau) ^ (2 * k) * (1 - rs)) Ts /\
        infinite_sum (fun k => (1 - rp) * tau * (rp * tau) ^ (2 * k) * (1 - rp)) Tp /\
        infinite_sum (fun k => (1 - rs) * (tau * rs * tau) * (rs * tau) ^ (2 * k) * (1 - rs)) Rs_ /\
        infinite_sum (fun k => (1 - rp) * (tau * rp * tau) * (rp * tau) ^ (2 * k) * (1 - rp)) Rp_ /\
        ch trans = (Ts + Tp) / 2 /\ ch refl = ((rs + Rs_) + (rp + Rp_)) / 2).
Proof.
  intros colour ri n d c refl trans Hc Hr U V D Hm E.
  assert (Hp : 0 < Rabs (dot n d) <= 1).
  { split; [apply Rabs_pos_lt; assumption|]. apply Rabs_le, unit_dot; assumption. }
  set (p := Rabs (dot n d)) in *.
  exists (pane_cos ri p), (face_e ri p), (face_m ri p).
  destruct (face_fresnel ri p Hr Hp) as [Fe Fm]. destruct (faces_range ri p Hr Hp) as [He Hmm].
  split; [apply pane_cos_pos; assumption|]. split; [apply pane_snell; assumption|].
  split; [assumption|]. split; [assumption|].
  rewrite (glass_value colour ri n d c Hr Hp Hc) in E. fold p in E.
  assert (A : absorb ri p colour = rgb (Rpowf (sr colour) (1 / pane_cos ri p)) (Rpowf (sg colour) (1 / pane_cos ri p)) (Rpowf (sb colour) (1 / pane_cos ri p))
              /\ (if Rlt_dec (smax colour) (1 / IZR (Zpos (10 ^ 15))) then true else false) = false).
  { unfold absorb. destruct (Rlt_dec (smax colour) (1 / IZR (Zpos (10 ^ 15)))) as [L|L]; [exfalso|split; reflexivity].
    assert (X : IZR (Zpos (10 ^ 15)) = 10 ^ 15) by (rewrite pow_IZR; apply f_equal; reflexivity).
    rewrite X in L. revert L Hm. generalize (1 / 10 ^ 15). intros y L Hm. apply (Rlt_irrefl y). apply Rle_lt_trans with (smax colour); assumption. }
  destruct A as [A B]. destruct (Rlt_dec _ _); [discriminate|]. clear B.
  injection E as <- <-. destruct (absorb_range ri p colour Hr Hp Hc) as (D1 & D2 & D3). rewrite A in *.
  unfold rgb, half_sum in *. cbn [sr sg sb] in *.
  intros ch [<- | [<- | [<- | []]]]; cbv zeta; cbn [sr sg sb].
  - destruct (slab_series (face_e ri p) _ He D1) as [S1 S2]. destruct (slab_series (face_m ri p) _ Hmm D1) as [S3 S4].
    eexists _, _, _, _. split; [exact S1|]. split; [exact S3|]. split; [exact S2|]. split; [exact S4|]. split; [reflexivity|field].
  - destruct (slab_series (face_e ri p) _ He D2) as [S1 S2]. destruct (slab_series (face_m ri p) _ Hmm D2) as [S3 S4].
    eexists _, _, _, _. split; [exact S1|]. split; [exact S3|]. split; [exact S2|]. split; [exact S4|]. split; [reflexivity|field].
  - destruct (slab_series (face_e ri p) _ He D3) as [S1 S2]. destruct (slab_series (face_m ri p) _ Hmm D3) as [S3 S4].
    eexists _, _, _, _. split; [exact S1|]. split; [exact S3|]. split; [exact S2|]. split; [exact S4|]. split; [reflexivity|field].
Qed.
Print Assumptions C23_slab_series.

(** the two paths carry these fractions, and the transmitted ray goes straight on *)
Theorem C23_paths : forall (colour : SpecR) (ri : R) (n p : VecR) (ray : RayTR) p1 p2,
  get_possible_paths (Glass colour ri) n p ray = Ret (p1, p2) ->
  exists refl trans, glass_refl_trans colour ri n (dir_of ray) (Rabs (dot (dir_of ray) n)) = (refl, trans) /\
    (exists ray1, p1 = Some (ray1, refl)) /\
    (p2 = None \/ exists ray2, p2 = Some (ray2, trans) /\ dir_of ray2 = dir_of ray /\
       start_of ray2 = minus p (times (1 / 100000) n) /\
       r_refraction_index ray2 = r_refraction_index ray /\ r_colour ray2 = r_colour ray) /\
    (p2 = None <-> radiance trans <= 0).
Proof.
  intros colour ri n p ray p1 p2 H. cbn [get_possible_paths] in H. unfold glass_paths in H. cbv zeta in H.
  assert (Hc : exists a b c, @cos_and_n NumR (direction (r_geometry ray)) (r_refraction_index ray) n ri = (a, Rabs (dot (dir_of ray) n), b, c)).
  { unfold cos_and_n. cbv zeta. destruct (fltb _ _); destruct (fltb _ _); eexists _, _, _; reflexivity. }
  destruct Hc as (a & b & c & Hc). rewrite Hc in H. fold (dir_of ray) in H.
  destruct (glass_refl_trans colour ri n (dir_of ray) (Rabs (dot (dir_of ray) n))) as [refl trans]. exists refl, trans.
  split; [reflexivity|]. destruct (@fltb NumR f0 (radiance trans)) eqn:L; injection H as <- <-; (split; [eexists; reflexivity|]);
    [change (Rltb (0 / 1) (@radiance NumR trans) = true) in L; apply Rltb_true in L
    |change (Rltb (0 / 1) (@radiance NumR trans) = false) in L; apply Rltb_false in L]; split.
  - right. eexists. split; [reflexivity|]. repeat split. unfold start_of. cbn. rewrite vsub_minus, vscale_times. reflexivity.
  - split; [discriminate|]. intros X. exfalso. revert L X. generalize (@radiance NumR trans). cbn [F NumR]. intros y L X. lra.
  - left. reflexivity.
  - split; [|reflexivity]. intros _. revert L. generalize (@radiance NumR trans). cbn [F NumR]. intros y L. lra.
Qed.
Print Assumptions C23_paths.
Example C23_hyp : in_range 0 1 (rgb (9/10) (8/10) 0) /\ dot up slanted <> 0 /\ 1 / 10 ^ 15 <= smax (rgb (9/10) (8/10) 0).
Proof.
  split; [unfold in_range, rgb; cbn [sr sg sb]; rsimp; lra|]. split; [rewrite dot_comm, (proj2 (proj2 slanted_ok)); lra|].
  apply Rle_trans with (9/10).
  - assert (10 <= 10 ^ 15) by (rewrite <- (pow_1 10) at 1; apply Rle_pow; [lra|lia]).
    apply Rmult_le_reg_r with (10 ^ 15); [lra|]. unfold Rdiv. rewrite Rmult_assoc, Rinv_l; lra.
  - apply (smax_spec (rgb (9/10) (8/10) 0)).
Qed.

(** ** C24 - a mirror should tint what it reflects.  REFUTED: the path of a mirror carries full white whatever its colour *)
Theorem C24_mirror_tint_refuted : forall (colour : SpecR) (n p : VecR) (ray : RayTR),
  unit (dir_of ray) -> unit n -> dot (dir_of ray) n <> 0 ->
  (exists ray1, get_possible_paths (Mirror colour) n p ray = Ret (Some (ray1, ONE), None) /\
     dir_of ray1 = mirror_direction (dir_of ray) n) /\
  (* in particular a mirror reflecting half of the light behaves like a perfect one *)
  get_possible_paths (Mirror (rgb (1/2) (1/2) (1/2))) n p ray = get_possible_paths (Mirror ONE) n p ray.
Proof.
  intros colour n p ray U V D. split; [|reflexivity]. eexists. split; [|shelve].
  cbn [get_possible_paths]. unfold mirror_paths, mirror_bsdf. cbv zeta. cbn [r_geometry set_ray3d set_geometry direction].
  fold (dir_of ray). f_equal. f_equal. f_equal. f_equal.
  rewrite mirror_value by assumption.
  change (@vdot NumR n (mirrored (dir_of ray) n)) with (dot n (mirrored (dir_of ray) n)).
  rewrite (dot_comm n), mirrored_dot by assumption. change (@fabs NumR (- dot (dir_of ray) n)) with (Rabs (- dot (dir_of ray) n)).
  rewrite Rabs_Ropp. change (@fabs NumR (vdot (dir_of ray) n)) with (Rabs (dot (dir_of ray) n)).
  assert (X : 0 < Rabs (dot (dir_of ray) n)) by (apply Rabs_pos_lt; assumption).
  generalize dependent (Rabs (dot (dir_of ray) n)). intros a X. spec_tac. f_equal; field; lra.
  Unshelve. reflexivity.
Qed.
Print Assumptions C24_mirror_tint_refuted.
(** its BSDF, on the other hand, is tinted *)
Theorem C24_bsdf_tinted : forall (ip isd : VecR -> VecR -> bool) (colour : SpecR) (n e1 e2 v : VecR) (ray : RayTR),
  ip v (mirror_direction (dir_of ray) n) = true ->
  eval_bsdf ip isd (Mirror colour) n e1 e2 ray v = Ret (smulf colour (1 / Rabs (dot (dir_of ray) n))).
Proof.
  intros. cbn [eval_bsdf]. unfold mirror_eval, eval_mirror_bsdf. fold (dir_of ray). rewrite H. f_equal. f_equal.
  change (@vdot NumR (dir_of ray) n) with (dot (dir_of ray) n). unfold f1. cbn [fdiv flit fabs NumR].
  replace (1 / 1) with 1 by field. reflexivity.
Qed.
Print Assumptions C24_bsdf_tinted.

(** ** C25 - the Ward reflectance of plastic and metal.  Directions are those of travelling light: [dir_of ray] comes from
    the viewer towards the surface and [o] from the lamp towards the surface, so both are against the normal. *)
Theorem C25_value : forall ip isd (c : SpecR) (s rough : R) (n e1 e2 o : VecR) (ray : RayTR),
  dot (dir_of ray) n <= 0 -> 1 / 100000 < s ->
  let a := Rmax rough (1 / 1000) in
  let w := ward_bounded s a a e1 e2 n (minus (times (-1) o) (dir_of ray)) in
  eval_bsdf ip isd (Plastic c s rough) n e1 e2 ray o = Ret (sadd (rgb w w w) (smulf c ((1 - s) / PI))) /\
  eval_bsdf ip isd (Metal c s rough) n e1 e2 ray o = Ret (sadd (smulf c w) (smulf c ((1 - s) / PI))).
Proof.
  intros ip isd c s rough n e1 e2 o ray Hi Hs a w. cbn [eval_bsdf]. fold (dir_of ray). rewrite neg_f1, vscale_times.
  rewrite ward_value by assumption. split; reflexivity.
Qed.
Print Assumptions C25_value.

(** a material without specularity is a Lambertian reflector *)
Theorem C25_diffuse : forall ip isd (c : SpecR) (s rough : R) (n e1 e2 o : VecR) (ray : RayTR), s <= 1 / 100000 ->
  eval_bsdf ip isd (Plastic c s rough) n e1 e2 ray o = Ret (smulf c ((1 - s) / PI)) /\
  eval_bsdf ip isd (Metal c s rough) n e1 e2 ray o = Ret (smulf c ((1 - s) / PI)).
Proof.
  intros ip isd c s rough n e1 e2 o ray Hs. cbn [eval_bsdf]. rewrite ward_diffuse_only by assumption.
  split; f_equal; unfold plastic_bsdf, metal_bsdf; generalize ((1 - s) / PI); intros k; spec_tac; f_equal; field.
Qed.
Print Assumptions C25_diffuse.

(** reciprocity: exchanging viewer and lamp changes nothing, for both materials, as long as both are in front *)
Definition scatters (m : @Material NumR) : Prop := match m with Plastic _ _ _ | Metal _ _ _ => True | _ => False end.
Theorem C25_reciprocal : forall ip isd (m : @Material NumR) (n e1 e2 : VecR) (ray ray' : RayTR), scatters m ->
  dot (dir_of ray) n <= 0 -> dot (dir_of ray') n <= 0 ->
  eval_bsdf ip isd m n e1 e2 ray (dir_of ray') = eval_bsdf ip isd m n e1 e2 ray' (dir_of ray).
Proof.
  intros ip isd m n e1 e2 ray ray' Hm H1 H2.
  assert (E : minus (times (-1) (dir_of ray')) (dir_of ray) = minus (times (-1) (dir_of ray)) (dir_of ray')).
  { generalize (dir_of ray) (dir_of ray'). intros u v. dvec. apply vec_ext; vunf; ring. }
  destruct m as [c s r|c s r| | | |]; try contradiction; destruct (Rle_dec s (1 / 100000)) as [L|L].
  - rewrite (proj1 (C25_diffuse ip isd c s r n e1 e2 (dir_of ray') ray L)), (proj1 (C25_diffuse ip isd c s r n e1 e2 (dir_of ray) ray' L)). reflexivity.
  - rewrite (proj1 (C25_value ip isd c s r n e1 e2 _ ray H1 ltac:(lra))), (proj1 (C25_value ip isd c s r n e1 e2 _ ray' H2 ltac:(lra))), E. reflexivity.
  - rewrite (proj2 (C25_diffuse ip isd c s r n e1 e2 (dir_of ray') ray L)), (proj2 (C25_diffuse ip isd c s r n e1 e2 (dir_of ray) ray' L)). reflexivity.
  - rewrite (proj2 (C25_value ip isd c s r n e1 e2 _ ray H1 ltac:(lra))), (proj2 (C25_value ip isd c s r n e1 e2 _ ray' H2 ltac:(lra))), E. reflexivity.
Qed.
Print Assumptions C25_reciprocal.

(** non-negativity for physically meaningful parameters *)
Theorem C25_nonnegative : forall ip isd (c : SpecR) (s rough : R) (n e1 e2 o : VecR) (ray : RayTR) m v,
  (m = Plastic c s rough \/ m = Metal c s rough) -> all_channels (fun x => 0 <= x) c -> 0 <= s <= 1 ->
  dot (dir_of ray) n < 0 -> dot o n <= 0 ->
  eval_bsdf ip isd m n e1 e2 ray o = Ret v -> all_channels (fun x => 0 <= x) v.
Proof.
  intros ip isd c s rough n e1 e2 o ray m v Hm Hc Hs Hi Ho E.
  assert (Hd : 0 <= (1 - s) / PI) by (apply Rmult_le_pos; [lra|left; apply Rinv_0_lt_compat, PI_RGT_0]).
  assert (Hr : 0 < Rmax rough (1 / 1000)) by (apply Rlt_le_trans with (1 / 1000); [lra|apply Rmax_r]).
  assert (Hh : dot (minus (times (-1) o) (dir_of ray)) n <> 0) by (dots; lra).
  pose proof (ward_bounded_nonneg s _ _ e1 e2 n _ (proj1 Hs) Hr Hr Hh) as Hw. set (w := ward_bounded _ _ _ _ _ _ _) in Hw.
  destruct (Rle_dec s (1 / 100000)) as [L|L].
  - assert (Ev : v = smulf c ((1 - s) / PI)) by (destruct Hm; subst m; rewrite ?(proj1 (C25_diffuse ip isd c s rough n e1 e2 o ray L)), ?(proj2 (C25_diffuse ip isd c s rough n e1 e2 o ray L)) in E; injection E; auto).
    subst v. generalize dependent ((1 - s) / PI). intros k Hk. destruct Hc as (A & B & C). unfold all_channels. spec_tac. repeat split; nra.
  - destruct (C25_value ip isd c s rough n e1 e2 o ray ltac:(lra) ltac:(lra)) as [V1 V2]. cbv zeta in V1, V2. fold w in V1, V2.
    clearbody w. revert V1 V2. generalize dependent ((1 - s) / PI). intros k Hk. destruct Hc as (A & B & C).
    intros V1 V2. destruct Hm; subst m; rewrite E in *; [injection V1 as ->|injection V2 as ->]; unfold all_channels, rgb; spec_tac; repeat split; nra.
Qed.
Print Assumptions C25_nonnegative.

(** seen from behind, a glossy surface is black ... *)
Theorem C25_behind_partial : forall ip isd (c : SpecR) (s rough : R) (n e1 e2 o : VecR) (ray : RayTR) m,
  (m = Plastic c s rough \/ m = Metal c s rough) -> 1 / 100000 < s -> 0 < dot (dir_of ray) n ->
  eval_bsdf ip isd m n e1 e2 ray o = Ret BLACK.
Proof.
  intros ip isd c s rough n e1 e2 o ray m [-> | ->] Hs Hi; cbn [eval_bsdf]; fold (dir_of ray); rewrite ward_behind by assumption;
    f_equal; unfold plastic_bsdf, metal_bsdf; spec_tac; f_equal; field.
Qed.
Print Assumptions C25_behind_partial.

(** ... but light arriving from behind the surface is still reflected: a lamp straight below an opaque, perfectly diffuse
    surface contributes exactly as much as one straight above it *)
Theorem C25_lit_from_behind_refuted : forall ip isd (c : SpecR) (n e1 e2 : VecR) (ray : RayTR),
  unit n -> dot (dir_of ray) n < 0 ->
  eval_bsdf ip isd (Plastic c 0 0) n e1 e2 ray n = eval_bsdf ip isd (Plastic c 0 0) n e1 e2 ray (times (-1) n) /\
  eval_bsdf ip isd (Plastic c 0 0) n e1 e2 ray n = Ret (smulf c (1 / PI)).
Proof.
  intros. rewrite !(fun a b d e f => proj1 (C25_diffuse ip isd c 0 0 a b d e f ltac:(lra))).
  split; [reflexivity|]. f_equal. f_equal. rewrite Rminus_0_r. reflexivity.
Qed.
Print Assumptions C25_lit_from_behind_refuted.
Example C25_hyp : exists ray' : RayTR, dot (dir_of slanted_ray) up < 0 /\ dot (dir_of ray') up < 0 /\ dir_of ray' <> dir_of slanted_ray.
Proof.
  exists (set_ray3d slanted_ray (pt 0 0 1) (pt 0 0 (-1))). change (dir_of slanted_ray) with slanted.
  rewrite (proj2 (proj2 slanted_ok)). unfold dir_of, slanted, up. cbn. split; [lra|]. split; [vunf; lra|].
  unfold pt. intros [= E _]. lra.
Qed.

(** ** C26 - sampled directions *)
(** the diffuse branch is right: a unit direction strictly on the normal's side with density cos/pi > 0 *)
Theorem C26_diffuse_branch : forall (m : @Material NumR) (c : SpecR) (s rough : R) (n e1 e2 p : VecR) (ray : RayTR) prob pairs (r theta : R),
  (m = Plastic c s rough \/ m = Metal c s rough) -> frame e1 e2 n -> s <= prob -> 0 <= r < 1 ->
  exists pdf ray', sample_bsdf m n e1 e2 p ray (mkWD prob pairs (r, theta)) = Ret (smulf c ((1 - s) / PI), pdf, ray') /\
    unit (dir_of ray') /\ 0 < dot (dir_of ray') n /\ 0 < pdf /\ pdf = dot (dir_of ray') n / PI /\
    dot (dir_of ray') n = sqrt (1 - r) /\
    start_of ray' = plus p (times (1 / 100000) n).
Proof.
  intros m c s rough n e1 e2 p ray prob pairs r theta Hm Hf Hs Hr.
  destruct (cosine_hemisphere r theta ltac:(lra)) as (x & y & Eh & Sxy).
  set (v := plus (times x e1) (plus (times y e2) (times (sqrt (1 - r)) n))).
  destruct (frame_combo e1 e2 n x y (sqrt (1 - r)) Hf) as [F1 F2]. fold v in F1, F2.
  rewrite sqrt_sqrt, Sxy in F1 by lra. assert (Uv : unit v) by (unfold unit; lra).
  assert (Hz : 0 < sqrt (1 - r)) by (apply sqrt_lt_R0; lra).
  assert (Es : exists ray', @sample_ward NumR TrigR n e1 e2 p s rough rough ray (mkWD prob pairs (r, theta)) =
     Ret (0, (1 - s) / PI, dot n v / PI, ray') /\ dir_of ray' = v /\ start_of ray' = plus p (times (1 / 100000) n)).
  { unfold sample_ward. cbv zeta. cbn [wd_prob wd_pairs wd_disc fst snd].
    rewrite (Rltb_is_false prob s Hs : @fltb NumR prob s = false). rewrite Eh.
    unfold pt. cbn [vx vy vz]. rewrite local_world.
    replace (plus vorigin (plus (times x e1) (plus (times y e2) (times (sqrt (1 - r)) n)))) with v.
    2:{ unfold v. dvec. unfold vorigin. apply vec_ext; vunf; field. }
    rewrite normalized_of_unit by assumption. eexists. split.
    - unfold f0, f1. cbn [flit fsub fdiv fpi NumR TrigR]. replace (1 / 1) with 1 by field. replace (0 / 1) with 0 by field. reflexivity.
    - split; [reflexivity|]. unfold start_of. cbn. rewrite vadd_plus, vscale_times. reflexivity. }
  destruct Es as (ray' & Es & Dr & Or). rewrite (dot_comm n v) in *. rewrite F2 in Es.
  exists (sqrt (1 - r) / PI), ray'. split.
  - assert (EB : forall k : R, plastic_bsdf c 0 k = smulf c k /\ metal_bsdf c 0 k = smulf c k)
      by (intros k; unfold plastic_bsdf, metal_bsdf; spec_tac; split; f_equal; field).
    destruct Hm; subst m; cbn [sample_bsdf]; rewrite Es; cbn [obind]; destruct (EB ((1 - s) / PI)) as [E1 E2]; rewrite ?E1, ?E2; reflexivity.
  - rewrite Dr, F2. repeat split; try assumption. apply Rdiv_lt_0_compat; [assumption|apply PI_RGT_0].
Qed.
Print Assumptions C26_diffuse_branch.

(** the specular branch is not: light falling straight on a glossy surface (roughness up to 1) is scattered straight INTO
    the surface, for every draw of the angle and every draw xi2 in (1/e, 1) *)
Theorem C26_below_surface_refuted : forall (m : @Material NumR) (c : SpecR) (s rough : R) (n e1 e2 p : VecR) (ray : RayTR) prob disc (xi1 xi2 : R) rest,
  (m = Plastic c s rough \/ m = Metal c s rough) -> frame e1 e2 n -> prob < s -> rough <= 1 -> exp (-1) < xi2 < 1 ->
  dir_of ray = times (-1) n ->
  exists bsdf weight ray', sample_bsdf m n e1 e2 p ray (mkWD prob ((xi1, xi2) :: rest) disc) = Ret (bsdf, weight, ray') /\
    dir_of ray' = times (-1) n /\ dot (dir_of ray') n = -1.
Proof.
  intros m c s rough n e1 e2 p ray prob disc xi1 xi2 rest Hm Hf Hp Hro Hx Hdir.
  assert (Un : unit n) by apply Hf. assert (Dn : dot (times (-1) n) n = -1) by (rewrite dot_times_l, Un; ring).
  set (a := Rmax rough (1 / 1000)).
  assert (Ha : 0 < a <= 1). { unfold a. split; [apply Rlt_le_trans with (1 / 1000); [lra|apply Rmax_r]|apply Rmax_lub; lra]. }
  assert (Hx9 : 1 / 1000000000 <= xi2 < 1).
  { split; [|lra]. assert (1 / 3 <= exp (-1)); [|lra]. replace (-1) with (Ropp 1) by lra. rewrite exp_Ropp. pose proof exp_le_3 as H3. pose proof (exp_pos 1).
    unfold Rdiv. rewrite Rmult_1_l. apply Rinv_le_contravar; lra. }
  set (d := a * sqrt (- ln xi2)).
  assert (Hl : 0 < - ln xi2 < 1).
  { assert (ln xi2 < ln 1) by (apply ln_increasing; lra). assert (ln (exp (-1)) < ln xi2) by (apply ln_increasing; [apply exp_pos|lra]).
    rewrite ln_1 in *. rewrite ln_exp in *. lra. }
  assert (Hd : 0 <= d < 1).
  { assert (0 <= sqrt (- ln xi2)) by apply sqrt_pos. assert (sqrt (- ln xi2) < 1) by (rewrite <- sqrt_1; apply sqrt_lt_1_alt; lra).
    unfold d. nra. }
  assert (Ev : @ward_direction NumR TrigR n e1 e2 a a n xi1 xi2 = times (-1) n).
  { rewrite ward_direction_isotropic by (assumption || lra). cbv zeta. fold d. destruct Hf as (A & B & C & D & E & F).
    rewrite E, F, C. set (k := - 2 * _ / _).
    assert (Ek : k = -2 / (1 + d * d)) by (unfold k; field; nra). clearbody k.
    replace (plus n (times k n)) with (times (1 + k) n) by (dvec; apply vec_ext; vunf; ring).
    apply normalized_neg; [assumption|]. rewrite Ek.
    apply Rmult_lt_reg_r with (1 + d * d); [nra|]. replace ((1 + -2 / (1 + d * d)) * (1 + d * d)) with (d * d - 1) by (field; nra). nra. }
  assert (Es : exists spec diffuse weight ray', @sample_ward NumR TrigR n e1 e2 p s rough rough ray (mkWD prob ((xi1, xi2) :: rest) disc) =
     Ret (spec, diffuse, weight, ray') /\ dir_of ray' = times (-1) n).
  { unfold sample_ward. cbv zeta. cbn [wd_prob wd_pairs]. rewrite (Rltb_is_true prob s Hp : @fltb NumR prob s = true).
    set (r0 := set_ray3d ray _ _). assert (D0 : direction (r_geometry r0) = times (-1) n) by exact Hdir. clearbody r0.
    cbn [ward_loop]. rewrite !D0.
    rewrite !rough_value. fold a. rewrite neg_f1, vscale_times.
    replace (times (-1) (times (-1) n)) with n by (dvec; apply vec_ext; vunf; ring). rewrite !Ev.
    change (@vdot NumR n n) with (dot n n). rewrite Un.
    rewrite (Rltb_is_true (0 / 1) 1 ltac:(lra) : @fltb NumR f0 1 = true), Bool.orb_true_r.
    destruct (evaluate_ward _ _ _ _ _ _ _ _) as [spec diffuse].
    rewrite (proj2 (Reqb_true spec spec) eq_refl : @feqb NumR spec spec = true). cbn [negb].
    eexists _, _, _, _. split; reflexivity. }
  destruct Es as (spec & diffuse & weight & ray' & Es & Dr).
  destruct Hm; subst m; cbn [sample_bsdf]; rewrite Es; cbn [obind]; eexists _, _, _; (split; [reflexivity|]); rewrite Dr; auto.
Qed.
Print Assumptions C26_below_surface_refuted.
Example C26_hyp : frame (pt 1 0 0) (pt 0 1 0) up /\ exp (-1) < 1/2 < 1 /\
  dir_of (set_ray3d slanted_ray (pt 0 0 1) (pt 0 0 (-1))) = times (-1) up.
Proof.
  split; [unfold frame, unit, up; vunf; repeat split; ring|]. split.
  - replace (-1) with (Ropp 1) by lra. rewrite exp_Ropp. assert (H : 2 < exp 1).
    { pose proof (exp_ineq1 1 ltac:(lra)). lra. }
    split; [|lra]. unfold Rdiv. rewrite Rmult_1_l. apply Rinv_lt_contravar; lra.
  - unfold dir_of, up. apply vec_ext; cbn; ring.
Qed.

(** moreover the specular branch never leaves the plane of incidence: roughness does not scatter sideways *)
Theorem C26_no_sideways_scatter : forall (n e1 e2 l : VecR) (a b xi1 xi2 : R),
  exists k, ward_direction n e1 e2 a b l xi1 xi2 = vnormalized (plus l (times k n)).
Proof. intros. apply ward_direction_span. Qed.
Print Assumptions C26_no_sideways_scatter.

(** ** C55 - evaluating the BSDF of a specular material along one of the paths it proposes *)
(** a transmitting glass: black along its own transmitted path *)
Theorem C55_glass_refuted : forall ip isd (c : SpecR) (ri : R) (n e1 e2 p : VecR) (ray ray2 : RayTR) p1 v2,
  get_possible_paths (Glass c ri) n p ray = Ret (p1, Some (ray2, v2)) ->
  isd (dir_of ray2) (mirror_direction (dir_of ray) n) = false -> 1 / 10 ^ 15 <= smax c ->
  eval_bsdf ip isd (Glass c ri) n e1 e2 ray (dir_of ray2) = Ret BLACK /\ 0 < radiance v2.
Proof.
  intros ip isd c ri n e1 e2 p ray ray2 p1 v2 H Hd Hm.
  destruct (C23_paths c ri n p ray p1 _ H) as (refl & trans & E & _ & [X | (r2 & X & _)] & I); [discriminate|].
  injection X as <- <-. split.
  - cbn [eval_bsdf]. unfold glass_eval. cbv zeta. fold (dir_of ray).
    destruct (cos_and_n _ _ _ _) as [[[a b] d] e]. destruct (glass_refl_trans _ _ _ _ _) as [u v]. rewrite Hd.
    assert (A : fst (any_transmission c) = true).
    { unfold any_transmission. assert (L : @fltb NumR (smax c) MIN_COLOUR = false).
      { change (Rltb (smax c) (1 / IZR (Zpos (10 ^ 15))) = false). apply Rltb_false.
        assert (Y : IZR (Zpos (10 ^ 15)) = 10 ^ 15) by (rewrite pow_IZR; apply f_equal; reflexivity). rewrite Y. exact Hm. }
      rewrite L. reflexivity. }
    rewrite A. reflexivity.
  - destruct (Rlt_dec 0 (@radiance NumR v2)) as [L|L]; [exact L|]. exfalso.
    assert (Z : @radiance NumR v2 <= 0) by (apply Rnot_lt_le; exact L). apply I in Z. discriminate.
Qed.
Print Assumptions C55_glass_refuted.

(** a dielectric's BSDF times the cosine is its path's value times the colour, so they agree only for white ones *)
Theorem C55_dielectric_partial : forall ip isd (c : SpecR) (ri : R) (n e1 e2 p : VecR) (ray ray1 ray2 : RayTR) (v1 v2 : SpecR),
  unit (dir_of ray) -> unit n -> dot (dir_of ray) n < 0 -> 0 < r_refraction_index ray -> 0 < ri ->
  r_refraction_index ray * sin_of (dot (dir_of ray) n) < beyond (r_refraction_index ray) ri ->
  get_possible_paths (Dielectric c ri) n p ray = Ret (Some (ray1, v1), Some (ray2, v2)) ->
  (forall v, isd v v = true) -> isd (dir_of ray2) (dir_of ray1) = false ->
  exists b1 b2, eval_bsdf ip isd (Dielectric c ri) n e1 e2 ray (dir_of ray1) = Ret b1 /\
    eval_bsdf ip isd (Dielectric c ri) n e1 e2 ray (dir_of ray2) = Ret b2 /\
    smulf b1 (- dot (dir_of ray) n) = smul c v1 /\ smulf b2 (- dot (dir_of ray2) n) = smul c v2.
Proof.
  intros ip isd c ri n e1 e2 p ray ray1 ray2 v1 v2 U V D P1 P2 Hs H Hrefl Hdiff.
  destruct (C22_paths c ri n p ray U V D P1 P2) as (r1 & w1 & p2 & E & Er1 & _ & _ & _ & Some2). rewrite E in H. injection H as -> -> ->.
  assert (Es : sin_of (dot (dir_of ray) n) = sin_of (- dot (dir_of ray) n)) by (unfold sin_of; f_equal; ring).
  rewrite Es in Hs. destruct (Some2 Hs) as (r2 & w2 & c2 & E2 & Hc2 & _ & Hd2 & _ & _ & _ & _ & F1 & F2). injection E2 as <- <-.
  cbn [get_possible_paths eval_bsdf] in *. unfold dielectric_paths, dielectric_eval in *. cbv zeta in *. fold (dir_of ray) in *.
  destruct (cos_and_n_value (dir_of ray) (r_refraction_index ray) n ri U V P1 P2) as (Pn & _ & Ec). cbv zeta in Ec.
  destruct (cos_and_n (dir_of ray) (r_refraction_index ray) n ri) as [[[a b] d] e]. injection Ec as -> -> -> Ee.
  destruct e as [e|]; [|destruct (dielectric_refl_trans _ _ _ _ _); discriminate].
  destruct (dielectric_refl_trans c (r_refraction_index ray) _ _ (Some e)) as [refl trans] eqn:Ert.
  injection E as E1 E3 E4 E5.
  rewrite <- Er1, Hrefl. eexists _, _. split; [reflexivity|].
  assert (Et : dir_of ray2 = fresnel_transmission_dir (dir_of ray) n (r_refraction_index ray) (Rabs (dot (dir_of ray) n)) (beyond (r_refraction_index ray) ri) e)
    by (rewrite <- E4; reflexivity).
  rewrite Hdiff, <- Et, Hrefl. split; [reflexivity|].
  assert (Ec2 : e = c2).
  { assert (X := Hd2). rewrite Et in X. unfold fresnel_transmission_dir in X. cbv zeta in X.
    rewrite vadd_plus, !vscale_times, dot_plus_l, !dot_times_l in X. unfold unit in V. rewrite V, Rabs_left in X by assumption. rsimp. lra. }
  rewrite Hd2, <- E3, <- E5, Ec2, Rabs_left by assumption. replace (- - c2) with c2 by ring.
  generalize (- dot (dir_of ray) n) c2. intros k1 k2. clear. spec_tac. split; f_equal; ring.
Qed.
Print Assumptions C55_dielectric_partial.

(** any glass: in the direction of its own reflected path, exactly the value of that path (no cosine is divided out) *)
Theorem C55_glass_reflected : forall ip isd (c : SpecR) (ri : R) (n e1 e2 p : VecR) (ray ray1 : RayTR) v1 p2,
  get_possible_paths (Glass c ri) n p ray = Ret (Some (ray1, v1), p2) -> (forall v, isd v v = true) ->
  eval_bsdf ip isd (Glass c ri) n e1 e2 ray (dir_of ray1) = Ret v1.
Proof.
  intros ip isd c ri n e1 e2 p ray ray1 v1 p2 H Hs. cbn [get_possible_paths eval_bsdf] in *.
  unfold glass_paths, glass_eval in *. cbv zeta in *. fold (dir_of ray) in *.
  destruct (cos_and_n _ _ _ _) as [[[a b] d] e]. destruct (glass_refl_trans _ _ _ _ _) as [u v].
  injection H as E1 E2 _. rewrite <- E1.
  change (dir_of (set_ray3d ray (vadd p (vscale n SHIFT)) (mirror_direction (dir_of ray) n))) with (mirror_direction (dir_of ray) n).
  rewrite Hs, E2. reflexivity.
Qed.
Print Assumptions C55_glass_reflected.

(** glass that lets no colour through: straight on it is black, as it should be; but in EVERY other direction that is not
    the mirror one its BSDF is one over the cosine, although it proposes no path there: an opaque pane would be brighter
    than a white wall seen from anywhere *)
Theorem C55_opaque_glass_refuted : forall ip isd (c : SpecR) (ri : R) (n e1 e2 p o : VecR) (ray : RayTR) p1 p2,
  get_possible_paths (Glass c ri) n p ray = Ret (p1, p2) -> smax c < 1 / 10 ^ 15 ->
  unit (dir_of ray) -> unit n -> 0 < r_refraction_index ray -> 0 < ri ->
  r_refraction_index ray * sin_of (Rabs (dot (dir_of ray) n)) <= beyond (r_refraction_index ray) ri ->
  isd o (mirror_direction (dir_of ray) n) = false ->
  p2 = None /\
  (isd o (dir_of ray) = true -> eval_bsdf ip isd (Glass c ri) n e1 e2 ray o = Ret BLACK) /\
  (isd o (dir_of ray) = false ->
   eval_bsdf ip isd (Glass c ri) n e1 e2 ray o = Ret (sdivf ONE (Rabs (dot (dir_of ray) n)))).
Proof.
  intros ip isd c ri n e1 e2 p o ray p1 p2 H Hm U V P1 P2 Hs Hd.
  assert (A : fst (any_transmission c) = false).
  { unfold any_transmission. assert (L : @fltb NumR (smax c) MIN_COLOUR = true).
    { change (Rltb (smax c) (1 / IZR (Zpos (10 ^ 15))) = true). apply Rltb_true.
      assert (Y : IZR (Zpos (10 ^ 15)) = 10 ^ 15) by (rewrite pow_IZR; apply f_equal; reflexivity). rewrite Y. exact Hm. }
    rewrite L. reflexivity. }
  destruct (C23_paths c ri n p ray p1 p2 H) as (refl & trans & E & _ & _ & I).
  assert (T : trans = BLACK).
  { unfold glass_refl_trans in E. cbv zeta in E. rewrite A in E. injection E as _ <-. reflexivity. }
  split.
  - apply I. rewrite T. unfold radiance, BLACK. cbn. rsimp. lra.
  - cbn [eval_bsdf]. unfold glass_eval. cbv zeta. fold (dir_of ray).
    destruct (cos_and_n_value (dir_of ray) (r_refraction_index ray) n ri U V P1 P2) as (Pn & _ & Ec). cbv zeta in Ec.
    rewrite Ec. rewrite E, Hd, A. destruct (Rlt_dec _ _) as [L|L]; [lra|].
    split; intros X; rewrite X; [|reflexivity]. rewrite T. f_equal. unfold BLACK. spec_tac. f_equal; lra.
Qed.
Print Assumptions C55_opaque_glass_refuted.
Example C55_opaque_hyp : smax (rgb 0 0 0) < 1 / 10 ^ 15 /\
  r_refraction_index slanted_ray * sin_of (Rabs (dot (dir_of slanted_ray) up)) <= beyond (r_refraction_index slanted_ray) (3/2) /\
  sdivf ONE (Rabs (dot (dir_of slanted_ray) up)) = rgb (5/4) (5/4) (5/4).
Proof.
  change (dir_of slanted_ray) with slanted. destruct slanted_ok as (U & V & D). cbn [r_refraction_index slanted_ray].
  rewrite D. rewrite (proj2 (C19_leaves_to_air 1 (3/2))) by (rewrite Rabs_left; lra).
  rewrite Rabs_left by lra. split; [|split].
  - replace (smax (rgb 0 0 0)) with 0; [assert (0 < 10 ^ 15) by (apply pow_lt; lra); apply Rdiv_lt_0_compat; lra|].
    unfold smax, rgb. cbn [sr sg sb]. rsimp. destruct (Rltb 0 0); [destruct (Rltb 0 0); reflexivity|destruct (Rltb 0 0); reflexivity].
  - unfold sin_of. replace (1 - - (-4 / 5) * - (-4 / 5)) with (Rsqr (3/5)) by (unfold Rsqr; field). rewrite sqrt_Rsqr; lra.
  - unfold rgb. spec_tac. f_equal; field.
Qed.
