(** * Properties C86, C87: rebuilding catches up with everything pushed; the ray/triangle test decides exactly *)
From Coq Require Import Permutation.
From Verif Require Import NumR Geometry Triangle Sphere Colour Ray Bvh Material Scene SpecGeom SpecBvh SpecScene TriangleProofs BvhProofs BvhReal BvhReal2 BvhQuery BvhExamples MaterialProofs SceneProofs TracerScenes P_Triangle P_Bvh P_Scene P_Order.
Open Scope R_scope.

(** ** C86 - whatever was done to the scene before (objects pushed before or after earlier rebuilds), one rebuild makes every
    query answer about all the objects pushed so far, each under the material and normals it was pushed with *)
Theorem C86_rebuild : forall E, externals_ok E -> forall h s, play scene_new h = Ret s -> sized (pushed h) ->
  exists s', rebuild_accelerator s = Ret s' /\ Permutation (records (sc_arrays s')) (pushed h) /\
  (forall fuel (r : @Ray NumR) aux, (2 * length (pushed h) <= fuel)%nat ->
    let ray := r_geometry r in
    (exists j rc d x aux',
       cast_ray fuel s' r aux = Ret (Some (Z.of_nat j), set_interaction r x, aux') /\
       nth_error (records (sc_arrays s')) j = Some rc /\ In rc (pushed h) /\
       touches ray (shape rc) d /\ in_sight ray d /\ i_p (x_shading x) = along ray d /\
       forall rc' d', In rc' (pushed h) -> crosses ray (shape rc') d' -> in_sight ray d' -> reach2 ray d <= reach2 ray d') \/
    (exists aux', cast_ray fuel s' r aux = Ret (None, r, aux') /\
       forall rc d, In rc (pushed h) -> ~ (crosses ray (shape rc) d /\ in_sight ray d))) /\
  (forall fuel ray d2 aux, (2 * length (pushed h) <= fuel)%nat ->
    exists clear aux', scene_unobstructed_distance fuel s' ray d2 aux = Ret (clear, aux') /\
    ((exists rc d, In rc (pushed h) /\ crosses ray (shape rc) d /\ in_the_way ray d2 d) -> clear = false) /\
    (clear = false -> exists rc d, In rc (pushed h) /\ touches ray (shape rc) d /\ in_the_way ray d2 d)).
Proof.
  intros E HE h s H HZ. destruct (rebuilt_answers E HE h s H HZ) as (s' & HB & _ & HP & HC & HS).
  exists s'. split; [exact HB|]. split; [exact HP|]. split; [|exact HS].
  intros fuel r aux Hf ray. destruct (HC fuel r aux Hf) as [(j & rc & d & x & b & C1 & C2 & C3 & C4 & C5 & C6 & _ & _ & _ & C10)|K]; [left|right; exact K].
  exists j, rc, d, x, b. auto 10.
Qed.
Print Assumptions C86_rebuild.
(** the object that C10_blind_spot_refuted shows to be invisible is seen after a rebuild *)
Example C86_hyp : exists s, play (E := ext_example) scene_new blind_history = Ret s /\ sized (pushed blind_history) /\
  exists s', rebuild_accelerator (E := ext_example) s = Ret s' /\ forall (r : @Ray NumR) aux,
    exists j x aux', cast_ray (E := ext_example) 2 s' (down_ray r) aux = Ret (Some j, set_interaction (down_ray r) x, aux').
Proof.
  eexists. split; [reflexivity|]. assert (Z : sized (pushed blind_history)) by (split; [cbn; lia|apply uncrowded_few; cbn; lia]). split; [exact Z|].
  destruct (C86_rebuild ext_example ext_example_ok blind_history _ eq_refl Z) as (s' & HB & _ & HC & _). exists s'. split; [exact HB|].
  intros r aux. destruct (HC 2%nat (down_ray r) aux ltac:(cbn; lia)) as [(j & rc & d & x & b & C1 & _)|(b & _ & K)]; [eauto|exfalso].
  pose proof C03_hyp as (_ & H1 & H2 & _). eapply (K _ 1); [left; reflexivity|]. split; [exact H1|exact H2].
Qed.

(** ** C87 *)
(** the test answers with a point exactly when the line meets the triangle, within the tolerance on the barycentric
    coordinates, more than 1e-5 ahead, and the triangle is not too small or too much seen from its edge *)
Theorem C87_decides : forall (t : TriR) (ray : RayR) p,
  simple_triangle_intersect t ray = Some p <-> exists s, touches ray t s /\ p = along ray s.
Proof.
  intros t ray p. unfold simple_triangle_intersect. split.
  - destruct (baricentric_coordinates ray t) as [[[q u] v]|] eqn:B; [|discriminate]. intros H.
    assert (Q : q = p) by congruence. subst q. destruct (bary_sound _ _ _ _ _ B) as (s & H1 & H2 & H3 & H4 & H5 & H6 & H7 & H8).
    exists s. split; [|exact H2]. split; [exact H4|]. split; [exact H1|]. exists u, v. rewrite <- H2, H3. auto.
  - intros (s & (H1 & H2 & u & v & H3 & [H4 H5] & H6 & H7) & ->). rewrite (bary_complete_gen ray t s u v) by assumption. reflexivity.
Qed.
Print Assumptions C87_decides.
Theorem C87_decides_full : forall (t : TriR) (ray : RayR),
  (exists info, triangle_intersect t ray = Some info) <-> exists s, touches ray t s.
Proof.
  intros t ray. pose proof (C11_simple_same t ray) as S. split.
  - intros [info H]. rewrite H in S. apply C87_decides in S. destruct S as (s & S & _). eauto.
  - intros [s H]. destruct (triangle_intersect t ray) as [info|]; [eauto|]. cbn [option_map] in S.
    assert (K : simple_triangle_intersect t ray = Some (along ray s)) by (apply C87_decides; eauto). rewrite K in S. discriminate.
Qed.
Print Assumptions C87_decides_full.

(** what "too small or seen from its edge" means: twice the area times the cosine at which it is seen is under 1e-5 *)
Theorem C87_threshold : forall (t : TriR) (ray : RayR), unit (direction ray) -> triangle_area t <> 0 ->
  exists n, unit n /\ dot n (minus (tb t) (ta t)) = 0 /\ dot n (minus (tc t) (ta t)) = 0 /\
    Rabs (volume ray t) = 2 * triangle_area t * Rabs (dot n (direction ray)).
Proof.
  intros t ray HU HA. set (c := cross (minus (tb t) (ta t)) (minus (tc t) (ta t))).
  assert (HN : c <> pt 0 0 0) by (intros D; apply HA; apply area_zero; exact D).
  pose proof (norm_pos _ HN) as NP.
  exists (times (/ norm c) c). repeat split.
  - unfold unit. rewrite dot_times_l. replace (dot c (times (/ norm c) c)) with (/ norm c * dot c c) by (clear; dvec; vunf; ring).
    rewrite <- (norm_sq c). field. lra.
  - rewrite dot_times_l. destruct (cross_orth (minus (tb t) (ta t)) (minus (tc t) (ta t))) as [O1 O2]. fold c in O1. rewrite O1. ring.
  - rewrite dot_times_l. destruct (cross_orth (minus (tb t) (ta t)) (minus (tc t) (ta t))) as [O1 O2]. fold c in O2. rewrite O2. ring.
  - rewrite area_value. fold c. rewrite dot_times_l, Rabs_mult, (Rabs_pos_eq (/ norm c)) by (left; apply Rinv_0_lt_compat; exact NP).
    replace (volume ray t) with (- dot c (direction ray)).
    + rewrite Rabs_Ropp. field. lra.
    + unfold volume, c. clear. destruct t as [a b e], ray as [o d]. cbn [ta tb tc direction]. dvec. vunf. ring.
Qed.
Print Assumptions C87_threshold.


Lemma cauchy (a b : VecR) : dot a b <= norm a * norm b.
Proof.
  destruct (Rle_dec (dot a b) 0) as [A|A]; [pose proof (sqrt_pos (dot a a)); pose proof (sqrt_pos (dot b b)); unfold norm; nra|].
  apply Rsqr_incr_0_var; [|pose proof (sqrt_pos (dot a a)); pose proof (sqrt_pos (dot b b)); unfold norm; nra].
  unfold Rsqr. replace (norm a * norm b * (norm a * norm b)) with ((norm a * norm a) * (norm b * norm b)) by ring. rewrite !norm_sq.
  apply cauchy_schwarz.
Qed.
Lemma norm_plus_le (a b : VecR) : norm (plus a b) <= norm a + norm b.
Proof.
  pose proof (sqrt_pos (dot a a)) as A. pose proof (sqrt_pos (dot b b)) as B. fold (norm a) in A. fold (norm b) in B.
  apply Rsqr_incr_0_var; [|lra]. unfold Rsqr. rewrite norm_sq. pose proof (cauchy a b) as C. pose proof (norm_sq a) as NA. pose proof (norm_sq b) as NB.
  replace (dot (plus a b) (plus a b)) with (dot a a + 2 * dot a b + dot b b) by (clear; dvec; vunf; ring). nra.
Qed.
Lemma norm_scaled (k : R) (a : VecR) : norm (times k a) = Rabs k * norm a.
Proof.
  unfold norm. replace (dot (times k a) (times k a)) with (Rsqr k * dot a a) by (unfold Rsqr; clear; dvec; vunf; ring).
  rewrite sqrt_mult_alt by apply Rle_0_sqr. rewrite sqrt_Rsqr_abs. reflexivity.
Qed.
Lemma clamp_coordinates (u v e : R) : 0 < e <= 1/4 -> - e <= u -> - e <= v -> u + v <= 1 + e ->
  exists u' v', 0 <= u' /\ 0 <= v' /\ u' + v' <= 1 /\ Rabs (u - u') <= 2 * e /\ Rabs (v - v') <= 2 * e.
Proof.
  intros He U V UV. set (x := Rmax 0 (Rmax 0 u + Rmax 0 v - 1)).
  destruct (Rle_dec (Rmax 0 u) (Rmax 0 v)) as [L|L]; [exists (Rmax 0 u), (Rmax 0 v - x)|exists (Rmax 0 u - x), (Rmax 0 v)]; unfold x, Rmax in *;
  repeat match goal with |- context [Rle_dec ?a ?b] => destruct (Rle_dec a b) | K : context [Rle_dec ?a ?b] |- _ => destruct (Rle_dec a b) end;
  repeat split; try lra; unfold Rabs; destruct (Rcase_abs _); lra.
Qed.
(** a reported point is a point of the triangle but for a rim of 2^-51 of its edges *)
Theorem C87_rim : forall (t : TriR) (ray : RayR) info, triangle_intersect t ray = Some info ->
  exists q, on_triangle t q /\ dist (i_p info) q <= 2 * epsilon * (norm (minus (tb t) (ta t)) + norm (minus (tc t) (ta t))).
Proof.
  intros t ray info H. destruct (C11_hit_sound _ _ _ H) as (s & _ & _ & HB & [U1 U2] & V1 & UV).
  set (u := i_u info) in *. set (v := i_v info) in *. clearbody u v. set (p := i_p info) in *. clearbody p. change R in u. change R in v.
  assert (He : 0 < epsilon) by (rewrite <- EPS_val; apply EPS_pos).
  assert (Hs : epsilon <= 1 / 4) by (unfold epsilon; replace (1 / 4) with (/ 2 ^ 2) by field; apply Rinv_le_contravar; [apply pow_lt; lra|apply Rle_pow; [lra|lia]]).
  destruct (clamp_coordinates u v epsilon (conj He Hs) U1 V1 UV) as (u' & v' & A & B & C & DU & DV).
  exists (bary t u' v'). split; [exists u', v'; auto|].
  unfold dist. rewrite HB. replace (minus (bary t u v) (bary t u' v')) with (plus (times (u - u') (minus (tb t) (ta t))) (times (v - v') (minus (tc t) (ta t)))).
  - eapply Rle_trans; [apply norm_plus_le|]. rewrite !norm_scaled.
    pose proof (sqrt_pos (dot (minus (tb t) (ta t)) (minus (tb t) (ta t)))) as P1. pose proof (sqrt_pos (dot (minus (tc t) (ta t)) (minus (tc t) (ta t)))) as P2.
    fold (norm (minus (tb t) (ta t))) in P1. fold (norm (minus (tc t) (ta t))) in P2. nra.
  - clear. destruct t as [a b e]. cbn [ta tb tc]. apply vec_ext; dvec; vunf; ring.
Qed.
Print Assumptions C87_rim.
(** the half unit square from above: seen, touched, and the threshold is met; and a history that pushes an object after a rebuild *)
Example C87_hyp : touches (down (1/4) (1/4) 1) unit_tri 1 /\ unit (direction (down (1/4) (1/4) 1)) /\ triangle_area unit_tri <> 0.
Proof.
  split; [|split; [unfold unit, down; vunf; ring|rewrite C13_area_nonzero; lra]].
  assert (He : 0 < epsilon) by (rewrite <- EPS_val; apply EPS_pos).
  split; [unfold unit_tri; rewrite down_volume, Rabs_pos_eq; lra|]. split; [lra|].
  exists (1/4), (1/4). split; [apply vec_ext; unfold unit_tri, down; vunf; field|]. lra.
Qed.
