(** * Property C77: where a light is, seen from a point; C59: the density claimed for triangular lights (real arithmetic) *)
From Verif Require Import NumR Geometry Triangle Sphere Scene Samplers Primitives SpecGeom SpecOptics TriangleProofs MaterialProofs P_Samplers P_Density SpecBvh Bvh BvhQuery.
Open Scope R_scope.

Lemma norm_zero_iff (v : VecR) : norm v = 0 -> v = pt 0 0 0.
Proof.
  intros H. unfold norm in H. apply sqrt_eq_0 in H; [|dvec; vunf; nra]. destruct v as [x y z]. vunf.
  change R in x, y, z. unfold dot in H. cbn [vx vy vz] in H. assert (x = 0 /\ y = 0 /\ z = 0) as (-> & -> & ->) by (repeat split; nra). reflexivity.
Qed.

Lemma scaled_unit (v : VecR) : v <> pt 0 0 0 -> unit (vdivs v (vlen v)) /\ times (norm v) (vdivs v (vlen v)) = v.
Proof.
  intros Hv. change (vlen v) with (norm v). assert (Hn : norm v <> 0) by (intros Z; apply Hv, norm_zero_iff, Z).
  assert (S : norm v * norm v = dot v v) by (apply sqrt_sqrt; destruct v; vunf; nra). set (l := norm v) in *. clearbody l. destruct v as [x y z]. change R in x, y, z. split.
  - unfold unit, dot, vdivs in *. cbn [vx vy vz] in *. cbn [fdiv NumR]. change (x / l * (x / l) + y / l * (y / l) + z / l * (z / l) = 1). replace (x / l * (x / l) + y / l * (y / l) + z / l * (z / l)) with ((x * x + y * y + z * z) / (l * l)) by (field; exact Hn).
    rewrite <- S. field. exact Hn.
  - apply vec_ext; unfold times, pt, vdivs; cbn [vx vy vz fdiv NumR]; match goal with |- ?a = ?b => change (@eq R a b) end; field; exact Hn.
Qed.

(** ** specification
    the light's point: the centroid of a triangle; the point of a sphere that is nearest to the observer *)
Definition centroid (t : TriR) : VecR := times (1/3) (plus (ta t) (plus (tb t) (tc t))).
Definition on_sphere (s : @Sphere3D NumR) (q : VecR) : Prop := dist q (s_centre s) = s_radius s.

(** Asked for the direction of a triangle, the primitive answers with a unit vector and a distance that lead from the point to the
    centroid of the triangle. *)
Theorem C77_triangle : forall (t : TriR) (p : VecR), p <> centroid t -> exists (l : R) d, prim_direction (PTriangle t) p = Ret (l, d) /\
  unit d /\ l = dist (centroid t) p /\ 0 < l /\ plus p (times l d) = centroid t.
Proof.
  intros t p Hp. do 2 eexists. split; [reflexivity|].
  match goal with |- context [vsub ?c p] => replace c with (centroid t) by (unfold centroid; destruct t as [a b c0]; dvec; apply vec_ext; vunf; field) end.
  assert (Hv : vsub (centroid t) p <> pt 0 0 0).
  { intros Z. apply Hp. symmetry. destruct (centroid t) as [cx cy cz], p as [x y z]. change R in cx, cy, cz, x, y, z. unfold vsub, pt in Z. cbn [vx vy vz fsub NumR] in Z.
    injection Z as Z1 Z2 Z3. apply vec_ext; cbn [vx vy vz]; lra. }
  destruct (scaled_unit _ Hv) as [U W]. split; [exact U|]. change (vsub (centroid t) p) with (minus (centroid t) p) in *. split; [reflexivity|]. split.
  - change (0 < norm (minus (centroid t) p)). destruct (Rle_lt_or_eq_dec 0 (norm (minus (centroid t) p)) (sqrt_pos _)) as [L|L]; [exact L|exfalso; apply Hv, norm_zero_iff; symmetry; exact L].
  - change (vlen (minus (centroid t) p)) with (norm (minus (centroid t) p)) in *. rewrite W. destruct (centroid t), p. apply vec_ext; vunf; ring.
Qed.
Print Assumptions C77_triangle.

Lemma schwarz3 (u v : VecR) : dot u v * dot u v <= dot u u * dot v v.
Proof.
  destruct u as [a b c], v as [x y z]. change R in a, b, c, x, y, z. unfold dot. cbn [vx vy vz].
  pose proof (Rle_0_sqr (a * y - b * x)) as H1. pose proof (Rle_0_sqr (a * z - c * x)) as H2. pose proof (Rle_0_sqr (b * z - c * y)) as H3. unfold Rsqr in *.
  match goal with |- ?A <= ?B => assert (E : B - A = (a * y - b * x) * (a * y - b * x) + (a * z - c * x) * (a * z - c * x) + (b * z - c * y) * (b * z - c * y)) by ring end. lra.
Qed.

(** For a sphere seen from outside: a unit vector and a distance that lead to a point of the sphere, and no point of it is nearer. *)
Theorem C77_sphere : forall (s : @Sphere3D NumR) (p : VecR), 0 <= s_radius s -> s_radius s < dist (s_centre s) p -> exists (l : R) d, prim_direction (PSphere s) p = Ret (l, d) /\
  unit d /\ 0 < l /\ on_sphere s (plus p (times l d)) /\ forall q, on_sphere s q -> l <= dist q p.
Proof.
  intros s p Hr Hp. do 2 eexists. split; [reflexivity|]. change (vsub (s_centre s) p) with (minus (s_centre s) p).
  set (c := s_centre s) in *. set (r := s_radius s : R) in *. 
  assert (Hv : minus c p <> pt 0 0 0). { intros Z. unfold dist in Hp. rewrite Z in Hp. unfold norm in Hp. replace (dot (pt 0 0 0) (pt 0 0 0)) with 0 in Hp by (vunf; ring). rewrite sqrt_0 in Hp. lra. }
  destruct (scaled_unit _ Hv) as [U W]. split; [exact U|]. change (vlen (minus c p)) with (dist c p) in *. change (norm (minus c p)) with (dist c p) in W.
  set (d := vdivs (minus c p) (dist c p)) in *. clearbody d. change (@fsub NumR (dist c p) r) with (dist c p - r). split; [lra|]. 
  assert (Hl : 0 < dist c p) by lra.
  assert (Cp : c = plus p (times (dist c p) d)). { rewrite W. destruct c, p. apply vec_ext; vunf; ring. }
  set (l := dist c p) in *. split.
  - unfold on_sphere. change (s_centre s) with c. change (s_radius s) with r. unfold dist. rewrite Cp at 1.
    replace (minus (plus p (times (l - r) d)) (plus p (times l d))) with (times (- r) d) by (destruct p, d; apply vec_ext; vunf; ring).
    unfold norm. unfold unit in U. replace (dot (times (- r) d) (times (- r) d)) with (r * r * dot d d) by (destruct d; vunf; ring). rewrite U, Rmult_1_r. apply sqrt_square. exact Hr.
  - intros q Hq. unfold on_sphere in Hq. change (s_centre s) with c in Hq. change (s_radius s) with r in Hq.
    (* l = |c - p| = (c - q).d + (q - p).d <= r + |q - p| *)
    assert (Q1 : l = dot (minus c q) d + dot (minus q p) d).
    { transitivity (dot (minus c p) d); [|destruct c, q, p, d; vunf; ring]. rewrite <- W. unfold unit in U. replace (dot (times l d) d) with (l * dot d d) by (destruct d; vunf; ring). rewrite U; ring. }
    assert (CS : forall w : VecR, dot w d <= norm w).
    { intros w. pose proof (schwarz3 w d) as SW. unfold unit in U. rewrite U, Rmult_1_r in SW. unfold norm. assert (0 <= dot w w) by (destruct w; vunf; nra). 
      destruct (Rle_lt_dec (dot w d) 0) as [L|L]; [pose proof (sqrt_pos (dot w w)); lra|]. rewrite <- (sqrt_square (dot w d)) by lra. apply sqrt_le_1_alt. exact SW. }
    pose proof (CS (minus c q)) as A1. pose proof (CS (minus q p)) as A2. change (norm (minus q p)) with (dist q p) in A2.
    replace (norm (minus c q)) with (dist q c) in A1 by (unfold dist, norm; f_equal; destruct c, q; vunf; ring). lra.
Qed.
Print Assumptions C77_sphere.

(** Distant sources answer with their own direction, and a distance larger than anything in the scene; cylinders panic. *)
Theorem C77_rest : forall (p : VecR),
  (forall d, exists l : R, prim_direction (N := NumR) (PSource d) p = Ret (l, ds_direction d) /\ l = float_max - 1) /\ (forall c, prim_direction (N := NumR) (PCylinder c) p = Crash).
Proof.
  intros p. split; [|reflexivity]. intros d. exists (@FMAX NumR - 1). split.
  - cbn [prim_direction]. unfold source_direction. f_equal. f_equal. cbn [fsub NumR]. unfold f1. cbn [flit NumR]. generalize (@FMAX NumR). intros x. change R in x. change (x - 1 / 1 = x - 1). lra.
  - rewrite FMAX_val. reflexivity.
Qed.
Print Assumptions C77_rest.

(** a plate above the origin, and a sphere around (0,0,5) *)
Example C77_hyp : pt 0 0 0 <> centroid (mkTri (pt 0 0 3) (pt 1 0 3) (pt 0 1 3)) /\ (1 : R) < dist (pt 0 0 5) (pt 0 0 0).
Proof.
  split; [intros Z; apply (f_equal (@vz NumR)) in Z; cbn in Z; lra|]. unfold dist, norm. replace (dot _ _) with (5 * 5) by (vunf; ring). rewrite sqrt_square; lra.
Qed.

(** ** the density of a triangular light
    A point is drawn uniformly on the triangle, of area A (C58); the direction from o towards it then has density
    (squared distance) / (A * |cosine between the direction and the normal|) over the solid angle. *)
Definition patch_density (A : R) (o q n : VecR) : R := dist2 q o / (A * Rabs (dot (times (/ dist q o) (minus q o)) n)).

(** what is claimed instead: the cosine is taken with the POSITION of the observer, and from one side of the plane it is zero *)
Theorem C59_triangle_partial : forall (O : @Geo NumR) (t : TriR) (info : @IntersectionInfo NumR) (ray : RayR),
  let o := origin ray in let q := i_p info in let n := i_normal info in let A := @triangle3d_area NumR O t : R in
  (dot o n < 1 / 10000000 -> solid_angle_pdf (PTriangle t) info ray = Ret (0 : R)) /\
  (1 / 10000000 <= dot o n -> 0 < A -> 0 < Rabs (dot (times (/ dist q o) (minus q o)) n) ->
     exists p : R, solid_angle_pdf (PTriangle t) info ray = Ret p /\ p = patch_density A o q n * (Rabs (dot (times (/ dist q o) (minus q o)) n) / dot o n)).
Proof.
  intros O t info ray o q n A. split.
  - intros H. cbn [solid_angle_pdf]. unfold light_triangle_pdf. change (@vdot NumR (origin ray) (i_normal info)) with (dot o n).
    assert (L : @fltb NumR (dot o n) (flit 1 10000000) = true) by (apply Rltb_is_true; cbn; lra). rewrite L. f_equal. cbn. lra.
  - intros H HA HC. eexists. split; [cbn [solid_angle_pdf]; reflexivity|]. unfold light_triangle_pdf. change (@vdot NumR (origin ray) (i_normal info)) with (dot o n).
    assert (L : @fltb NumR (dot o n) (flit 1 10000000) = false) by (apply Rltb_is_false; cbn; lra). rewrite L.
    change (@vlen2 NumR (vsub (i_p info) (origin ray))) with (dist2 q o). change (@fabs NumR (dot o n)) with (Rabs (dot o n)). rewrite (Rabs_pos_eq (dot o n)) by lra.
    change (@triangle3d_area NumR O t) with A. unfold patch_density. set (k := Rabs _) in *. clearbody k. cbn [fdiv NumR].
    set (D := dist2 q o). set (w := dot o n) in *. clearbody D w A. change R in D, w, A, k. change (D / w / A = D / (A * k) * (k / w)). field. repeat split; lra.
Qed.
Print Assumptions C59_triangle_partial.

(** a lamp one metre above an observer who stands at height z: the claimed density is 1/z of the right one *)
Theorem C59_triangle_refuted : forall (O : @Geo NumR) (t : TriR) (z : R), 0 < z -> @triangle3d_area NumR O t = (1 / 2 : R) -> 1 / 10000000 <= z ->
  forall info : @IntersectionInfo NumR, i_p info = pt 0 0 (z + 1) -> i_normal info = pt 0 0 1 ->
  let ray := mkRay3D (pt 0 0 z) (pt 0 0 1) in
  patch_density (1/2) (origin ray) (i_p info) (i_normal info) = 2 /\ exists p : R, solid_angle_pdf (PTriangle t) info ray = Ret p /\ p = 2 / z.
Proof.
  intros O t z Hz HA Hz2 info Hp Hn ray. 
  assert (D : dist (pt 0 0 (z + 1)) (pt 0 0 z) = 1). { unfold dist, norm. replace (dot _ _) with (1 * 1) by (vunf; ring). apply sqrt_square; lra. }
  assert (K : Rabs (dot (times (/ dist (i_p info) (origin ray)) (minus (i_p info) (origin ray))) (i_normal info)) = 1).
  { rewrite Hp, Hn. cbn [origin ray]. rewrite D. replace (dot _ _) with 1 by (vunf; field). apply Rabs_R1. }
  assert (PD : patch_density (1/2) (origin ray) (i_p info) (i_normal info) = 2).
  { unfold patch_density. rewrite K, Hp. cbn [origin ray]. unfold dist2. replace (dot _ _) with 1 by (vunf; ring). field. }
  split; [exact PD|]. destruct (C59_triangle_partial O t info ray) as [_ H].
  assert (N0 : dot (origin ray) (i_normal info) = z) by (rewrite Hn; cbn [origin ray]; vunf; ring).
  destruct H as (p & Q & V); [rewrite N0; exact Hz2|rewrite HA; lra|rewrite K; lra|]. exists p. split; [exact Q|]. rewrite V, K, N0, HA, PD. field. lra.
Qed.
Print Assumptions C59_triangle_refuted.
