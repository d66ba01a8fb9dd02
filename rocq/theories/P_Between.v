(** * Properties C90, C91: the order of a triangle's vertices does not matter; shadow rays are reversible *)
From Coq Require Import Permutation.
From Verif Require Import NumR Geometry Triangle Sphere Colour Ray Bvh Material Scene SpecGeom SpecBvh SpecScene TriangleProofs BvhProofs BvhReal BvhReal2 BvhQuery BvhExamples MaterialProofs SceneProofs TracerScenes P_Triangle P_Bvh P_Scene P_Order P_Exact.
Open Scope R_scope.

(** the six orders of three vertices: cyclic shifts keep the turn, exchanges reverse it *)
Inductive reordered : bool -> TriR -> TriR -> Prop :=
| ro_same a b c : reordered true (mkTri a b c) (mkTri a b c)
| ro_next a b c : reordered true (mkTri a b c) (mkTri b c a)
| ro_prev a b c : reordered true (mkTri a b c) (mkTri c a b)
| ro_swap1 a b c : reordered false (mkTri a b c) (mkTri b a c)
| ro_swap2 a b c : reordered false (mkTri a b c) (mkTri a c b)
| ro_swap3 a b c : reordered false (mkTri a b c) (mkTri c b a).
Definition other (s : SurfaceSide) : SurfaceSide := match s with Front => Back | Back => Front | s => s end.

Lemma reordered_points k t t' p : reordered k t t' -> on_triangle t p -> on_triangle t' p.
Proof.
  intros H (u & v & U & V & UV & ->).
  destruct H; unfold bary; cbn [ta tb tc];
  [exists u, v|exists v, (1 - u - v)|exists (1 - u - v), u|exists (1 - u - v), v|exists v, u|exists u, (1 - u - v)]; (split; [lra|]); (split; [lra|]); (split; [lra|]);
  unfold bary; cbn [ta tb tc]; apply vec_ext; dvec; vunf; ring.
Qed.
Lemma reordered_normal k t t' : reordered k t t' ->
  cross (minus (tb t') (ta t')) (minus (tc t') (ta t')) = times (if k then 1 else -1) (cross (minus (tb t) (ta t)) (minus (tc t) (ta t))).
Proof. intros H. destruct H; cbn [ta tb tc]; apply vec_ext; dvec; vunf; ring. Qed.
Lemma volume_cross ray t : volume ray t = - dot (cross (minus (tb t) (ta t)) (minus (tc t) (ta t))) (direction ray).
Proof. unfold volume. destruct t as [a b e], ray as [o d]. cbn [ta tb tc direction]. dvec. vunf. ring. Qed.
Lemma reordered_volume k t t' ray : reordered k t t' -> Rabs (volume ray t') = Rabs (volume ray t).
Proof.
  intros H. rewrite !volume_cross, (reordered_normal k t t' H), dot_times_l, !Rabs_Ropp, Rabs_mult. destruct k; [rewrite Rabs_R1; ring|].
  rewrite (Rabs_left (-1)) by lra. ring.
Qed.
Lemma reordered_crosses k t t' ray s : reordered k t t' -> crosses ray t s -> crosses ray t' s.
Proof. intros H (A & B & C). split; [eapply reordered_points; eassumption|]. split; [rewrite (reordered_volume k t t' ray H); exact B|exact C]. Qed.
Lemma crosses_hit ray t s : crosses ray t s -> exists info, triangle_intersect t ray = Some info /\ i_p info = along ray s.
Proof.
  intros ((u & v & U & V & UV & Q) & B & C). destruct (C12_hit_complete_partial t ray s u v Q U V UV C B) as (info & I & P & _). eauto.
Qed.
Lemma reordered_back k t t' : reordered k t t' -> reordered k t' t.
Proof. intros H. destruct H; constructor. Qed.

(** two unit vectors orthogonal to the same plane and on the same side of it are equal *)
Lemma same_normal (n n' e f d : VecR) : unit n -> unit n' -> dot n e = 0 -> dot n f = 0 -> dot n' e = 0 -> dot n' f = 0 ->
  cross e f <> pt 0 0 0 -> dot n d < 0 -> dot n' d < 0 -> n = n'.
Proof.
  intros U U' E F E' F' C D D'. set (c := cross e f) in *. pose proof (norm_pos _ C) as CP. pose proof (norm_sq c) as CS. assert (CC : 0 < dot c c) by nra.
  assert (K : forall m, dot m e = 0 -> dot m f = 0 -> times (dot c c) m = times (dot m c) c).
  { intros m M1 M2. unfold c. clear - M1 M2. destruct e as [e1 e2 e3], f as [f1 f2 f3], m as [m1 m2 m3].
    assert (TR : cross (pt m1 m2 m3) (cross (pt e1 e2 e3) (pt f1 f2 f3)) = pt 0 0 0).
    { replace (cross (pt m1 m2 m3) (cross (pt e1 e2 e3) (pt f1 f2 f3))) with (minus (times (dot (pt m1 m2 m3) (pt f1 f2 f3)) (pt e1 e2 e3)) (times (dot (pt m1 m2 m3) (pt e1 e2 e3)) (pt f1 f2 f3))).
      - change (dot (pt m1 m2 m3) (pt e1 e2 e3) = 0) in M1. change (dot (pt m1 m2 m3) (pt f1 f2 f3) = 0) in M2. rewrite M1, M2. apply vec_ext; vunf; ring.
      - apply vec_ext; vunf; ring. }
    change (times (dot (cross (pt e1 e2 e3) (pt f1 f2 f3)) (cross (pt e1 e2 e3) (pt f1 f2 f3))) (pt m1 m2 m3) = times (dot (pt m1 m2 m3) (cross (pt e1 e2 e3) (pt f1 f2 f3))) (cross (pt e1 e2 e3) (pt f1 f2 f3))).
    set (c := cross (pt e1 e2 e3) (pt f1 f2 f3)) in *. clearbody c. destruct c as [c1 c2 c3].
    assert (T1 := f_equal (@vx NumR) TR). assert (T2 := f_equal (@vy NumR) TR). assert (T3 := f_equal (@vz NumR) TR). revert T1 T2 T3. vunf. intros T1 T2 T3.
    apply vec_ext; vunf.
    - match goal with |- @eq _ ?l ?r => enough (Z : l - r = 0) by lra end. match goal with |- ?e = 0 => replace e with (c3 * (m1 * c3 - m3 * c1) + c2 * (m1 * c2 - m2 * c1)) by ring end.
      replace (m1 * c3 - m3 * c1) with (- (m3 * c1 - m1 * c3)) by ring. rewrite T2, T3. ring.
    - match goal with |- @eq _ ?l ?r => enough (Z : l - r = 0) by lra end. match goal with |- ?e = 0 => replace e with (c3 * (m2 * c3 - m3 * c2) - c1 * (m1 * c2 - m2 * c1)) by ring end.
      rewrite T1, T3. ring.
    - match goal with |- @eq _ ?l ?r => enough (Z : l - r = 0) by lra end. match goal with |- ?e = 0 => replace e with (c1 * (m3 * c1 - m1 * c3) - c2 * (m2 * c3 - m3 * c2)) by ring end.
      rewrite T1, T2. ring. }
  pose proof (K n E F) as K1. pose proof (K n' E' F') as K2.
  assert (S1 : dot n c * dot n c = dot c c).
  { assert (Q : dot (times (dot c c) n) n = dot (times (dot n c) c) n) by (rewrite K1; reflexivity). rewrite !dot_times_l in Q. unfold unit in U. rewrite U in Q. rewrite (dot_comm c n) in Q. lra. }
  assert (S2 : dot n' c * dot n' c = dot c c).
  { assert (Q : dot (times (dot c c) n') n' = dot (times (dot n' c) c) n') by (rewrite K2; reflexivity). rewrite !dot_times_l in Q. unfold unit in U'. rewrite U' in Q. rewrite (dot_comm c n') in Q. lra. }
  assert (D1 : dot c c * dot n d = dot n c * dot c d) by (rewrite <- !dot_times_l, K1; reflexivity).
  assert (D2 : dot c c * dot n' d = dot n' c * dot c d) by (rewrite <- !dot_times_l, K2; reflexivity).
  assert (SE : dot n c = dot n' c).
  { assert (P1 : dot n c * dot c d < 0) by nra. assert (P2 : dot n' c * dot c d < 0) by nra.
    assert (Z : (dot n c - dot n' c) * (dot n c + dot n' c) = 0) by nra. apply Rmult_integral in Z. destruct Z as [Z|Z]; [lra|]. exfalso.
    assert (Z' : dot n' c = - dot n c) by lra. rewrite Z' in P2. lra. }
  assert (TT : times (dot c c) n = times (dot c c) n') by (rewrite K1, K2, SE; reflexivity).
  assert (T1 := f_equal (@vx NumR) TT). assert (T2 := f_equal (@vy NumR) TT). assert (T3 := f_equal (@vz NumR) TT). cbn [vx vy vz times pt] in T1, T2, T3.
  apply vec_ext; apply Rmult_eq_reg_l with (dot c c); try lra; assumption.
Qed.

(** ** C90 *)
Theorem C90_vertex_order : forall k t t' (ray : RayR) s, reordered k t t' -> crosses ray t s ->
  exists info info', triangle_intersect t ray = Some info /\ triangle_intersect t' ray = Some info' /\
    i_p info = along ray s /\ i_p info' = along ray s /\ i_normal info' = i_normal info /\
    i_side info' = (if k then i_side info else other (i_side info)).
Proof.
  intros k t t' ray s HR HC. destruct (crosses_hit ray t s HC) as (info & HI & HP). destruct (crosses_hit ray t' s (reordered_crosses k t t' ray s HR HC)) as (info' & HI' & HP').
  exists info, info'. do 4 (split; [assumption|]).
  destruct (C11_hit_normal _ _ _ HI) as (N1 & N2 & N3 & N4 & N5 & N6). destruct (C11_hit_normal _ _ _ HI') as (M1 & M2 & M3 & M4 & M5 & M6).
  pose proof (reordered_normal k t t' HR) as RN. set (c := cross (minus (tb t) (ta t)) (minus (tc t) (ta t))) in *. set (c' := cross (minus (tb t') (ta t')) (minus (tc t') (ta t'))) in *.
  assert (VZ : dot c (direction ray) <> 0).
  { destruct HC as (_ & V & _). rewrite volume_cross in V. fold c in V. intros D. rewrite D, Ropp_0, Rabs_R0 in V. lra. }
  split.
  - apply (same_normal _ _ (minus (tb t) (ta t)) (minus (tc t) (ta t)) (direction ray)); try assumption.
    + destruct HR; cbn [ta tb tc] in *; revert M3 M4; clear; intros; revert M3 M4; dvec; vunf; intros; lra.
    + destruct HR; cbn [ta tb tc] in *; revert M3 M4; clear; intros; revert M3 M4; dvec; vunf; intros; lra.
    + fold c. intros D. apply VZ. rewrite D. clear. dvec. vunf. ring.
  - rewrite RN, dot_times_l in M5, M6. destruct (Rtotal_order (dot c (direction ray)) 0) as [L|[L|L]]; [|contradiction|].
    + rewrite (proj2 N5 L). destruct k; [apply M5; lra|apply M6; lra].
    + rewrite (proj2 N6 L). destruct k; [apply M6; lra|apply M5; lra].
Qed.
Print Assumptions C90_vertex_order.
(** whatever one order reports and another does not is outside of the triangle (on the rim the tolerance adds) *)
Theorem C90_rim_only : forall k t t' (ray : RayR) info, reordered k t t' -> triangle_intersect t ray = Some info -> triangle_intersect t' ray = None ->
  ~ on_triangle t (i_p info).
Proof.
  intros k t t' ray info HR HI HN HT.
  pose proof (C11_simple_same t ray) as S. rewrite HI in S. cbn [option_map] in S. apply C87_decides in S. destruct S as (s & (V & SP & _) & Q).
  destruct (crosses_hit ray t' s) as (info' & HI' & _); [|congruence]. apply (reordered_crosses k t t' ray s HR). rewrite Q in HT. split; [exact HT|]. split; assumption.
Qed.
Print Assumptions C90_rim_only.
Example C90_hyp : reordered false unit_tri (mkTri (pt 1 0 0) (pt 0 0 0) (pt 0 1 0)) /\ crosses (down (1/4) (1/4) 1) unit_tri 1.
Proof.
  split; [unfold unit_tri; constructor|]. split; [|split; [unfold unit_tri; rewrite down_volume, Rabs_pos_eq; lra|lra]].
  exists (1/4), (1/4). split; [lra|]. split; [lra|]. split; [lra|]. apply vec_ext; unfold unit_tri, down; vunf; field.
Qed.

(** ** C91 - shadow rays *)
(** the shadow ray from a to b *)
Definition towards_point (a b : VecR) : RayR := mkRay3D a (times (/ dist a b) (minus b a)).
(** the line of the ray meets the triangle's plane at parameter s inside the triangle, up to the tolerance of the test,
    and the triangle is not too small or seen from its edge *)
Definition meets (ray : RayR) (t : TriR) (s : R) : Prop :=
  1 / 100000 <= Rabs (volume ray t) /\
  exists u v, along ray s = bary t u v /\ - epsilon <= u <= 1 + epsilon /\ - epsilon <= v /\ u + v <= 1 + epsilon.
(** nothing is met within a centimetre of the ends of the segment (what is met lies well between them or beyond them), and nothing on a rim only *)
Definition clear_ends (a b : VecR) (rs : list record) : Prop :=
  forall rc s, In rc rs -> meets (towards_point a b) (shape rc) s ->
    on_triangle (shape rc) (along (towards_point a b) s) /\ (s <= 0 \/ 1 / 100 < s < dist a b - 1 / 100 \/ dist a b <= s).
(** a pushed triangle cuts the segment from a to b *)
Definition cut (a b : VecR) (rs : list record) : Prop :=
  exists rc s, In rc rs /\ 0 < s < dist a b /\ on_triangle (shape rc) (along (towards_point a b) s) /\ 1 / 100000 <= Rabs (volume (towards_point a b) (shape rc)).

Lemma dist_sym a b : dist a b = dist b a.
Proof. unfold dist, norm. f_equal. clear. dvec. vunf. ring. Qed.
Lemma opposite a b s : 0 < dist a b -> along (towards_point b a) s = along (towards_point a b) (dist a b - s).
Proof.
  intros H. unfold along, towards_point. cbn [origin direction]. rewrite (dist_sym b a). set (L := dist a b) in *. clearbody L.
  apply vec_ext; dvec; vunf; field; lra.
Qed.
Lemma volume_opposite a b t : 0 < dist a b -> Rabs (volume (towards_point b a) t) = Rabs (volume (towards_point a b) t).
Proof.
  intros H. rewrite !volume_cross. cbn [direction towards_point]. rewrite (dist_sym b a). set (c := cross _ _).
  replace (dot c (times (/ dist a b) (minus a b))) with (- dot c (times (/ dist a b) (minus b a))); [rewrite !Rabs_Ropp; reflexivity|].
  set (L := / dist a b). clearbody c L. clear. dvec. vunf. ring.
Qed.
Lemma towards_unit a b : 0 < dist a b -> unit (direction (towards_point a b)).
Proof.
  intros H. unfold unit, towards_point. cbn [direction]. rewrite dot_times_l. replace (dot (minus b a) (times (/ dist a b) (minus b a))) with (/ dist a b * dot (minus b a) (minus b a)) by (clear; set (k := / dist a b); clearbody k; dvec; vunf; ring).
  rewrite <- norm_sq. fold (dist b a). rewrite (dist_sym b a). field. lra.
Qed.
Lemma reach2_towards a b s : 0 < dist a b -> reach2 (towards_point a b) s = s * s.
Proof.
  intros H. pose proof (towards_unit a b H) as U. unfold unit in U. unfold reach2, dist2, along. set (d := direction (towards_point a b)) in *. set (o := origin (towards_point a b)).
  replace (minus (plus o (times s d)) o) with (times s d) by (clear; apply vec_ext; dvec; vunf; ring).
  rewrite dot_times_l. replace (dot d (times s d)) with (s * dot d d) by (clear; dvec; vunf; ring). rewrite U. ring.
Qed.
Lemma clear_ends_back a b rs : 0 < dist a b -> clear_ends a b rs -> clear_ends b a rs.
Proof.
  intros H HC rc s HI (V & u & v & Q & UV). rewrite (opposite a b) in Q by exact H. rewrite (volume_opposite a b) in V by exact H.
  destruct (HC rc (dist a b - s) HI) as [A B]; [split; [exact V|exists u, v; auto]|]. rewrite (opposite a b) by exact H. split; [exact A|]. rewrite (dist_sym b a). lra.
Qed.
Lemma cut_back a b rs : 0 < dist a b -> cut a b rs -> cut b a rs.
Proof.
  intros H (rc & s & A & B & C & D). exists rc, (dist a b - s). split; [exact A|]. rewrite (dist_sym b a), (opposite a b), (volume_opposite a b) by exact H.
  split; [lra|]. replace (dist a b - (dist a b - s)) with s by ring. auto.
Qed.

Theorem C91_reversible : forall E, externals_ok E -> forall h s, play scene_new h = Ret s -> sized (pushed h) ->
  exists s', rebuild_accelerator s = Ret s' /\
  forall a b fuel aux aux', 0 < dist a b -> clear_ends a b (pushed h) -> (2 * length (pushed h) <= fuel)%nat ->
    exists free aux1 aux2,
      scene_unobstructed_distance fuel s' (towards_point a b) (dist a b * dist a b) aux = Ret (free, aux1) /\
      scene_unobstructed_distance fuel s' (towards_point b a) (dist a b * dist a b) aux' = Ret (free, aux2) /\
      (free = false <-> cut a b (pushed h)).
Proof.
  intros E HE h s H HZ. destruct (C86_rebuild E HE h s H HZ) as (s' & HB & _ & _ & HS). exists s'. split; [exact HB|].
  assert (ONE : forall a b fuel aux, 0 < dist a b -> clear_ends a b (pushed h) -> (2 * length (pushed h) <= fuel)%nat ->
    exists free aux1, scene_unobstructed_distance fuel s' (towards_point a b) (dist a b * dist a b) aux = Ret (free, aux1) /\ (free = false <-> cut a b (pushed h))).
  { intros a b fuel aux HL HC Hf. destruct (HS fuel (towards_point a b) (dist a b * dist a b) aux Hf) as (free & aux1 & Q & S1 & S2). exists free, aux1. split; [exact Q|].
    assert (He : 0 < epsilon) by (rewrite <- EPS_val; apply EPS_pos). set (L := dist a b) in *. split.
    - intros K. destruct (S2 K) as (rc & d & I & (T1 & T2 & T3) & W1 & W2 & W3). rewrite (reach2_towards a b d HL) in W1, W2, W3.
      destruct (HC rc d I (conj T1 T3)) as [A B]. exists rc, d. split; [exact I|]. split; [|split; assumption]. fold L. fold L in B. nra.
    - intros (rc & d & I & B & A & V). fold L in B. apply S1. exists rc, d. split; [exact I|].
      assert (M : meets (towards_point a b) (shape rc) d).
      { split; [exact V|]. destruct A as (u & v & U1 & U2 & U3 & QQ). exists u, v. split; [exact QQ|]. lra. }
      destruct (HC rc d I M) as [_ [K|[K|K]]]; fold L in K; [lra| |lra].
      split; [split; [exact A|split; [exact V|lra]]|]. unfold in_the_way. rewrite (reach2_towards a b d HL).
      assert (G : 3 / 10000 < L * L - d * d) by nra. split; [nra|]. split; [lra|]. rewrite Rabs_pos_eq; lra. }
  intros a b fuel aux aux' HL HC Hf. destruct (ONE a b fuel aux HL HC Hf) as (f1 & x1 & Q1 & I1).
  destruct (ONE b a fuel aux' ltac:(rewrite (dist_sym b a); exact HL) (clear_ends_back a b _ HL HC) Hf) as (f2 & x2 & Q2 & I2). rewrite (dist_sym b a) in Q2.
  assert (HL' : 0 < dist b a) by (rewrite (dist_sym b a); exact HL).
  assert (EQ : f2 = f1).
  { destruct f1, f2; try reflexivity.
    - assert (K : cut b a (pushed h)) by (apply I2; reflexivity). apply (cut_back b a _ HL') in K. apply I1 in K. discriminate K.
    - assert (K : cut a b (pushed h)) by (apply I1; reflexivity). apply (cut_back a b _ HL) in K. apply I2 in K. discriminate K. }
  subst f2. exists f1, x1, x2. auto.
Qed.
Print Assumptions C91_reversible.
(** two triangles, and a segment of two metres through the middle of one of them *)
Example C91_hyp : let a := pt (21/4) (1/4) 1 in let b := pt (21/4) (1/4) (-1) in
  exists s, play (E := ext_example) scene_new order_a = Ret s /\ sized (pushed order_a) /\ 0 < dist a b /\ clear_ends a b (pushed order_a) /\ cut a b (pushed order_a).
Proof.
  intros a b. assert (L : dist a b = 2).
  { unfold dist, norm. replace (dot (minus a b) (minus a b)) with (2 * 2) by (unfold a, b; vunf; lra). apply sqrt_square. lra. }
  assert (T : towards_point a b = order_ray).
  { unfold towards_point, order_ray. rewrite L. f_equal. apply vec_ext; unfold a, b; vunf; lra. }
  eexists. split; [reflexivity|]. split; [split; [cbn; lia|apply uncrowded_few; cbn; lia]|]. split; [lra|]. split.
  - intros rc d Hin (V & u & v & Hp & Hu & Hv & Huv). rewrite T, L in *. cbn in Hin.
    assert (HX := f_equal (@vx NumR) Hp). assert (HY := f_equal (@vy NumR) Hp). assert (HZ := f_equal (@vz NumR) Hp).
    unfold epsilon in *. destruct Hin as [<-|[<-|[]]]; unfold order_ray, shape, tri_at in *; cbn [fst] in *.
    + split; [exists u, v; split; [|split; [|split; [|exact Hp]]]|right; left]; revert HX HY HZ; vunf; intros HX HY HZ; lra.
    + exfalso. revert HX HY HZ; vunf; intros HX HY HZ; lra.
  - eexists. exists 1. split; [left; reflexivity|]. rewrite T, L. pose proof C03_hyp as (_ & (H1 & H2 & _) & _). split; [lra|]. split; [exact H1|exact H2].
Qed.
