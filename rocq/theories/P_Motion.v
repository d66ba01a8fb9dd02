(** * Property C83: rigid motions.  Moving the whole scene, the ray and the camera by the same rotation and translation
    moves the answers along: the same triangle is met, at the moved point, with the turned normal and tangents, on the
    same side. *)
From Coq Require Import Permutation.
From Verif Require Import NumR Geometry Triangle Sphere Colour Ray Bvh Material Scene Camera SpecGeom SpecBvh SpecScene
  TriangleProofs BvhProofs BvhReal BvhReal2 BvhQuery BvhExamples SceneProofs P_Bvh P_Scene TracerScenes P_Order.
Open Scope R_scope.

(** a rigid motion: the images of the three axes (orthonormal, right-handed) and of the origin *)
Record Motion := mkMotion { m_x : VecR; m_y : VecR; m_z : VecR; m_o : VecR }.
Definition rigid (m : Motion) : Prop :=
  unit (m_x m) /\ unit (m_y m) /\ dot (m_x m) (m_y m) = 0 /\ m_z m = cross (m_x m) (m_y m).
Definition turn (m : Motion) (v : VecR) : VecR := plus (times (vx v) (m_x m)) (plus (times (vy v) (m_y m)) (times (vz v) (m_z m))).
Definition move (m : Motion) (p : VecR) : VecR := plus (m_o m) (turn m p).
Definition move_triangle (m : Motion) (t : TriR) : TriR := mkTri (move m (ta t)) (move m (tb t)) (move m (tc t)).
Definition move_ray (m : Motion) (r : RayR) : RayR := mkRay3D (move m (origin r)) (turn m (direction r)).
Definition move_info (m : Motion) (i : @IntersectionInfo NumR) : @IntersectionInfo NumR :=
  mkInfo (move m (i_p i)) (turn m (i_dpdu i)) (turn m (i_dpdv i)) (turn m (i_normal i)) (i_side i) (i_u i) (i_v i).

Ltac spec_ops := change (@vsub NumR) with minus; change (@vcross NumR) with cross; change (@vdot NumR) with dot; change (@vadd NumR) with plus.

Section Motion.
  Variable m : Motion.
  Hypothesis HM : rigid m.

  Lemma turn_dot a b : dot (turn m a) (turn m b) = dot a b.
  Proof.
    destruct m as [X Y Z O], HM as (H1 & H2 & H3 & H4). cbn [m_x m_y m_z m_o] in *. unfold turn. cbn [m_x m_y m_z m_o]. subst Z.
    assert (Z1 : dot (cross X Y) (cross X Y) = 1).
    { replace (dot (cross X Y) (cross X Y)) with (dot X X * dot Y Y - dot X Y * dot X Y) by (clear; dvec; vunf; ring).
      unfold unit in *. rewrite H1, H2, H3. ring. }
    assert (Z2 : dot X (cross X Y) = 0) by (clear; dvec; vunf; ring).
    assert (Z3 : dot Y (cross X Y) = 0) by (clear; dvec; vunf; ring).
    set (Z := cross X Y) in *. clearbody Z. unfold unit in *.
    transitivity (vx a * vx b * dot X X + vy a * vy b * dot Y Y + vz a * vz b * dot Z Z
      + (vx a * vy b + vy a * vx b) * dot X Y + (vx a * vz b + vz a * vx b) * dot X Z + (vy a * vz b + vz a * vy b) * dot Y Z).
    - clear. dvec. vunf. ring.
    - rewrite H1, H2, H3, Z1, Z2, Z3. clear. dvec. vunf. ring.
  Qed.
  Lemma turn_cross a b : cross (turn m a) (turn m b) = turn m (cross a b).
  Proof.
    destruct m as [X Y Z O], HM as (H1 & H2 & H3 & H4). cbn [m_x m_y m_z m_o] in *. unfold turn. cbn [m_x m_y m_z m_o].
    assert (YZ : cross Y Z = X).
    { subst Z. transitivity (plus (times (dot Y Y) X) (times (- dot X Y) Y)).
      - clear. dvec. apply vec_ext; vunf; ring.
      - unfold unit in *. rewrite H2, H3. clear. dvec. apply vec_ext; vunf; ring. }
    assert (ZX : cross Z X = Y).
    { subst Z. transitivity (plus (times (dot X X) Y) (times (- dot X Y) X)).
      - clear. dvec. apply vec_ext; vunf; ring.
      - unfold unit in *. rewrite H1, H3. clear. dvec. apply vec_ext; vunf; ring. }
    symmetry in H4.
    transitivity (plus (times (vx (cross a b)) (cross Y Z)) (plus (times (vy (cross a b)) (cross Z X)) (times (vz (cross a b)) (cross X Y)))).
    - clear. dvec. apply vec_ext; vunf; ring.
    - rewrite YZ, ZX, H4. reflexivity.
  Qed.
  Lemma turn_minus a b : minus (turn m a) (turn m b) = turn m (minus a b).
  Proof. unfold turn. destruct m as [X Y Z O]. cbn [m_x m_y m_z]. clear. dvec. apply vec_ext; vunf; ring. Qed.
  Lemma turn_plus a b : plus (turn m a) (turn m b) = turn m (plus a b).
  Proof. unfold turn. destruct m as [X Y Z O]. cbn [m_x m_y m_z]. clear. dvec. apply vec_ext; vunf; ring. Qed.
  Lemma turn_times k a : times k (turn m a) = turn m (times k a).
  Proof. unfold turn. destruct m as [X Y Z O]. cbn [m_x m_y m_z]. clear. dvec. apply vec_ext; vunf; ring. Qed.
  Lemma move_minus a b : minus (move m a) (move m b) = turn m (minus a b).
  Proof. unfold move, turn. destruct m as [X Y Z O]. cbn [m_x m_y m_z m_o]. clear. dvec. apply vec_ext; vunf; ring. Qed.
  Lemma move_plus a v : plus (move m a) (turn m v) = move m (plus a v).
  Proof. unfold move, turn. destruct m as [X Y Z O]. cbn [m_x m_y m_z m_o]. clear. dvec. apply vec_ext; vunf; ring. Qed.
  Lemma turn_normalized v : @vnormalized NumR (turn m v) = turn m (vnormalized v).
  Proof.
    unfold vnormalized. rewrite (vlen_norm v), (vlen_norm (turn m v)). unfold norm. rewrite turn_dot. generalize (sqrt (dot v v)). intros k.
    assert (D : forall w : VecR, @vdivs NumR w k = times (/ k) w) by (clear; intros w; dvec; apply vec_ext; vunf; unfold Rdiv; ring).
    rewrite !D. apply turn_times.
  Qed.

  Lemma move_project ray s : @project NumR (move_ray m ray) s = move m (project ray s).
  Proof. rewrite !project_along. unfold along, move_ray. cbn [origin direction]. rewrite turn_times, move_plus. reflexivity. Qed.
  Lemma move_bary ray t : @baricentric_coordinates NumR (move_ray m ray) (move_triangle m t) =
    match @baricentric_coordinates NumR ray t with Some (p, u, v) => Some (move m p, u, v) | None => None end.
  Proof.
    unfold baricentric_coordinates. cbv zeta. destruct t as [a b c], ray as [o d]. cbn [move_ray move_triangle ta tb tc origin direction].
    spec_ops. repeat rewrite move_minus. repeat rewrite turn_cross. repeat rewrite turn_dot.
    repeat match goal with |- context [if ?c then _ else _] => destruct c; try reflexivity end.
    change (mkRay3D (move m o) (turn m d)) with (move_ray m (mkRay3D o d)). rewrite move_project. reflexivity.
  Qed.
  Lemma move_side n d : @get_side NumR (turn m n) (turn m d) = (turn m (fst (get_side n d)), snd (get_side n d)).
  Proof.
    unfold get_side. spec_ops. rewrite turn_dot.
    repeat match goal with |- context [if ?c then _ else _] => destruct c end; try reflexivity.
    cbn [fst snd]. f_equal. rewrite !vscale_times. apply turn_times.
  Qed.

  (** the intersection test itself, for every ray and triangle, hit or miss *)
  Theorem move_intersect ray t : @triangle_intersect NumR (move_triangle m t) (move_ray m ray) =
    option_map (move_info m) (@triangle_intersect NumR t ray).
  Proof.
    unfold triangle_intersect. rewrite move_bary. destruct (baricentric_coordinates ray t) as [[[p u] v]|]; [|reflexivity].
    cbn [option_map]. f_equal. unfold new_info. cbv zeta. destruct t as [a b c]. cbn [move_triangle ta tb tc].
    change (direction (move_ray m ray)) with (turn m (direction ray)).
    spec_ops. repeat rewrite move_minus. repeat rewrite turn_cross. repeat rewrite turn_normalized. rewrite move_side.
    destruct (get_side (vnormalized (cross (minus b a) (minus c a))) (direction ray)) as [n sd]. cbn [fst snd].
    spec_ops. repeat rewrite turn_cross. repeat rewrite turn_normalized. reflexivity.
  Qed.

  Lemma turn_inj a b : turn m a = turn m b -> a = b.
  Proof.
    intros H. assert (D : dot (minus a b) (minus a b) = 0).
    { rewrite <- turn_dot, <- turn_minus, H. generalize (turn m b). clear. intros w. dvec. vunf. ring. }
    destruct a as [a1 a2 a3], b as [b1 b2 b3]. revert D. vunf. change R in a1, a2, a3, b1, b2, b3. intros D.
    pose proof (Rle_0_sqr (a1 - b1)) as S1. pose proof (Rle_0_sqr (a2 - b2)) as S2. pose proof (Rle_0_sqr (a3 - b3)) as S3. unfold Rsqr in *.
    assert (Q1 : (a1 - b1) * (a1 - b1) = 0) by lra. assert (Q2 : (a2 - b2) * (a2 - b2) = 0) by lra. assert (Q3 : (a3 - b3) * (a3 - b3) = 0) by lra.
    apply Rmult_integral in Q1, Q2, Q3. apply vec_ext; cbn [vx vy vz]; lra.
  Qed.
  Lemma move_inj a b : move m a = move m b -> a = b.
  Proof.
    intros H. apply turn_inj. unfold move in H. revert H. generalize (turn m a) (turn m b). generalize (m_o m). clear. intros o a b H.
    assert (H1 := f_equal (@vx NumR) H). assert (H2 := f_equal (@vy NumR) H). assert (H3 := f_equal (@vz NumR) H). clear H. revert H1 H2 H3.
    dvec. vunf. intros. apply vec_ext; cbn [vx vy vz]; lra.
  Qed.
  Lemma move_along ray s : along (move_ray m ray) s = move m (along ray s).
  Proof. unfold along, move_ray. cbn [origin direction]. rewrite turn_times, move_plus. reflexivity. Qed.
  Lemma move_of_bary t u v : bary (move_triangle m t) u v = move m (bary t u v).
  Proof.
    destruct t as [a b c]. unfold bary, move_triangle, move, turn. cbn [ta tb tc]. destruct m as [X Y Z O]. cbn [m_x m_y m_z m_o]. clear.
    dvec. apply vec_ext; vunf; ring.
  Qed.
  Lemma move_volume ray t : volume (move_ray m ray) (move_triangle m t) = volume ray t.
  Proof. unfold volume, move_ray, move_triangle. cbn [ta tb tc direction]. rewrite !move_minus, turn_cross, turn_dot. reflexivity. Qed.
  Lemma move_crosses ray t s : crosses (move_ray m ray) (move_triangle m t) s <-> crosses ray t s.
  Proof.
    unfold crosses, on_triangle. rewrite move_volume, move_along. split; intros ((u & v & H1 & H2 & H3 & H4) & H5); (split; [|exact H5]);
      exists u, v; (split; [exact H1|]); (split; [exact H2|]); (split; [exact H3|]).
    - rewrite move_of_bary in H4. apply move_inj. exact H4.
    - rewrite move_of_bary, H4. reflexivity.
  Qed.
  Lemma move_touches ray t s : touches (move_ray m ray) (move_triangle m t) s <-> touches ray t s.
  Proof.
    unfold touches. rewrite move_volume, move_along. split; intros (H1 & H2 & u & v & H3 & H4); (split; [exact H1|]); (split; [exact H2|]);
      exists u, v; (split; [|exact H4]).
    - rewrite move_of_bary in H3. apply move_inj. exact H3.
    - rewrite move_of_bary, H3. reflexivity.
  Qed.
  Lemma move_reach2 ray s : reach2 (move_ray m ray) s = reach2 ray s.
  Proof. unfold reach2, dist2. rewrite move_along. unfold move_ray. cbn [origin]. rewrite move_minus, turn_dot. reflexivity. Qed.
  Lemma move_in_sight ray s : in_sight (move_ray m ray) s <-> in_sight ray s.
  Proof. unfold in_sight. rewrite move_reach2. reflexivity. Qed.
  Lemma move_in_the_way ray d2 s : in_the_way (move_ray m ray) d2 s <-> in_the_way ray d2 s.
  Proof. unfold in_the_way. rewrite move_reach2. reflexivity. Qed.
End Motion.

(** the same history with every triangle moved *)
Definition move_op (m : Motion) (o : @op NumR) : @op NumR :=
  match o with AddObject f b (PTriangle t) => AddObject f b (PTriangle (move_triangle m t)) | _ => o end.
Definition triangles_only (h : list (@op NumR)) : Prop := forall f b p, In (f, b, p) (objects_of h) -> exists t, p = PTriangle t.
Definition move_record (m : Motion) (rc : record) : record :=
  let '(t, f, b, (n0, n1, n2)) := rc in (move_triangle m t, f, b, (turn m n0, turn m n1, turn m n2)).

Lemma pushed_moved m h : rigid m -> triangles_only h -> pushed (map (move_op m) h) = map (move_record m) (pushed h).
Proof.
  intros HM. unfold pushed, objects_of, triangles_only. induction h as [|o h IH]; intros HT; [reflexivity|].
  cbn [map flat_map]. rewrite flat_map_app.
  assert (HT' : forall f b p, In (f, b, p) (objects_of h) -> exists t, p = PTriangle t).
  { intros f b p Hi. apply (HT f b p). unfold objects_of. cbn [flat_map]. apply in_or_app. right. exact Hi. }
  rewrite (flat_map_app stored), map_app. rewrite IH by exact HT'. f_equal.
  destruct o as [a|f b p| | |g|g]; try reflexivity.
  destruct (HT f b p) as (t & ->); [left; reflexivity|]. destruct t as [A B C].
  cbn [move_op flat_map app stored facets map fst snd move_record move_triangle ta tb tc].
  spec_ops. rewrite !(move_minus m HM), (turn_cross m HM), (turn_normalized m HM). reflexivity.
Qed.
Lemma shape_moved m rc : shape (move_record m rc) = move_triangle m (shape rc).
Proof. destruct rc as [[[t f] b] [[n0 n1] n2]]. reflexivity. Qed.

(** ** C83 - for every rigid motion, every scene of triangles and every ray *)
Theorem C83_motion : forall m, rigid m -> forall (E E' : @Ext NumR), externals_ok E -> externals_ok E' ->
  forall h s0 s0', triangles_only h ->
  play (E := E) scene_new h = Ret s0 -> play (E := E') scene_new (map (move_op m) h) = Ret s0' ->
  sized (pushed h) -> sized (pushed (map (move_op m) h)) ->
  exists s s', rebuild_accelerator (E := E) s0 = Ret s /\ rebuild_accelerator (E := E') s0' = Ret s' /\
  (forall fuel fuel' (r : @Ray NumR) aux aux', (2 * length (pushed h) <= fuel)%nat -> (2 * length (pushed h) <= fuel')%nat ->
    let ray := r_geometry r in
    let r' := set_geometry r (move_ray m ray) in
    off_rims ray (pushed h) ->
    (exists j j' x x' rc rc' b b',
       cast_ray (E := E) fuel s r aux = Ret (Some (Z.of_nat j), set_interaction r x, b) /\
       cast_ray (E := E') fuel' s' r' aux' = Ret (Some (Z.of_nat j'), set_interaction r' x', b') /\
       nth_error (records (sc_arrays s)) j = Some rc /\ nth_error (records (sc_arrays s')) j' = Some rc' /\
       (* the moved point *)
       i_p (x_shading x') = move m (i_p (x_shading x)) /\
       (unit (direction ray) -> x_point x' = move m (x_point x)) /\ x_wo x' = turn m (x_wo x) /\
       (* the moved record, with turned normal and tangents, on the same side, unless several records are met there *)
       ((forall r1 r2 d, In r1 (pushed h) -> In r2 (pushed h) -> crosses ray (shape r1) d -> crosses ray (shape r2) d -> r1 = r2) ->
         rc' = move_record m rc /\ x_shading x' = move_info m (x_shading x))) \/
    (exists b b', cast_ray (E := E) fuel s r aux = Ret (None, r, b) /\ cast_ray (E := E') fuel' s' r' aux' = Ret (None, r', b'))) /\
  (forall fuel fuel' ray d2 aux aux', (2 * length (pushed h) <= fuel)%nat -> (2 * length (pushed h) <= fuel')%nat ->
    off_rims ray (pushed h) ->
    exists clear b b', scene_unobstructed_distance (E := E) fuel s ray d2 aux = Ret (clear, b) /\
                       scene_unobstructed_distance (E := E') fuel' s' (move_ray m ray) d2 aux' = Ret (clear, b')).
Proof.
  intros m HM E E' HE HE' h s0 s0' HT H H' HZ HZ'.
  pose proof (pushed_moved m h HM HT) as PM.
  destruct (rebuilt_answers E HE h s0 H HZ) as (s & HB & _ & _ & HC & HS).
  destruct (rebuilt_answers E' HE' _ s0' H' HZ') as (s' & HB' & _ & _ & HC' & HS').
  assert (LM : length (pushed (map (move_op m) h)) = length (pushed h)) by (rewrite PM, map_length; reflexivity).
  rewrite LM in HC', HS'.
  assert (INV : forall rc', In rc' (pushed (map (move_op m) h)) -> exists rc, rc' = move_record m rc /\ In rc (pushed h)).
  { intros rc' D. rewrite PM in D. apply in_map_iff in D. destruct D as (rc & <- & D). eauto. }
  assert (INM : forall rc, In rc (pushed h) -> In (move_record m rc) (pushed (map (move_op m) h))).
  { intros rc D. rewrite PM. apply in_map. exact D. }
  exists s, s'. split; [exact HB|]. split; [exact HB'|]. split.
  - intros fuel fuel' r aux aux' Hf Hf' ray r' HR.
    assert (GR : r_geometry r' = move_ray m ray) by reflexivity.
    specialize (HC fuel r aux Hf). specialize (HC' fuel' r' aux' Hf'). cbv zeta in HC, HC'. rewrite GR in HC'. fold ray in HC.
    destruct HC as [(j & rc & d & x & b & C1 & C2 & C3 & C4 & C5 & C6 & C7 & C8 & C9 & C10)|(b & C1 & C2)];
    destruct HC' as [(j' & rc' & d' & x' & b' & D1 & D2 & D3 & D4 & D5 & D6 & D7 & D8 & D9 & D10)|(b' & D1 & D2)].
    + left. exists j, j', x, x', rc, rc', b, b'. destruct (INV _ D3) as (rc2 & -> & D3'). rewrite shape_moved in *.
      apply (proj1 (move_touches m HM _ _ _)) in D4. apply (proj1 (move_in_sight m HM _ _)) in D5.
      assert (K : d = d').
      { eapply reach2_inj; [exact C4|exact D4|]. apply Rle_antisym.
        - apply (C10 rc2 d'); [exact D3'|apply HR; assumption|exact D5].
        - rewrite <- (move_reach2 m HM ray d'), <- (move_reach2 m HM ray d). apply (D10 (move_record m rc) d); [apply INM; exact C3| |apply (proj2 (move_in_sight m HM _ _)); exact C5].
          rewrite shape_moved. apply (proj2 (move_crosses m HM _ _ _)). apply HR; assumption. }
      subst d'. split; [exact C1|]. split; [exact D1|]. split; [exact C2|]. split; [exact D2|].
      split; [rewrite C6, D6, (move_along m HM); reflexivity|].
      split; [intros U; rewrite (C9 U), D9, (move_along m HM); [reflexivity|]; unfold unit, move_ray; cbn [direction]; rewrite (turn_dot m HM); exact U|].
      split; [rewrite C8, D8; unfold move_ray; cbn [direction]; apply (turn_times m HM)|].
      intros HU. assert (Q : rc = rc2) by (apply (HU rc rc2 d); try assumption; apply HR; assumption). subst rc2.
      split; [reflexivity|]. rewrite (move_intersect m HM), C7 in D7. cbn [option_map] in D7. injection D7 as D7. symmetry. exact D7.
    + exfalso. apply (D2 (move_record m rc) d (INM _ C3)). rewrite shape_moved. split; [apply (proj2 (move_crosses m HM _ _ _)); apply HR; assumption|apply (proj2 (move_in_sight m HM _ _)); exact C5].
    + exfalso. destruct (INV _ D3) as (rc2 & -> & D3'). rewrite shape_moved in *. apply (proj1 (move_touches m HM _ _ _)) in D4. apply (proj1 (move_in_sight m HM _ _)) in D5.
      apply (C2 rc2 d' D3'). split; [apply HR; assumption|exact D5].
    + right. exists b, b'. split; assumption.
  - intros fuel fuel' ray d2 aux aux' Hf Hf' HR.
    destruct (HS fuel ray d2 aux Hf) as (c & b & C1 & C2 & C3). destruct (HS' fuel' (move_ray m ray) d2 aux' Hf') as (c' & b' & D1 & D2 & D3).
    assert (Q : c = c').
    { destruct c, c'; try reflexivity.
      - destruct (D3 eq_refl) as (rc' & d & I & X & Y). destruct (INV _ I) as (rc & -> & I'). rewrite shape_moved in X.
        apply (proj1 (move_touches m HM _ _ _)) in X. apply (proj1 (move_in_the_way m HM _ _ _)) in Y. apply C2. exists rc, d. split; [exact I'|]. split; [apply HR; assumption|exact Y].
      - destruct (C3 eq_refl) as (rc & d & I & X & Y). symmetry. apply D2. exists (move_record m rc), d. split; [apply INM; exact I|].
        rewrite shape_moved. split; [apply (proj2 (move_crosses m HM _ _ _)); apply HR; assumption|apply (proj2 (move_in_the_way m HM _ _ _)); exact Y]. }
    subst c'. exists c, b, b'. split; assumption.
Qed.
Print Assumptions C83_motion.

(** the intersection test on its own: every ray and triangle, hit or miss, rims included *)
Theorem C83_triangle : forall m, rigid m -> forall t ray,
  @triangle_intersect NumR (move_triangle m t) (move_ray m ray) = option_map (move_info m) (@triangle_intersect NumR t ray).
Proof. intros m HM t ray. apply move_intersect. exact HM. Qed.
Print Assumptions C83_triangle.

(** the camera moves along *)
Definition move_view (m : Motion) (v : @View NumR) : @View NumR :=
  mkView (move m (view_point v)) (turn m (view_direction v)) (turn m (view_up v)) (field_of_view v).
Theorem C83_camera : forall m, rigid m -> forall (T : Trig NumR) (v : @View NumR) (f : Film) p,
  r_geometry (fst (gen_ray (pinhole_new (move_view m v) f) p)) = move_ray m (r_geometry (fst (gen_ray (pinhole_new v f) p))) /\
  snd (gen_ray (pinhole_new (move_view m v) f) p) = snd (gen_ray (pinhole_new v f) p).
Proof.
  intros m HM T v f p. split; [|reflexivity]. unfold gen_ray. cbv zeta.
  unfold pinhole_new. cbn [ph_view ph_film ph_film_distance ph_u move_view view_point view_direction view_up field_of_view fst set_geometry r_geometry].
  unfold move_ray. cbn [origin direction]. f_equal. spec_ops. rewrite (turn_cross m HM).
  repeat rewrite vscale_times. repeat rewrite (turn_times m HM). rewrite (turn_plus m HM), (turn_minus m HM), (turn_normalized m HM). reflexivity.
Qed.
Print Assumptions C83_camera.

(** a quarter turn about the vertical axis followed by a shift, and the two-triangle scene of C81 *)
Definition quarter : Motion := mkMotion (pt 0 1 0) (pt (-1) 0 0) (pt 0 0 1) (pt 3 4 5).
Example C83_hyp : rigid quarter /\ move quarter (pt 1 2 3) = pt 1 5 8 /\ triangles_only order_a /\
  exists s0 s0', play (E := ext_example) scene_new order_a = Ret s0 /\ play (E := ext_example) scene_new (map (move_op quarter) order_a) = Ret s0' /\
  sized (pushed order_a) /\ sized (pushed (map (move_op quarter) order_a)) /\ off_rims order_ray (pushed order_a).
Proof.
  split; [|split; [|split]].
  - unfold rigid, unit, quarter. cbn [m_x m_y m_z m_o]. split; [vunf; ring|]. split; [vunf; ring|]. split; [vunf; ring|]. apply vec_ext; vunf; ring.
  - unfold move, turn, quarter. cbn [m_x m_y m_z m_o]. apply vec_ext; vunf; ring.
  - intros f b p Hi. cbn in Hi. destruct Hi as [Q|[Q|[]]]; injection Q as <- <- <-; eauto.
  - destruct C81_hyp as (s0 & _ & H1 & _ & _ & HZ & HR & _). exists s0. eexists. split; [exact H1|]. split; [reflexivity|].
    split; [exact HZ|]. split; [split; [cbn; lia|apply uncrowded_few; cbn; lia]|exact HR].
Qed.
