(** * TracerCorridor: two facing plates and a ray shuttling between them; a floor under the sky *)
From Coq Require Import Permutation.
From Verif Require Import NumR Geometry Triangle Sphere Colour Ray Bvh Material Scene Samplers Primitives RayTracer TracerProofs TracerSafe TracerScenes
  SpecGeom SpecBvh SpecScene TriangleProofs BvhProofs BvhReal BvhReal2 BvhQuery BvhExamples SceneProofs SpecOptics P_Triangle P_Frame P_Bvh.
Open Scope R_scope.

Lemma big_float_max : 2 < float_max.
Proof.
  unfold float_max. assert (A : 2 ^ 2 <= 2 ^ 53) by (apply Rle_pow; [lra|lia]). assert (B : 1 <= 2 ^ 971) by (apply pow_R1_Rle; lra).
  generalize dependent (2 ^ 53). generalize dependent (2 ^ 971). intros b HB a HA. nra.
Qed.

(** a horizontal right triangle at height z *)
Definition plate (z : R) : TriR := mkTri (pt 0 0 z) (pt 1 0 z) (pt 0 1 z).
Definition up : VecR := pt 0 0 1.
Lemma plate_normal z : vnormalized (vcross (vsub (tb (plate z)) (ta (plate z))) (vsub (tc (plate z)) (ta (plate z)))) = up.
Proof.
  change (vnormalized (cross (minus (tb (plate z)) (ta (plate z))) (minus (tc (plate z)) (ta (plate z)))) = up).
  replace (cross _ _) with up; [apply normalized_of_unit; unfold unit, up; vunf; ring|].
  unfold plate, up. apply vec_ext; vunf; ring.
Qed.
Lemma plate_facets z : facets (PTriangle (plate z)) = [(plate z, (up, up, up))].
Proof. unfold facets. rewrite plate_normal. reflexivity. Qed.

(** a hit on a plate by a vertical ray *)
Definition vertical (x y z k : R) : RayR := mkRay3D (pt x y z) (pt 0 0 k).
Lemma plate_hit x y z k h info : (k = 1 \/ k = -1) -> triangle_intersect (plate h) (vertical x y z k) = Some info ->
  i_normal info = pt 0 0 (- k) /\ i_side info = (if Rltb k 0 then Front else Back) /\
  i_normal (interpolate_normal info (up, up, up)) = pt 0 0 (- k).
Proof.
  intros Hk H. destruct (C11_hit_normal _ _ _ H) as (U & D & O1 & O2 & HF & HB).
  assert (Hs : i_side info = (if Rltb k 0 then Front else Back)).
  { destruct (Rltb_spec k 0) as [L|L]; [apply HF|apply HB]; unfold plate, vertical; vunf; lra. }
  assert (Hn : i_normal info = pt 0 0 (- k)).
  { destruct (i_normal info) as [nx ny nz]. unfold unit, plate, vertical in *. vunf. 
    assert (nx = 0) by lra. assert (ny = 0) by lra. subst. apply vec_ext; cbn [vx vy vz]; try reflexivity.
    destruct Hk as [-> | ->]; nra. }
  split; [exact Hn|]. split; [exact Hs|].
  rewrite interpolate_constant by (unfold unit, up; vunf; ring). unfold oriented. rewrite Hs.
  unfold up. destruct Hk as [-> | ->]; [rewrite Rltb_is_false by lra|rewrite Rltb_is_true by lra]; apply vec_ext; vunf; lra.
Qed.

Section Corridor.
  Context {E : @Ext NumR} {HE : externals_ok E}.
  Variable m : @Material NumR.
  Hypothesis Hm : emits_light m = false.
  (** two parallel plates, one above the other, of the same non-emitting material *)
  Definition corridor : list (@op NumR) :=
    [AddMaterial m; AddObject 0 0 (PTriangle (plate 0)); AddObject 0 0 (PTriangle (plate 1))].

  Lemma corridor_plays : exists s0, play scene_new corridor = Ret s0 /\ manageable s0 /\ length (a_tri (sc_arrays s0)) = 2%nat /\
    sc_materials s0 = [m] /\ sc_lights s0 = [] /\ sc_distant_lights s0 = [] /\ sc_sky s0 = None.
  Proof.
    unfold corridor. cbn [play step push_material fst obind].
    unfold push_object. cbn [sc_materials set_materials nth_error scene_new app]. unfold register_light.
    assert (HmD : emits_direct_light m = false) by (destruct m; cbn in *; congruence). rewrite HmD.
    cbn [orb mesh_primitive obind mesh_triangle length repeat sc_materials sc_arrays set_arrays scene_new empty_arrays a_tri a_front a_back a_norm app set_materials nth_error].
    rewrite HmD. cbn [orb obind].
    eexists. split; [reflexivity|]. cbn [sc_arrays set_arrays a_tri]. split; [split; [cbn; lia|apply uncrowded_few; cbn; lia]|]. repeat split.
  Qed.

  (** the scene after a rebuild, and what a vertical ray inside it meets *)
  Definition target (k : R) : R := if Rltb k 0 then 0 else 1.
  Definition inside (z k : R) : Prop := (k = 1 \/ k = -1) /\ 0 < z < 1 /\ 1 / 2 <= Rabs (target k - z).
  Lemma corridor_ready : exists s, play scene_new (corridor ++ [Rebuild]) = Ret s /\
    sc_materials s = [m] /\ sc_lights s = [] /\ sc_distant_lights s = [] /\ sc_sky s = None /\
    forall fuel, (4 <= fuel)%nat -> forall r aux z k, r_geometry r = vertical (1/4) (1/4) z k -> inside z k ->
    exists j x aux', cast_ray fuel s r aux = Ret (Some (Z.of_nat j), set_interaction r x, aux') /\
      x_point x = pt (1/4) (1/4) (target k) /\ i_normal (x_shading x) = pt 0 0 (- k) /\
      frame (i_dpdu (x_shading x)) (i_dpdv (x_shading x)) (pt 0 0 (- k)) /\
      nth_error (a_norm (sc_arrays s)) j = Some (up, up, up) /\
      i_normal (interpolate_normal (x_shading x) (up, up, up)) = pt 0 0 (- k) /\
      (forall r', hit_material s (set_interaction r' x) j = Ret (Some m)).
  Proof.
    destruct corridor_plays as (s0 & HP & HM & HL & H1 & H2 & H3 & H4).
    destruct (rebuilt (HE := HE) corridor s0 HP HM) as (s & HB & E1 & E2 & E3 & E4 & _ & Ha & Hp & HL' & HQ).
    exists s. split.
    { assert (PA : forall h1 h2 s1, play s1 (h1 ++ h2) = run s2 <- play s1 h1 ;; play s2 h2).
      { induction h1 as [|o h1 IH]; intros h2 s1; cbn; [reflexivity|]. destruct (step s1 o); cbn; auto. }
      rewrite PA, HP. cbn [obind play step]. rewrite HB. reflexivity. }
    split; [congruence|]. split; [congruence|]. split; [congruence|]. split; [congruence|].
    intros fuel Hf r aux z k Hr (Hk & Hz & Hd). rewrite HL in HQ. destruct (HQ fuel Hf) as [HC _].
    assert (Recs : forall t f b n, In (t, f, b, n) (records (sc_arrays s)) -> (t = plate 0 \/ t = plate 1) /\ f = 0%nat /\ b = 0%nat /\ n = (up, up, up)).
    { intros t f b n Hin. eapply Permutation_in in Hin; [|exact Hp]. unfold corridor, objects_of, stored in Hin. cbn [flat_map app] in Hin. rewrite !plate_facets in Hin. cbn in Hin.
      destruct Hin as [Q|[Q|[]]]; injection Q as <- <- <- <-; auto. }
    assert (Inp : forall h, h = 0 \/ h = 1 -> In (plate h) (a_tri (sc_arrays s))).
    { intros h Hh. rewrite <- (map_records_tri _ Ha). apply in_map_iff. exists (plate h, 0%nat, 0%nat, (up, up, up)). split; [reflexivity|].
      eapply Permutation_in; [symmetry; exact Hp|]. unfold corridor, objects_of, stored. cbn [flat_map app]. rewrite !plate_facets. cbn.
      destruct Hh as [-> | ->]; auto. }
    set (ray := vertical (1/4) (1/4) z k) in *. set (h := target k) in *. 
    assert (Hh : h = 0 \/ h = 1) by (unfold h, target; destruct (Rltb k 0); auto).
    set (d := Rabs (h - z)) in *.
    assert (Hzd : z + k * d = h).
    { unfold d, h, target. destruct Hk as [-> | ->].
      - rewrite Rltb_is_false by lra. rewrite Rabs_pos_eq by lra. lra.
      - rewrite Rltb_is_true by lra. rewrite Rabs_left by lra. lra. }
    assert (Hd1 : d < 1) by (unfold d; apply Rabs_def1; destruct Hh as [-> | ->]; lra).
    assert (AL : forall q, along ray q = pt (1/4) (1/4) (z + k * q)) by (intros q; unfold ray, vertical; apply vec_ext; vunf; ring).
    assert (RE : forall q, reach2 ray q = q * q).
    { intros q. unfold reach2. rewrite AL. unfold ray, vertical. vunf. destruct Hk as [-> | ->]; ring. }
    assert (CR : crosses ray (plate h) d).
    { split; [|split].
      - exists (1/4), (1/4). split; [lra|]. split; [lra|]. split; [lra|]. rewrite AL, Hzd. unfold plate. apply vec_ext; vunf; field.
      - unfold ray, vertical, plate. vunf. match goal with |- _ <= Rabs ?e => assert (Q : e = 1 \/ e = -1) by (destruct Hk as [-> | ->]; [left; ring|right; ring] || (destruct Hk as [-> | ->]; [right; ring|left; ring])) end.
        destruct Q as [-> | ->]; [rewrite Rabs_pos_eq by lra|rewrite Rabs_left by lra]; lra.
      - fold d in Hd. lra. }
    assert (IS : in_sight ray d).
    { unfold in_sight. rewrite RE. pose proof big_float_max. fold d in Hd. split; nra. }
    destruct (HC r aux) as [(j & t & d' & x & aux' & C1 & C2 & C3 & C4 & C5 & C6 & C7 & _)|(aux' & _ & Hno)].
    2:{ exfalso. rewrite Hr in Hno. exact (Hno (plate h) d (Inp h Hh) (conj CR IS)). }
    rewrite Hr in C3, C4, C5, C6, C7. fold ray in C3, C4, C5, C6, C7.
    destruct (record_at _ _ _ Ha C2) as (f & b & n & Ef & Eb & En & Hin). apply Recs in Hin as (Ht & -> & -> & ->).
    assert (Hd' : exists h', t = plate h' /\ (h' = 0 \/ h' = 1)) by (destruct Ht as [-> | ->]; eauto). destruct Hd' as (h' & -> & Hh').
    assert (z + k * d' = h' /\ 0 < d').
    { destruct C3 as (_ & P & u & v & C & _). split; [|lra]. rewrite AL in C. apply (f_equal vz) in C. unfold plate, bary in C. vunf. lra. }
    assert (h' = h).
    { unfold h, target. destruct Hk as [-> | ->].
      - rewrite Rltb_is_false by lra. destruct Hh' as [-> | ->]; [lra|reflexivity].
      - rewrite Rltb_is_true by lra. destruct Hh' as [-> | ->]; [reflexivity|lra]. }
    subst h'. assert (d' = d) by (destruct Hk as [-> | ->]; lra). subst d'.
    destruct (plate_hit (1/4) (1/4) z k h (x_shading x) Hk C6) as (N1 & N2 & N3).
    exists j, x, aux'. split; [exact C1|]. split.
    { rewrite C7, AL, Hzd; [reflexivity|]. unfold unit, ray, vertical. vunf. destruct Hk as [-> | ->]; ring. }
    split; [exact N1|]. split; [rewrite <- N1; exact (proj1 (C11_hit_frame _ _ _ C6))|]. split; [exact En|]. split; [exact N3|]. intros r'. unfold hit_material. cbn [r_interaction set_interaction].
    rewrite N2. cbv zeta. rewrite E1, H1. destruct (Rltb k 0); [rewrite Ef|rewrite Eb]; reflexivity.
  Qed.
End Corridor.
