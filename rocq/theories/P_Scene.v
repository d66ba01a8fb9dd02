(** * Properties C07-C10 and C16: scene construction, its interplay with the accelerator, sphere meshing *)
From Coq Require Import Permutation SpecFloat.
From Verif Require Import NumR NumSF Geometry Triangle Sphere Colour Ray Bvh Material Scene SpecGeom SpecMesh SpecBvh SpecScene
  TriangleProofs BvhProofs BvhReal BvhReal2 BvhQuery BvhExamples SphereProofs SceneProofs P_Bvh.

Open Scope nat_scope.

(** ** C07 - the per-triangle arrays stay aligned and every record is the one that was pushed (any arithmetic) *)
Theorem C07_records : forall (N : Num) (T : Trig N) (E : Ext), perm_sorts E ->
  forall h s, play scene_new h = Ret s ->
  aligned (sc_arrays s) /\
  Permutation (records (sc_arrays s)) (flat_map stored (objects_of h)) /\
  (forall i, In i (a_front (sc_arrays s)) \/ In i (a_back (sc_arrays s)) -> exists m, nth_error (sc_materials s) i = Some m).
Proof.
  intros N T E HP h s H. destruct (inv_play HP h [] scene_new s inv_new H) as (Ha & (Hf & Hb) & Hr & _).
  split; [exact Ha|]. split; [exact Hr|]. rewrite Forall_forall in Hf, Hb.
  intros i Hi. assert (L : i < length (sc_materials s)) by (destruct Hi; auto).
  apply nth_error_Some in L. destruct (nth_error (sc_materials s) i) as [m|]; [eauto|contradiction].
Qed.
Print Assumptions C07_records.

(** without builds in between, the records are even in the order of the pushes *)
Theorem C07_records_in_order : forall (N : Num) (T : Trig N) (E : Ext) h s, play scene_new h = Ret s ->
  ~ In Build h -> ~ In Rebuild h -> records (sc_arrays s) = flat_map stored (objects_of h).
Proof.
  intros N T E h s.
  enough (G : forall h s0 s, aligned (sc_arrays s0) -> play s0 h = Ret s -> ~ In Build h -> ~ In Rebuild h ->
              records (sc_arrays s) = records (sc_arrays s0) ++ flat_map stored (objects_of h)).
  { intros H B R. rewrite (G h scene_new s) by (try assumption; repeat split). reflexivity. }
  clear h s. induction h as [|o h IH]; cbn [play]; intros s0 s Ha H B R.
  - injection H as <-. cbn. rewrite app_nil_r. reflexivity.
  - destruct (step s0 o) as [s1| |] eqn:S; cbn [obind] in H; try discriminate.
    assert (OO : objects_of (o :: h) = objects_of [o] ++ objects_of h) by (unfold objects_of; cbn [flat_map]; rewrite app_nil_r; reflexivity).
    assert (K : aligned (sc_arrays s1) /\ records (sc_arrays s1) = records (sc_arrays s0) ++ flat_map stored (objects_of [o])).
    { destruct o as [m|f b p| | |g|g]; cbn [step] in S; try (injection S as <-; split; [exact Ha|cbn; rewrite app_nil_r; reflexivity]).
      - destruct (push_object_inv _ _ _ _ _ S) as (mf & mb & ts & ns & l & Ef & Eb & El & M & ->).
        destruct (mesh_facets _ _ _ _ M) as [Lns F]. cbn [sc_arrays].
        assert (RA := records_app (sc_arrays s0) (mkArr ts (repeat f (length ts)) (repeat b (length ts)) ns) Ha).
        cbn [a_tri a_front a_back a_norm] in RA. rewrite RA.
        destruct Ha as (A1 & A2 & A3). split.
        + unfold aligned. cbn [a_tri a_front a_back a_norm]. rewrite !app_length, !repeat_length. lia.
        + f_equal. cbn [objects_of flat_map app]. rewrite app_nil_r. unfold stored. rewrite F. apply records_repeat. exact Lns.
      - exfalso. apply B. left. reflexivity.
      - exfalso. apply R. left. reflexivity. }
    destruct K as [Ha1 K]. rewrite (IH s1 s Ha1 H) by (intros D; first [apply B; right; exact D|apply R; right; exact D]).
    rewrite K, OO, flat_map_app, app_assoc. reflexivity.
Qed.
Print Assumptions C07_records_in_order.

(** ** C08 - lights *)
Theorem C08_lights : forall (N : Num) (T : Trig N) (E : Ext), perm_sorts E ->
  forall h s, play scene_new h = Ret s ->
  selected (fun o => luminous (sc_materials s) o /\ ~ distant (snd o)) as_object (objects_of h) (sc_lights s) /\
  selected (fun o => luminous (sc_materials s) o /\ distant (snd o)) as_object (objects_of h) (sc_distant_lights s).
Proof.
  intros N T E HP h s H. destruct (inv_play HP h [] scene_new s inv_new H) as (_ & _ & _ & _ & _ & Hl & Hd).
  split; assumption.
Qed.
Print Assumptions C08_lights.

(** what is refused: a material that does not exist, and non-luminous objects that have no mesh *)
Theorem C08_refused : forall (N : Num) (T : Trig N) (E : Ext) s f b p,
  (push_object s f b p = Crash <->
     nth_error (sc_materials s) f = None \/ nth_error (sc_materials s) b = None \/
     (~ luminous (sc_materials s) (f, b, p) /\ ((exists c, p = PCylinder c) \/ (exists d, p = PSource d)))) /\
  push_object s f b p <> Stuck.
Proof.
  intros N T E s f b p. unfold push_object.
  destruct (nth_error (sc_materials s) f) as [mf|] eqn:Ef; [|split; [split; [tauto|reflexivity]|discriminate]].
  destruct (nth_error (sc_materials s) b) as [mb|] eqn:Eb; [|split; [split; [tauto|reflexivity]|discriminate]].
  pose proof (luminous_emits _ f b p _ _ Ef Eb) as LE. unfold register_light.
  destruct (emits_direct_light mf || emits_direct_light mb) eqn:L.
  - assert (Lu : luminous (sc_materials s) (f, b, p)) by (apply LE; reflexivity).
    destruct (id_is_source (prim_id p)); destruct p; cbn [mesh_primitive obind]; split; try (destruct (mesh_sphere _)); try discriminate;
      (split; [discriminate|]); intros [D|[D|[D _]]]; try discriminate; contradiction.
  - assert (Lu : ~ luminous (sc_materials s) (f, b, p)) by (intros D; apply LE in D; discriminate).
    destruct p; cbn [mesh_primitive obind]; (split; [split|]); try (destruct (mesh_sphere _)); try discriminate; try reflexivity;
      intros; try (destruct H as [D|[D|[_ [[c D]|[c D]]]]]; discriminate); right; right; (split; [exact Lu|]); eauto.
Qed.
Print Assumptions C08_refused.

(** ** C09 - handles *)
Theorem C09_handles : forall (N : Num) (T : Trig N) (E : Ext) s m s1 i, push_material s m = (s1, i) ->
  nth_error (sc_materials s1) i = Some m /\
  forall h s2, play s1 h = Ret s2 ->
    nth_error (sc_materials s2) i = Some m /\
    (forall m' s3 j, push_material s2 m' = (s3, j) -> j <> i).
Proof.
  intros N T E s m s1 i H. unfold push_material in H. cbv zeta in H. injection H as <- <-.
  cbn [set_materials sc_materials].
  assert (A : nth_error (sc_materials s ++ [m]) (length (sc_materials s ++ [m]) - 1) = Some m).
  { rewrite app_length. cbn [length]. rewrite nth_error_app2 by lia. replace (_ - _ - _) with 0 by lia. reflexivity. }
  split; [exact A|]. intros h s2 H. pose proof (play_materials _ _ _ H) as Hm. cbn [set_materials sc_materials] in Hm.
  assert (B : nth_error (sc_materials s2) (length (sc_materials s ++ [m]) - 1) = Some m).
  { rewrite Hm. apply nth_error_prefix. exact A. }
  split; [exact B|]. intros m' s3 j H3. unfold push_material in H3. cbv zeta in H3. injection H3 as <- <-.
  cbn [set_materials sc_materials]. intros D. assert (L : length (sc_materials s ++ [m]) - 1 < length (sc_materials s2)) by (apply nth_error_Some; rewrite B; discriminate).
  revert D. rewrite app_length. cbn [length]. lia.
Qed.
Print Assumptions C09_handles.

(** ** C10 - visibility of objects pushed after the accelerator was built: false without a rebuild.
    Whatever is pushed after a build, no ray query sees it (any arithmetic). *)
Theorem C10_late_objects_ignored_refuted : forall (N : Num) (T : Trig N) (E : Ext) s h s',
  play s h = Ret s' -> sc_accelerator s <> None -> ~ In Rebuild h ->
  (forall fuel r aux x, cast_ray fuel s r aux = Ret x -> cast_ray fuel s' r aux = Ret x) /\
  (forall fuel ray d2 aux x, scene_unobstructed_distance fuel s ray d2 aux = Ret x -> scene_unobstructed_distance fuel s' ray d2 aux = Ret x).
Proof.
  intros N T E s h s' H Hacc HR.
  enough (G : sc_accelerator s' = sc_accelerator s /\ exists extra, a_tri (sc_arrays s') = a_tri (sc_arrays s) ++ extra).
  { destruct G as [Ga (extra & Gt)]. unfold cast_ray, scene_unobstructed_distance. rewrite Ga, Gt.
    destruct (sc_accelerator s) as [nodes|]; [|contradiction]. split.
    - intros fuel r aux x. apply intersect_more.
    - intros fuel ray d2 aux x. unfold unobstructed_distance. destruct nodes; [auto|]. apply shadow_more. }
  revert s H Hacc HR. induction h as [|o h IH]; cbn [play]; intros s H Hacc HR.
  - injection H as <-. split; [reflexivity|]. exists []. rewrite app_nil_r. reflexivity.
  - destruct (step s o) as [s1| |] eqn:S; cbn [obind] in H; try discriminate.
    assert (K : sc_accelerator s1 = sc_accelerator s /\ exists extra, a_tri (sc_arrays s1) = a_tri (sc_arrays s) ++ extra).
    { destruct o as [m|f b p| | |g|g]; cbn [step] in S;
        try (injection S as <-; split; [reflexivity|exists []; rewrite app_nil_r; reflexivity]).
      - destruct (push_object_inv _ _ _ _ _ S) as (mf & mb & ts & ns & l & _ & _ & _ & _ & ->). split; [reflexivity|]. eexists. reflexivity.
      - unfold build_accelerator in S. destruct (sc_accelerator s); [discriminate|contradiction].
      - exfalso. apply HR. left. reflexivity. }
    destruct K as [K1 (e1 & K2)]. destruct (IH s1 H) as [I1 (e2 & I2)].
    + rewrite K1. exact Hacc.
    + intros D. apply HR. right. exact D.
    + split; [congruence|]. exists (e1 ++ e2). rewrite I2, K2, app_assoc. reflexivity.
Qed.
Print Assumptions C10_late_objects_ignored_refuted.

Open Scope R_scope.
(** a ray that crosses the pushed triangle, and is told that there is nothing *)
Definition floor_material : @Material NumR := Mirror (gray (N := NumR) (1/2)).
Definition blind_history : list (@op NumR) := [AddMaterial floor_material; Build; AddObject 0 0 (PTriangle (tri_at 5))].
Definition down_ray (r : @Ray NumR) : @Ray NumR := set_geometry r (mkRay3D (pt (21/4) (1/4) 1) (pt 0 0 (-1))).
Theorem C10_blind_spot_refuted : forall (E : Ext) (r : @Ray NumR) fuel aux,
  exists s, play scene_new blind_history = Ret s /\ In (tri_at 5) (a_tri (sc_arrays s)) /\
    crosses (r_geometry (down_ray r)) (tri_at 5) 1 /\ in_sight (r_geometry (down_ray r)) 1 /\
    cast_ray fuel s (down_ray r) aux = Ret (None, down_ray r, aux).
Proof.
  intros E r fuel aux. eexists. split; [reflexivity|]. split; [left; reflexivity|].
  pose proof C03_hyp as (_ & H1 & H2 & _). split; [exact H1|]. split; [exact H2|]. reflexivity.
Qed.
Print Assumptions C10_blind_spot_refuted.

(** the positive part: after a rebuild every triangle of every object ever pushed takes part in the queries *)
Theorem C10_rebuild_sees_all_partial : forall E, externals_ok E -> forall h s, play scene_new h = Ret s ->
  (Z.of_nat (length (a_tri (sc_arrays s))) <= 2 ^ 30)%Z -> uncrowded (a_tri (sc_arrays s)) ->
  exists s', rebuild_accelerator s = Ret s' /\
  forall fuel (r : @Ray NumR) aux, (2 * length (a_tri (sc_arrays s)) <= fuel)%nat ->
  let ray := r_geometry r in
  forall f b p t n d, In (f, b, p) (objects_of h) -> In (t, n) (facets p) -> crosses ray t d -> in_sight ray d ->
  exists j t' d' x aux',
    cast_ray fuel s' r aux = Ret (Some (Z.of_nat j), set_interaction r x, aux') /\
    nth_error (a_tri (sc_arrays s')) j = Some t' /\ touches ray t' d' /\ i_p (x_shading x) = along ray d' /\
    reach2 ray d' <= reach2 ray d.
Proof.
  intros E HE h s H Hn HU. pose proof HE as (HP & _).
  destruct (inv_play HP h [] scene_new s inv_new H) as (Ha & _ & Hr & _). cbn [app] in Hr.
  destruct (C03_closest_hit E HE (sc_arrays s) Ha Hn HU (length (a_tri (sc_arrays s))) (le_n _)) as (nodes & a' & HB & HQ).
  exists (set_accelerator (set_arrays s a') (Some nodes)). split; [unfold rebuild_accelerator, install_accelerator; rewrite HB; reflexivity|].
  intros fuel r aux Hf ray f b p t n d Hin Hfac Hc Hs.
  assert (Ht : In t (a_tri (sc_arrays s))).
  { rewrite <- (map_records_tri _ Ha). change t with ((fun r0 : TriR * nat * nat * (VecR * VecR * VecR) => fst (fst (fst r0))) (t, f, b, n)).
    apply in_map. eapply Permutation_in; [symmetry; exact Hr|]. apply in_flat_map. exists (f, b, p). split; [exact Hin|].
    unfold stored. apply in_map_iff. exists (t, n). split; [reflexivity|exact Hfac]. }
  destruct (HQ fuel r aux Hf) as [(j & t' & s' & x & aux' & H1 & H2 & H3 & H4 & H5 & H6 & H7 & _ & _ & Hbest)|(aux' & _ & Hno)].
  - exists j, t', s', x, aux'. split; [exact H1|]. split; [exact H2|]. split; [exact H4|]. split; [exact H6|].
    apply (Hbest t d Ht Hc Hs).
  - exfalso. exact (Hno t d Ht (conj Hc Hs)).
Qed.
Print Assumptions C10_rebuild_sees_all_partial.

(** hypotheses of C07-C10 are met by a history with a light, a mirror, a late object and a rebuild *)
Definition busy_history : list (@op NumR) :=
  [AddMaterial floor_material; AddObject 0 0 (PTriangle (tri_at 5)); AddMaterial (Light (gray (N := NumR) 10));
   AddObject 1 0 (PTriangle (tri_at 7)); AddObject 1 1 (PSource (mkSource (pt 0 0 1) (1/100))); AddObject 0 1 (PTriangle (tri_at 9))].
Example C07_hyp : exists s, play (E := ext_example) scene_new busy_history = Ret s /\
  length (a_tri (sc_arrays s)) = 3%nat /\ length (sc_lights s) = 2%nat /\ length (sc_distant_lights s) = 1%nat /\
  (Z.of_nat (length (a_tri (sc_arrays s))) <= 2 ^ 30)%Z /\ uncrowded (a_tri (sc_arrays s)).
Proof.
  eexists. split; [reflexivity|]. cbn [sc_arrays set_arrays a_tri sc_lights sc_distant_lights].
  repeat split; try (cbn; lia). apply uncrowded_few. cbn. lia.
Qed.

(** ** C16 - sphere meshes *)
(** any arithmetic with a commutative addition, any number of refinements: 20 * 4^k triangles, as many normals, no cracks *)
Theorem C16_mesh_topology : forall (N : Num) (T : Trig N), (forall x y : F, fadd x y = fadd y x) ->
  forall k s, let '(ts, ns) := mesh_sphere_at k s in
  length ts = (20 * 4 ^ k)%nat /\ length ns = length ts /\ watertight ts.
Proof.
  intros N T comm k s. unfold mesh_sphere_at. cbv zeta. rewrite !map_length, refinements_length.
  split; [unfold icosahedron; cbv zeta; cbn [base_triangles length]; lia|]. split; [reflexivity|].
  apply refinements_watertight; [exact comm|]. unfold icosahedron. cbv zeta. apply base_watertight.
Qed.
Print Assumptions C16_mesh_topology.
Theorem C16_count : forall (N : Num) (T : Trig N) s,
  Z.of_nat (length (fst (mesh_sphere s))) = 20480%Z /\ length (snd (mesh_sphere s)) = length (fst (mesh_sphere s)).
Proof.
  intros N T s. split; [|apply mesh_sphere_lengths]. unfold mesh_sphere, mesh_sphere_at. cbn [fst].
  rewrite map_length, refinements_length. unfold icosahedron. cbv zeta. cbn [base_triangles length]. 
  rewrite Nat2Z.inj_mul, Nat2Z.inj_pow. reflexivity.
Qed.
Print Assumptions C16_count.
(** binary64 addition is commutative, so this covers the program's own arithmetic *)
Theorem C16_binary64_commutes : forall x y : @F NumSF, @fadd NumSF x y = @fadd NumSF y x.
Proof.
  intros x y. cbn [fadd NumSF].
  destruct x as [sx|sx| |sx mx ex'], y as [sy|sy| |sy my ey']; cbn [SFadd]; try reflexivity;
    try (destruct sx, sy; reflexivity).
  rewrite (Z.min_comm ex' ey'). rewrite (Z.add_comm (cond_Zopp sx _)). reflexivity.
Qed.
Print Assumptions C16_binary64_commutes.

(** exact arithmetic: every vertex is on the sphere, every facet is non-degenerate and faces outwards, every vertex
    normal is the outward unit vector, and the mesh surrounds the centre: a ray leaving the centre in any direction
    meets a facet *)
Theorem C16_mesh_geometry : forall (c : VecR) (r : R) k, 0 < r ->
  let '(ts, ns) := mesh_sphere_at k (mkSphere c r) in
  (forall t p, In t ts -> In p (vertices t) -> on_sphere c r p) /\
  (forall t, In t ts -> faces_away c t) /\
  (forall i t n0 n1 n2, nth_error ts i = Some t -> nth_error ns i = Some (n0, n1, n2) ->
     outward c (ta t) n0 /\ outward c (tb t) n1 /\ outward c (tc t) n2) /\
  (forall d, d <> pt 0 0 0 -> exists t s, In t ts /\ 0 < s /\ on_triangle t (along (mkRay3D c d) s)).
Proof.
  intros c r k Hr. unfold mesh_sphere_at. cbv zeta. cbn [s_centre s_radius].
  set (ts := refinements k c r (icosahedron c r)).
  assert (G : Forall (good c r) ts) by (apply refinements_good; [exact Hr|apply icosahedron_good; exact Hr]).
  rewrite Forall_forall in G.
  assert (L : forall p, dot (minus p c) (minus p c) = r * r -> dist p c = r).
  { intros p Hp. unfold dist, norm. rewrite Hp. apply sqrt_square. lra. }
  assert (O : forall p, dot (minus p c) (minus p c) = r * r -> outward c p (vnormalized (vsub p c))).
  { intros p Hp. unfold outward. rewrite (L p Hp). unfold vnormalized. rewrite vsub_minus, vlen_norm. unfold norm. rewrite Hp, sqrt_square by lra.
    assert (Hd : dot (vdivs (minus p c) r) (vdivs (minus p c) r) = dot (minus p c) (minus p c) / (r * r)).
    { generalize (minus p c). clear - Hr. intros w. dvec. vunf. field. lra. }
    split; [unfold unit; rewrite Hd, Hp; field; lra|]. generalize (minus p c). clear - Hr. intros w. dvec. apply vec_ext; vunf; field; lra. }
  split; [|split; [|split]].
  - intros t p Hin Hp. apply in_map_iff in Hin. destruct Hin as ([[a b] d] & <- & Hin). specialize (G _ Hin). destruct G as [(Sa & Sb & Sd) _].
    cbn in Hp. unfold on_sphere. destruct Hp as [<-|[<-|[<-|[]]]]; apply L; assumption.
  - intros t Hin. apply in_map_iff in Hin. destruct Hin as ([[a b] d] & <- & Hin). specialize (G _ Hin). destruct G as [_ D]. exact D.
  - intros i t n0 n1 n2 Ht Hn. rewrite nth_error_map in Ht, Hn. destruct (nth_error ts i) as [[[a b] d]|] eqn:Ei; [|discriminate].
    apply nth_error_In in Ei. specialize (G _ Ei). destruct G as [(Sa & Sb & Sd) _].
    cbn [option_map to_triangle vertex_normals] in Ht, Hn. injection Ht as <-. injection Hn as <- <- <-. cbn [ta tb tc].
    repeat split; apply O; assumption.
  - intros d Hd. pose proof (refinements_cover k c r d Hr _ (icosahedron_good c r Hr) (icosahedron_cover c r d Hr)) as C.
    fold ts in C. apply Exists_exists in C. destruct C as ([[a b] e] & Hin & p & q & s & Hp & Hq & Hs & Ed).
    assert (Hsum : 0 < p + q + s).
    { destruct (Rle_lt_dec (p + q + s) 0) as [Z|Z]; [|exact Z]. exfalso. apply Hd. rewrite Ed.
      replace p with 0 by lra. replace q with 0 by lra. replace s with 0 by lra. clear. dvec. apply vec_ext; vunf; ring. }
    exists (mkTri a b e), (/ (p + q + s)). split; [apply in_map_iff; exists (a, b, e); split; [reflexivity|exact Hin]|].
    assert (I : 0 < / (p + q + s)) by (apply Rinv_0_lt_compat; exact Hsum). split; [exact I|].
    exists (q / (p + q + s)), (s / (p + q + s)). unfold Rdiv.
    split; [nra|]. split; [nra|]. split.
    + apply Rmult_le_reg_r with (p + q + s); [exact Hsum|]. field_simplify; lra.
    + rewrite Ed. clear - Hsum. dvec. apply vec_ext; vunf; field; lra.
Qed.
Print Assumptions C16_mesh_geometry.
