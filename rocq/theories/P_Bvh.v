(** * Properties C01-C06: the acceleration structure and its queries *)
From Coq Require Import Permutation Sorted SpecFloat.
From Verif Require Import NumR NumSF Geometry Triangle SpecGeom TriangleProofs Ray Bvh BvhProofs BvhOrder BvhReal BvhReal2 SpecBvh BvhQuery BvhExamples.
Open Scope R_scope.

(** the assumptions on the routines outside this repository (standard-library sorting and selection return
    permutations, sorting sorts, the box routines of geometry3d do what they say) *)
Definition externals_ok (E : @Ext NumR) : Prop :=
  perm_sorts E /\ sorts_by_centroid E /\ max_extent_ok E /\ box_test_complete E.
Example externals_ok_satisfiable : externals_ok ext_example.
Proof. exact ext_example_ok. Qed.

(** ** C01 - nothing is lost, duplicated or mixed (for every arithmetic, hence for binary64) *)
Theorem C01_build_permutes : forall (N : Num) (E : Ext), perm_sorts E ->
  forall fuel scene nodes scene', aligned scene -> bvh_new fuel scene = Ret (nodes, scene') ->
  aligned scene' /\ Permutation (records scene') (records scene).
Proof. intros N E HP fuel scene nodes scene'. apply (build_permutation HP). Qed.
Print Assumptions C01_build_permutes.

(** a scene of five triangles, three of them in a row *)
Definition tri_at (x : R) : TriR := mkTri (pt x 0 0) (pt (x + 1) 0 0) (pt x 1 0).
Definition scene5 : @Arrays NumR :=
  mkArr [tri_at 0; tri_at 10; tri_at 5; tri_at 20; tri_at 15] [0; 1; 2; 3; 4]%nat [4; 3; 2; 1; 0]%nat
        (repeat (pt 0 0 1, pt 0 0 1, pt 0 0 1) 5).
Example scene5_aligned : aligned scene5.
Proof. repeat split. Qed.

(** ** C02 - the build finishes, never panics, and leaves a well-formed array *)
Theorem C02_build_total : forall E, externals_ok E ->
  forall scene, aligned scene -> (Z.of_nat (length (a_tri scene)) <= 2 ^ 30)%Z -> uncrowded (a_tri scene) -> a_tri scene <> [] ->
  forall fuel, (length (a_tri scene) <= fuel)%nat ->
  exists nodes scene', bvh_new fuel scene = Ret (nodes, scene') /\
    well_formed nodes (a_tri scene') 0 (length nodes) 0 (length (a_tri scene)).
Proof. intros E (H1 & H2 & H3 & H4) scene Ha Hn HU Hne fuel Hf. apply build_well_formed; assumption. Qed.
Print Assumptions C02_build_total.
Example C02_hyp : aligned scene5 /\ (Z.of_nat (length (a_tri scene5)) <= 2 ^ 30)%Z /\ uncrowded (a_tri scene5) /\ a_tri scene5 <> [].
Proof. split; [exact scene5_aligned|]. split; [cbn; lia|]. split; [apply uncrowded_few; cbn; lia|discriminate]. Qed.

(** ... also when more than 2^15 triangles coincide (only the array's leaf counters are wrong then, see C06) *)
Theorem C02_build_returns : forall E, externals_ok E -> forall scene, aligned scene ->
  forall fuel, (length (a_tri scene) <= fuel)%nat -> exists nodes scene', bvh_new fuel scene = Ret (nodes, scene').
Proof.
  intros E (H1 & H2 & H3 & H4) scene Ha fuel Hf. unfold bvh_new.
  destruct (Nat.eqb_spec (length (a_tri scene)) 0) as [D|D]; [eauto|].
  destruct (build_total H1 H2 scene Ha fuel (infos_of (a_tri scene)) empty_arrays) as (nd & ord & ->).
  - intros Z. apply (f_equal (@length _)) in Z. rewrite infos_of_length in Z. contradiction.
  - rewrite infos_of_length. assumption.
  - apply infos_of_describe.
  - cbn [obind]. eauto.
Qed.
Print Assumptions C02_build_returns.

(** ** C03 - closest hit *)
Theorem C03_closest_hit : forall E, externals_ok E ->
  forall scene, aligned scene -> (Z.of_nat (length (a_tri scene)) <= 2 ^ 30)%Z -> uncrowded (a_tri scene) ->
  forall bfuel, (length (a_tri scene) <= bfuel)%nat ->
  exists nodes scene', bvh_new bfuel scene = Ret (nodes, scene') /\
  forall fuel (r : @Ray NumR) aux, (2 * length (a_tri scene) <= fuel)%nat ->
  let ray := r_geometry r in
  (* some triangle is returned: it is really there, and no triangle is crossed at a smaller distance *)
  (exists j t s x aux',
     intersect fuel nodes (a_tri scene') r aux = Ret (Some (Z.of_nat j), set_interaction r x, aux') /\
     nth_error (a_tri scene') j = Some t /\ In t (a_tri scene) /\
     touches ray t s /\ in_sight ray s /\ i_p (x_shading x) = along ray s /\ triangle_intersect t ray = Some (x_shading x) /\
     (unit (direction ray) -> x_point x = along ray s) /\ x_wo x = times (-1) (direction ray) /\
     forall t' s', In t' (a_tri scene) -> crosses ray t' s' -> in_sight ray s' -> reach2 ray s <= reach2 ray s') \/
  (* nothing is returned: no triangle is crossed *)
  (exists aux', intersect fuel nodes (a_tri scene') r aux = Ret (None, r, aux') /\
     forall t' s', In t' (a_tri scene) -> ~ (crosses ray t' s' /\ in_sight ray s')).
Proof. intros E (H1 & H2 & H3 & H4) scene Ha Hn HU bfuel Hb. apply closest_hit; assumption. Qed.
Print Assumptions C03_closest_hit.
(* a ray of this kind that crosses a triangle of scene5 *)
Example C03_hyp : let ray := mkRay3D (pt (21/4) (1/4) 1) (pt 0 0 (-1)) in
  unit (direction ray) /\ crosses ray (tri_at 5) 1 /\ in_sight ray 1 /\ In (tri_at 5) (a_tri scene5).
Proof.
  cbv zeta. split; [unfold unit; vunf; ring|]. split; [|split].
  - split; [exists (1/4), (1/4); repeat split; try lra; apply vec_ext; unfold tri_at; vunf; field|].
    split; [|lra]. unfold tri_at. vunf. rewrite Rabs_pos_eq; lra.
  - unfold in_sight, reach2. vunf. 
    assert (1 < float_max).
    { unfold float_max. assert (A : 2 ^ 2 <= 2 ^ 53) by (apply Rle_pow; [lra|lia]). assert (B : 1 <= 2 ^ 971) by (apply pow_R1_Rle; lra).
      generalize dependent (2 ^ 53). generalize dependent (2 ^ 971). intros b HB a HA. nra. }
    split; lra.
  - cbn. auto.
Qed.

(** the version for every arithmetic whose `<` is a strict order - binary64 with rounding, NaN and infinities
    included: the answer is the best among the triangles whose ancestor boxes the box test accepts *)
Theorem C03_closest_hit_any_arithmetic : forall (N : Num) (E : Ext), strict_order N -> perm_sorts E ->
  forall bfuel scene root nodes scene' m, built bfuel scene root nodes scene' ->
  leaves_le m root -> (Z.of_nat m < 2 ^ 15)%Z -> (Z.of_nat (length (a_tri scene)) <= 2 ^ 30)%Z ->
  forall fuel r aux, (length nodes <= fuel)%nat ->
  (exists j t2 info,
      intersect fuel nodes (a_tri scene') r aux = Ret (Some (Z.of_nat j), hit_ray r t2 info, []) /\
      valid_hit (a_tri scene') (r_geometry r) j t2 info /\
      forall j' t2' info', reached (r_geometry r) root j' -> valid_hit (a_tri scene') (r_geometry r) j' t2' info' ->
                           fltb t2' t2 = false) \/
  (intersect fuel nodes (a_tri scene') r aux = Ret (None, r, []) /\
   forall j' t2' info', reached (r_geometry r) root j' -> ~ valid_hit (a_tri scene') (r_geometry r) j' t2' info').
Proof. intros N E HO HP. exact (intersect_generic HO HP). Qed.
Print Assumptions C03_closest_hit_any_arithmetic.
Theorem C03_binary64_order : strict_order NumSF.
Proof. exact strict_order_SF. Qed.
Print Assumptions C03_binary64_order.

(** ** C04 - shadow queries *)
Theorem C04_shadow : forall E, externals_ok E ->
  forall scene, aligned scene -> (Z.of_nat (length (a_tri scene)) <= 2 ^ 30)%Z -> uncrowded (a_tri scene) ->
  forall bfuel, (length (a_tri scene) <= bfuel)%nat ->
  exists nodes scene', bvh_new bfuel scene = Ret (nodes, scene') /\
  forall fuel ray d2 aux, (2 * length (a_tri scene) <= fuel)%nat ->
  exists clear aux', unobstructed_distance fuel nodes (a_tri scene') ray d2 aux = Ret (clear, aux') /\
    ((exists t s, In t (a_tri scene) /\ crosses ray t s /\ in_the_way ray d2 s) -> clear = false) /\
    (clear = false -> exists t s, In t (a_tri scene) /\ touches ray t s /\ in_the_way ray d2 s).
Proof. intros E (H1 & H2 & H3 & H4) scene Ha Hn HU bfuel Hb. apply shadow; assumption. Qed.
Print Assumptions C04_shadow.
Example C04_hyp : let ray := mkRay3D (pt (21/4) (1/4) 1) (pt 0 0 (-1)) in crosses ray (tri_at 5) 1 /\ in_the_way ray 4 1.
Proof.
  cbv zeta. split; [apply C03_hyp|]. unfold in_the_way, reach2. vunf. repeat split; try lra. rewrite Rabs_pos_eq; lra.
Qed.
Theorem C04_no_triangles : forall (N : Num) (E : Ext) scene bfuel fuel ray d2 aux, a_tri scene = [] ->
  exists nodes scene', bvh_new bfuel scene = Ret (nodes, scene') /\
    unobstructed_distance fuel nodes (a_tri scene') ray d2 aux = Ret (true, aux).
Proof. intros N E scene bfuel fuel ray d2 aux H. exists [], scene. unfold bvh_new. rewrite H. split; reflexivity. Qed.
Print Assumptions C04_no_triangles.

(** ** C05 - history independence (every arithmetic, every node and triangle array) *)
Theorem C05_history_independent : forall (N : Num) (E : Ext) fuel nodes prims qs aux,
  ask_all fuel nodes prims aux qs = map (fun q => fst (ask fuel nodes prims [] q)) qs.
Proof. intros. apply ask_all_history. Qed.
Print Assumptions C05_history_independent.

Theorem C05_miss_keeps_ray : forall (N : Num) (E : Ext) fuel nodes prims r aux r' aux',
  intersect fuel nodes prims r aux = Ret (None, r', aux') -> r' = r.
Proof.
  intros N E fuel nodes prims r aux r' aux'. unfold intersect. destruct nodes as [|n nodes]; [congruence|].
  cbv zeta. destruct (isect_loop _ _ _ _ _ _ _) as [[b st]| |]; cbn [obind]; try discriminate.
  destruct (b_index b), (b_info b); congruence.
Qed.
Print Assumptions C05_miss_keeps_ray.
Theorem C05_hit_keeps_rest : forall (N : Num) (E : Ext) fuel nodes prims r aux j r' aux',
  intersect fuel nodes prims r aux = Ret (Some j, r', aux') ->
  r_geometry r' = r_geometry r /\ r_refraction_index r' = r_refraction_index r /\ r_depth r' = r_depth r /\
  r_value r' = r_value r /\ r_colour r' = r_colour r.
Proof.
  intros N E fuel nodes prims r aux j r' aux'. unfold intersect. destruct nodes as [|n nodes]; [discriminate|].
  cbv zeta. destruct (isect_loop _ _ _ _ _ _ _) as [[b st]| |]; cbn [obind]; try discriminate.
  destruct (b_index b), (b_info b); try discriminate. intros H. injection H as <- <- <-. repeat split.
Qed.
Print Assumptions C05_hit_keeps_rest.

Lemma covers_leaves_le {N : Num} {E : Ext} nd : forall s n, covers s n nd -> leaves_le n nd.
Proof.
  assert (mono : forall nd a b, (a <= b)%nat -> leaves_le a nd -> leaves_le b nd).
  { induction nd0 as [|b ax c1 IH1 c2 IH2]; cbn; intros a b' H; [lia|]. intros [H1 H2]. eauto. }
  induction nd as [b f k|b ax c1 IH1 c2 IH2]; cbn; intros s n.
  - lia.
  - intros (n1 & n2 & -> & _ & _ & C1 & C2 & _). split; eapply mono; try (eapply IH1 || eapply IH2); try eassumption; lia.
Qed.
(** no query on a freshly built accelerator panics or loops, in any arithmetic, below 2^15 triangles *)
Theorem C05_queries_return : forall (N : Num) (E : Ext), strict_order N -> perm_sorts E ->
  forall bfuel scene nodes scene', aligned scene -> (Z.of_nat (length (a_tri scene)) < 2 ^ 15)%Z ->
  bvh_new bfuel scene = Ret (nodes, scene') ->
  forall fuel aux, (2 * length (a_tri scene) <= fuel)%nat ->
  (forall r, exists o r' aux', intersect fuel nodes (a_tri scene') r aux = Ret (o, r', aux')) /\
  (forall ray d2, exists b aux', unobstructed_distance fuel nodes (a_tri scene') ray d2 aux = Ret (b, aux')).
Proof.
  intros N E HO HP bfuel scene nodes scene' Ha Hn HB fuel aux Hf. unfold bvh_new in HB.
  destruct (Nat.eqb_spec (length (a_tri scene)) 0) as [D|D].
  { injection HB as <- <-. split; intros; cbn; eauto. }
  destruct (recursive_build _ _ _ _) as [[root o]| |] eqn:R; try discriminate. cbn [obind] in HB. injection HB as <- <-.
  assert (Hb : built bfuel scene root (snd (flatten_node root [])) o).
  { split; [exact Ha|]. split; [intros Z; rewrite Z in D; apply D; reflexivity|]. split; [exact R|reflexivity]. }
  assert (Ha0 : aligned (@empty_arrays N)) by (repeat split).
  destruct (build_spec HP _ _ _ _ _ _ Ha0 R) as (_ & _ & Hc & _). rewrite infos_of_length in Hc. cbn [empty_arrays a_tri length] in Hc.
  pose proof (covers_leaves_le _ _ _ Hc) as Hl.
  pose proof (covers_nsize _ _ _ Hc) as Hns.
  assert (Hlen : (length (snd (flatten_node root [])) <= fuel)%nat).
  { rewrite flatten_flat. cbn [snd app]. rewrite flat_length. lia. }
  split.
  - intros r. destruct (intersect_generic HO HP _ _ _ _ _ _ Hb Hl Hn ltac:(lia) fuel r aux Hlen) as [(j & t2 & info & H & _)|[H _]]; eauto.
  - intros ray d2. destruct (shadow_generic HP _ _ _ _ _ _ Hb Hl Hn ltac:(lia) fuel ray d2 aux Hlen) as (b & st & H & _); eauto.
Qed.
Print Assumptions C05_queries_return.

(** ** C06 - leaves of any size.  False: the leaf counter is an i16.  With 32768 to 65536 coinciding triangles the
    single leaf is taken for an interior node; a query whose ray crosses the triangle panics (index out of bounds),
    or never ends when the ray's x direction is negative. *)
Lemma as_signed16_wrap n : (2 ^ 15 <= n <= 2 ^ 16)%Z -> (as_signed 16 n <= 0)%Z.
Proof.
  intros H. unfold as_signed. change (16 - 1)%Z with 15%Z.
  destruct (Z.eq_dec n (2 ^ 16)) as [->|D]; [vm_compute; discriminate|].
  assert (E : ((n + 2 ^ 15) mod 2 ^ 16 = n + 2 ^ 15 - 2 ^ 16)%Z).
  { symmetry. apply Z.mod_unique with 1%Z; lia. }
  rewrite E. lia.
Qed.

Theorem C06_big_leaf_refuted : forall E, externals_ok E ->
  forall (t : TriR) (n : nat), (2 ^ 15 <= Z.of_nat n <= 2 ^ 16)%Z ->
  forall (r : @Ray NumR) s aux, crosses (r_geometry r) t s ->
  exists nodes scene', bvh_new (S n) (copies t n) = Ret (nodes, scene') /\ a_tri scene' = repeat t n /\
    (0 <= vx (inv_dir (r_geometry r)) -> forall fuel, (2 <= fuel)%nat -> intersect fuel nodes (a_tri scene') r aux = Crash) /\
    (vx (inv_dir (r_geometry r)) < 0 -> forall fuel, intersect fuel nodes (a_tri scene') r aux = Stuck).
Proof.
  intros E (HP & HS & HM & HB) t n Hn r s aux Hc.
  destruct (coincident_build t n ltac:(lia) n) as (scene' & Hb & Ht).
  exists [mkFlat (world_bounds t) (as_signed 16 (Z.of_nat n)) AX 0], scene'. split; [exact Hb|]. split; [rewrite Ht; reflexivity|].
  set (nd := mkFlat (world_bounds t) (as_signed 16 (Z.of_nat n)) AX 0).
  assert (Hhit : bbox_hit (f_bounds nd) (r_geometry r) (inv_dir (r_geometry r)) = true).
  { eapply HB; [|eapply crosses_in_box; exact Hc]. destruct Hc as (_ & _ & Hs). lra. }
  assert (Hleaf : is_leaf nd = false).
  { unfold is_leaf. cbn [f_nprims nd]. apply Z.ltb_ge. apply as_signed16_wrap. exact Hn. }
  unfold intersect. cbv zeta. unfold truncate0. cbn [firstn]. split.
  - intros Hx [|[|fuel]] Hf; try lia.
    assert (Hd : dir_is_neg (r_geometry r) AX = false).
    { unfold dir_is_neg, comp. cbn [fltb NumR]. unfold f0. cbn [flit]. rewrite Rltb_is_false; [reflexivity|].
      rsimp. lra. }
    cbn [isect_loop nthZ length Z.leb Z.compare Z.ltb Z.of_nat Pos.of_succ_nat andb Z.to_nat nth_error Pos.compare Pos.compare_cont].
    rewrite Hhit, Hleaf. cbn [f_axis nd]. rewrite Hd. reflexivity.
  - intros Hx.
    assert (Hd : dir_is_neg (r_geometry r) AX = true).
    { unfold dir_is_neg, comp. cbn [fltb NumR]. unfold f0. cbn [flit]. apply Rltb_is_true. rsimp. lra. }
    assert (G : forall fuel st best, isect_loop fuel [nd] (a_tri scene') (r_geometry r) 0%Z st best = Stuck).
    { induction fuel as [|k IH]; intros st best; [reflexivity|].
      cbn [isect_loop nthZ length Z.leb Z.compare Z.ltb Z.of_nat Pos.of_succ_nat andb Z.to_nat nth_error].
      rewrite Hhit, Hleaf. cbn [f_axis nd]. rewrite Hd. cbn [f_next nd]. apply IH. }
    intros fuel. rewrite G. reflexivity.
Qed.
Print Assumptions C06_big_leaf_refuted.
Example C06_hyp : (2 ^ 15 <= Z.of_nat (Z.to_nat 40000) <= 2 ^ 16)%Z /\
  crosses (r_geometry (mkRay (N := NumR) (mkRay3D (pt (1/4) (1/4) 1) (pt 0 0 (-1))) 1
    (mkInter (pt 0 0 0) (pt 0 0 0) (mkInfo (pt 0 0 0) (pt 0 0 0) (pt 0 0 0) (pt 0 0 0) Front 0 0)) 0 1 BLACK)) (tri_at 0) 1.
Proof.
  split; [rewrite Z2Nat.id; lia|]. cbn [r_geometry].
  split; [exists (1/4), (1/4); repeat split; try lra; apply vec_ext; unfold tri_at; vunf; field|].
  split; [|lra]. unfold tri_at. vunf. rewrite Rabs_pos_eq; lra.
Qed.

(** What holds: below 2^15 triangles per place every leaf is searched completely (C03/C04); in particular for every
    scene of fewer than 2^15 triangles, however they coincide. *)
Theorem C06_leaf_complete_partial : forall E, externals_ok E ->
  forall scene, aligned scene -> (Z.of_nat (length (a_tri scene)) < 2 ^ 15)%Z ->
  forall bfuel, (length (a_tri scene) <= bfuel)%nat ->
  exists nodes scene', bvh_new bfuel scene = Ret (nodes, scene') /\
  forall fuel (r : @Ray NumR) aux, (2 * length (a_tri scene) <= fuel)%nat ->
    (exists t s, In t (a_tri scene) /\ crosses (r_geometry r) t s /\ in_sight (r_geometry r) s) ->
    exists j r' aux', intersect fuel nodes (a_tri scene') r aux = Ret (Some j, r', aux').
Proof.
  intros E HE scene Ha Hn bfuel Hb.
  destruct (C03_closest_hit E HE scene Ha ltac:(lia) (uncrowded_few _ Hn) bfuel Hb) as (nodes & scene' & HB & HQ).
  exists nodes, scene'. split; [exact HB|]. intros fuel r aux Hf (t & s & Hin & Hc & Hs).
  destruct (HQ fuel r aux Hf) as [(j & t' & s' & x & aux' & H & _)|(aux' & _ & H)]; [eauto|].
  exfalso. eapply H; eauto.
Qed.
Print Assumptions C06_leaf_complete_partial.
