(** * Properties C81, C82: the answers of ray queries do not depend on the order in which objects were added (or on
    the sorting and box routines of the libraries), and adding objects can only bring hits nearer and darken. *)
From Coq Require Import Permutation.
From Verif Require Import NumR Geometry Triangle Sphere Colour Ray Bvh Material Scene SpecGeom SpecBvh SpecScene
  TriangleProofs BvhProofs BvhReal BvhReal2 BvhQuery BvhExamples SceneProofs P_Bvh P_Scene TracerScenes.
Open Scope R_scope.

(** a stored record: triangle, front material, back material, vertex normals *)
Notation record := (TriR * nat * nat * (VecR * VecR * VecR))%type.
Definition shape (rc : record) : TriR := fst (fst (fst rc)).
(** the records of everything a history pushed *)
Definition pushed (h : list (@op NumR)) : list record := flat_map stored (objects_of h).
(** the ray does not pass outside a triangle by less than the intersection test's tolerance *)
Definition off_rims (ray : RayR) (rs : list record) : Prop :=
  forall rc s, In rc rs -> touches ray (shape rc) s -> crosses ray (shape rc) s.
(** few enough triangles, not piled up (see C06) *)
Definition sized (rs : list record) : Prop :=
  (Z.of_nat (length rs) <= 2 ^ 30)%Z /\ uncrowded (map shape rs).

Lemma uncrowded_perm ts ts' : Permutation ts ts' -> uncrowded ts -> uncrowded ts'.
Proof.
  intros P H crowd others Q C. apply (H crowd others); [|exact C]. eapply Permutation_trans; [exact P|exact Q].
Qed.

(** what a rebuilt scene answers, in terms of what was pushed *)
Lemma rebuilt_answers (E : @Ext NumR) : externals_ok E -> forall h s, play scene_new h = Ret s -> sized (pushed h) ->
  exists s', rebuild_accelerator s = Ret s' /\ aligned (sc_arrays s') /\ Permutation (records (sc_arrays s')) (pushed h) /\
  (forall fuel (r : @Ray NumR) aux, (2 * length (pushed h) <= fuel)%nat ->
    let ray := r_geometry r in
    (exists j rc d x aux',
       cast_ray fuel s' r aux = Ret (Some (Z.of_nat j), set_interaction r x, aux') /\
       nth_error (records (sc_arrays s')) j = Some rc /\ In rc (pushed h) /\
       touches ray (shape rc) d /\ in_sight ray d /\ i_p (x_shading x) = along ray d /\
       triangle_intersect (shape rc) ray = Some (x_shading x) /\
       x_wo x = times (-1) (direction ray) /\
       (unit (direction ray) -> x_point x = along ray d) /\
       forall rc' d', In rc' (pushed h) -> crosses ray (shape rc') d' -> in_sight ray d' -> reach2 ray d <= reach2 ray d') \/
    (exists aux', cast_ray fuel s' r aux = Ret (None, r, aux') /\
       forall rc d, In rc (pushed h) -> ~ (crosses ray (shape rc) d /\ in_sight ray d))) /\
  (forall fuel ray d2 aux, (2 * length (pushed h) <= fuel)%nat ->
    exists clear aux', scene_unobstructed_distance fuel s' ray d2 aux = Ret (clear, aux') /\
    ((exists rc d, In rc (pushed h) /\ crosses ray (shape rc) d /\ in_the_way ray d2 d) -> clear = false) /\
    (clear = false -> exists rc d, In rc (pushed h) /\ touches ray (shape rc) d /\ in_the_way ray d2 d)).
Proof.
  intros HE h s H [Hn HU]. pose proof HE as (HP & _).
  destruct (inv_play HP h [] scene_new s inv_new H) as (Ha & _ & Hr & _). cbn [app] in Hr. fold (pushed h) in Hr.
  assert (HT : map shape (records (sc_arrays s)) = a_tri (sc_arrays s)) by (apply map_records_tri; exact Ha).
  assert (PT : Permutation (a_tri (sc_arrays s)) (map shape (pushed h))) by (rewrite <- HT; apply Permutation_map; exact Hr).
  assert (LT : length (a_tri (sc_arrays s)) = length (pushed h)) by (rewrite (Permutation_length PT), map_length; reflexivity).
  assert (HU' : uncrowded (a_tri (sc_arrays s))) by (eapply uncrowded_perm; [symmetry; exact PT|exact HU]).
  assert (Hn' : (Z.of_nat (length (a_tri (sc_arrays s))) <= 2 ^ 30)%Z) by (rewrite LT; exact Hn).
  destruct (C03_closest_hit E HE (sc_arrays s) Ha Hn' HU' (length (a_tri (sc_arrays s))) (le_n _)) as (nodes & a' & HB & HQ).
  destruct (C04_shadow E HE (sc_arrays s) Ha Hn' HU' (length (a_tri (sc_arrays s))) (le_n _)) as (nodes2 & a2 & HB2 & HS).
  rewrite HB in HB2. injection HB2 as <- <-.
  destruct (build_permutation HP _ _ _ _ Ha HB) as [Ha' Hp].
  exists (set_accelerator (set_arrays s a') (Some nodes)).
  split; [unfold rebuild_accelerator, install_accelerator; rewrite HB; reflexivity|].
  cbn [sc_arrays set_accelerator set_arrays]. split; [exact Ha'|]. split; [eapply Permutation_trans; [exact Hp|exact Hr]|].
  assert (IN : forall t, In t (a_tri (sc_arrays s)) <-> exists rc, In rc (pushed h) /\ shape rc = t).
  { intros t. split.
    - intros Hi. eapply Permutation_in in Hi; [|exact PT]. apply in_map_iff in Hi. destruct Hi as (rc & <- & Hi). eauto.
    - intros (rc & Hi & <-). eapply Permutation_in; [symmetry; exact PT|]. apply in_map. exact Hi. }
  split.
  - intros fuel r aux Hf. set (ray := r_geometry r) in *. rewrite <- LT in Hf. unfold cast_ray. cbn [sc_accelerator set_accelerator set_arrays sc_arrays].
    destruct (HQ fuel r aux Hf) as [(j & t & d & x & aux' & H1 & H2 & H3 & H4 & H5 & H6 & H7 & H8 & H9 & Hbest)|(aux' & H1 & Hno)].
    + left. destruct (record_at _ _ _ Ha' H2) as (f & b & n & Ef & Eb & En & Hin).
      exists j, (t, f, b, n), d, x, aux'. split; [exact H1|].
      split; [rewrite nth_error_records, H2, Ef, Eb, En; reflexivity|].
      split; [eapply Permutation_in; [exact Hr|]; eapply Permutation_in; [exact Hp|exact Hin]|].
      split; [exact H4|]. split; [exact H5|]. split; [exact H6|]. split; [exact H7|]. split; [exact H9|]. split; [exact H8|].
      intros rc' d' Hi. apply Hbest. apply IN. eauto.
    + right. exists aux'. split; [exact H1|]. intros rc d Hi. apply Hno. apply IN. eauto.
  - intros fuel ray d2 aux Hf. rewrite <- LT in Hf. unfold scene_unobstructed_distance. cbn [sc_accelerator set_accelerator set_arrays sc_arrays].
    destruct (HS fuel ray d2 aux Hf) as (cl & aux' & H1 & H2 & H3). exists cl, aux'. split; [exact H1|]. split.
    + intros (rc & d & Hi & Hc). apply H2. exists (shape rc), d. split; [apply IN; eauto|exact Hc].
    + intros Hc. destruct (H3 Hc) as (t & d & Hi & Hx). apply IN in Hi. destruct Hi as (rc & Hi & <-). eauto.
Qed.

(** along one ray, distances tell points apart *)
Lemma reach2_times ray s : reach2 ray s = s * s * dot (direction ray) (direction ray).
Proof. unfold reach2, dist2, along. destruct ray as [o d]. dvec. vunf. ring. Qed.
Lemma reach2_inj ray t s t' s' : touches ray t s -> touches ray t' s' -> reach2 ray s = reach2 ray s' -> s = s'.
Proof.
  intros (V & S1 & _) (_ & S2 & _) H. rewrite !reach2_times in H.
  assert (D : dot (direction ray) (direction ray) <> 0).
  { intros D. destruct ray as [o d]. cbn [direction] in *. assert (d = pt 0 0 0) as ->.
    { destruct d as [x y z]. revert D. vunf. intros D. change R in x, y, z. assert (x = 0) by nra. assert (y = 0) by nra. assert (z = 0) by nra. subst. reflexivity. }
    revert V. unfold volume. destruct t as [a b c]. dvec. vunf. intros V.
    match type of V with _ <= Rabs ?e => replace e with 0 in V by ring end. rewrite Rabs_R0 in V. lra. }
  assert (s * s = s' * s') by (apply Rmult_eq_reg_r with (dot (direction ray) (direction ray)); assumption). nra.
Qed.
Lemma dot_nonneg (v : VecR) : 0 <= dot v v.
Proof. destruct v as [x y z]. vunf. change R in x, y, z. nra. Qed.

(** ** C81 - insertion order, accelerator and library routines do not matter.
    Two histories that pushed the same objects (in any order, with materials, builds and skies interleaved in any way),
    each with its own sorting, selection and box routines: after a rebuild every ray gets the same answer. *)
Theorem C81_order : forall (E E' : @Ext NumR), externals_ok E -> externals_ok E' ->
  forall h h' s0 s0', play (E := E) scene_new h = Ret s0 -> play (E := E') scene_new h' = Ret s0' ->
  Permutation (objects_of h) (objects_of h') -> sized (pushed h) ->
  exists s s', rebuild_accelerator (E := E) s0 = Ret s /\ rebuild_accelerator (E := E') s0' = Ret s' /\
  (* closest hits *)
  (forall fuel fuel' (r : @Ray NumR) aux aux', (2 * length (pushed h) <= fuel)%nat -> (2 * length (pushed h) <= fuel')%nat ->
    let ray := r_geometry r in off_rims ray (pushed h) ->
    (exists j j' x x' rc rc' b b',
       cast_ray (E := E) fuel s r aux = Ret (Some (Z.of_nat j), set_interaction r x, b) /\
       cast_ray (E := E') fuel' s' r aux' = Ret (Some (Z.of_nat j'), set_interaction r x', b') /\
       nth_error (records (sc_arrays s)) j = Some rc /\ nth_error (records (sc_arrays s')) j' = Some rc' /\
       (* at the same point *)
       i_p (x_shading x) = i_p (x_shading x') /\ (unit (direction ray) -> x_point x = x_point x') /\ x_wo x = x_wo x' /\
       (* and of the same record, with the same shading, unless several records are met at that point *)
       ((forall r1 r2 d, In r1 (pushed h) -> In r2 (pushed h) -> crosses ray (shape r1) d -> crosses ray (shape r2) d -> r1 = r2) ->
         rc = rc' /\ x_shading x = x_shading x')) \/
    (exists b b', cast_ray (E := E) fuel s r aux = Ret (None, r, b) /\ cast_ray (E := E') fuel' s' r aux' = Ret (None, r, b'))) /\
  (* shadows *)
  (forall fuel fuel' ray d2 aux aux', (2 * length (pushed h) <= fuel)%nat -> (2 * length (pushed h) <= fuel')%nat ->
    off_rims ray (pushed h) ->
    exists clear b b', scene_unobstructed_distance (E := E) fuel s ray d2 aux = Ret (clear, b) /\
                       scene_unobstructed_distance (E := E') fuel' s' ray d2 aux' = Ret (clear, b')).
Proof.
  intros E E' HE HE' h h' s0 s0' H H' HPm HZ.
  assert (PP : Permutation (pushed h) (pushed h')) by (unfold pushed; apply Permutation_flat_map; exact HPm).
  assert (HZ' : sized (pushed h')).
  { destruct HZ as [Z1 Z2]. split; [rewrite <- (Permutation_length PP); exact Z1|]. eapply uncrowded_perm; [|exact Z2]. apply Permutation_map. exact PP. }
  destruct (rebuilt_answers E HE h s0 H HZ) as (s & HB & _ & _ & HC & HS).
  destruct (rebuilt_answers E' HE' h' s0' H' HZ') as (s' & HB' & _ & _ & HC' & HS').
  rewrite <- (Permutation_length PP) in HC', HS'.
  assert (IN : forall rc, In rc (pushed h') <-> In rc (pushed h)).
  { intros rc. split; intros D; eapply Permutation_in; try exact D; [symmetry; exact PP|exact PP]. }
  exists s, s'. split; [exact HB|]. split; [exact HB'|]. split.
  - intros fuel fuel' r aux aux' Hf Hf' ray HR.
    destruct (HC fuel r aux Hf) as [(j & rc & d & x & b & C1 & C2 & C3 & C4 & C5 & C6 & C7 & C8 & C9 & C10)|(b & C1 & C2)];
    destruct (HC' fuel' r aux' Hf') as [(j' & rc' & d' & x' & b' & D1 & D2 & D3 & D4 & D5 & D6 & D7 & D8 & D9 & D10)|(b' & D1 & D2)].
    + left. exists j, j', x, x', rc, rc', b, b'. apply IN in D3.
      assert (K : d = d').
      { eapply reach2_inj; [exact C4|exact D4|]. apply Rle_antisym.
        - apply (C10 rc' d'); [exact D3|apply HR; assumption|exact D5].
        - apply (D10 rc d); [apply IN; exact C3|apply HR; assumption|exact C5]. }
      subst d'. split; [exact C1|]. split; [exact D1|]. split; [exact C2|]. split; [exact D2|].
      split; [congruence|]. split; [intros U; rewrite (C9 U), (D9 U); reflexivity|]. split; [congruence|].
      intros HU. assert (Q : rc = rc') by (apply (HU rc rc' d); try assumption; apply HR; assumption).
      split; [exact Q|]. subst rc'. rewrite C7 in D7. injection D7 as D7. exact D7.
    + exfalso. apply (D2 rc d); [apply IN; exact C3|]. split; [apply HR; assumption|exact C5].
    + exfalso. apply IN in D3. apply (C2 rc' d' D3). split; [apply HR; assumption|exact D5].
    + right. exists b, b'. split; assumption.
  - intros fuel fuel' ray d2 aux aux' Hf Hf' HR.
    destruct (HS fuel ray d2 aux Hf) as (c & b & C1 & C2 & C3). destruct (HS' fuel' ray d2 aux' Hf') as (c' & b' & D1 & D2 & D3).
    assert (Q : c = c').
    { destruct c, c'; try reflexivity.
      - destruct (D3 eq_refl) as (rc & d & I & X & Y). apply IN in I. apply C2. exists rc, d. split; [exact I|]. split; [apply HR; assumption|exact Y].
      - destruct (C3 eq_refl) as (rc & d & I & X & Y). symmetry. apply D2. exists rc, d. split; [apply IN; exact I|]. split; [apply HR; assumption|exact Y]. }
    subst c'. exists c, b, b'. split; assumption.
Qed.
Print Assumptions C81_order.

(** ** C82 - adding objects can only bring hits nearer and shadows closer *)
Theorem C82_monotone : forall (E E' : @Ext NumR), externals_ok E -> externals_ok E' ->
  forall h h' s0 s0', play (E := E) scene_new h = Ret s0 -> play (E := E') scene_new h' = Ret s0' ->
  (forall o, In o (objects_of h) -> In o (objects_of h')) -> sized (pushed h) -> sized (pushed h') ->
  exists s s', rebuild_accelerator (E := E) s0 = Ret s /\ rebuild_accelerator (E := E') s0' = Ret s' /\
  (forall fuel fuel' (r : @Ray NumR) aux aux', (2 * length (pushed h) <= fuel)%nat -> (2 * length (pushed h') <= fuel')%nat ->
    let ray := r_geometry r in off_rims ray (pushed h) ->
    forall j x b, cast_ray (E := E) fuel s r aux = Ret (Some (Z.of_nat j), set_interaction r x, b) ->
    exists j' x' b', cast_ray (E := E') fuel' s' r aux' = Ret (Some (Z.of_nat j'), set_interaction r x', b') /\
      dist2 (i_p (x_shading x')) (origin ray) <= dist2 (i_p (x_shading x)) (origin ray)) /\
  (forall fuel fuel' ray d2 aux aux', (2 * length (pushed h) <= fuel)%nat -> (2 * length (pushed h') <= fuel')%nat ->
    off_rims ray (pushed h) ->
    forall b, scene_unobstructed_distance (E := E) fuel s ray d2 aux = Ret (false, b) ->
    exists b', scene_unobstructed_distance (E := E') fuel' s' ray d2 aux' = Ret (false, b')).
Proof.
  intros E E' HE HE' h h' s0 s0' H H' HIn HZ HZ'.
  assert (IN : forall rc, In rc (pushed h) -> In rc (pushed h')).
  { intros rc D. unfold pushed in *. apply in_flat_map in D. destruct D as (o & D1 & D2). apply in_flat_map. exists o. split; [apply HIn; exact D1|exact D2]. }
  destruct (rebuilt_answers E HE h s0 H HZ) as (s & HB & _ & _ & HC & HS).
  destruct (rebuilt_answers E' HE' h' s0' H' HZ') as (s' & HB' & _ & _ & HC' & HS').
  exists s, s'. split; [exact HB|]. split; [exact HB'|]. split.
  - intros fuel fuel' r aux aux' Hf Hf' ray HR j x b C1.
    destruct (HC fuel r aux Hf) as [(j2 & rc & d & x2 & b2 & C1' & C2 & C3 & C4 & C5 & C6 & C7 & C8 & C9 & C10)|(b2 & C1' & C2)]; rewrite C1' in C1; [|discriminate].
    assert (EX : x_shading x2 = x_shading x).
    { assert (Q : set_interaction r x2 = set_interaction r x) by congruence. apply (f_equal r_interaction) in Q. cbn in Q. rewrite Q. reflexivity. }
    assert (CR : crosses ray (shape rc) d) by (apply HR; assumption).
    destruct (HC' fuel' r aux' Hf') as [(j' & rc' & d' & x' & b' & D1 & D2 & D3 & D4 & D5 & D6 & D7 & D8 & D9 & D10)|(b' & D1 & D2)].
    + exists j', x', b'. split; [exact D1|]. rewrite <- EX, C6, D6. apply (D10 rc d); auto.
    + exfalso. apply (D2 rc d); auto.
  - intros fuel fuel' ray d2 aux aux' Hf Hf' HR b C1.
    destruct (HS fuel ray d2 aux Hf) as (c & b2 & C1' & C2 & C3). rewrite C1' in C1. injection C1 as -> ->.
    destruct (C3 eq_refl) as (rc & d & I & X & Y).
    destruct (HS' fuel' ray d2 aux' Hf') as (c' & b' & D1 & D2 & D3). exists b'. rewrite D1, D2; [reflexivity|].
    exists rc, d. split; [auto|]. split; [apply HR; assumption|exact Y].
Qed.
Print Assumptions C82_monotone.

(** two orders of pushing two triangles, with a rebuild in the middle of one, and a ray that meets one of them *)
Definition order_a : list (@op NumR) :=
  [AddMaterial floor_material; AddObject 0 0 (PTriangle (tri_at 5)); AddObject 0 0 (PTriangle (tri_at 7))].
Definition order_b : list (@op NumR) :=
  [AddMaterial floor_material; Build; AddObject 0 0 (PTriangle (tri_at 7)); AddObject 0 0 (PTriangle (tri_at 5))].
Definition order_ray : RayR := mkRay3D (pt (21/4) (1/4) 1) (pt 0 0 (-1)).
Example C81_hyp : exists s0 s0', play (E := ext_example) scene_new order_a = Ret s0 /\ play (E := ext_example) scene_new order_b = Ret s0' /\
  Permutation (objects_of order_a) (objects_of order_b) /\ sized (pushed order_a) /\ off_rims order_ray (pushed order_a) /\
  exists rc, In rc (pushed order_a) /\ crosses order_ray (shape rc) 1 /\ in_sight order_ray 1.
Proof.
  eexists. eexists. split; [reflexivity|]. split; [reflexivity|]. split; [cbn; apply perm_swap|].
  split; [split; [cbn; lia|apply uncrowded_few; cbn; lia]|]. split.
  - intros rc d Hin (V & S & u & v & Hp & Hu & Hv & Huv). cbn in Hin. split; [|split; assumption].
    assert (HX := f_equal (@vx NumR) Hp). assert (HY := f_equal (@vy NumR) Hp). assert (HZ := f_equal (@vz NumR) Hp). clear Hp.
    unfold epsilon in *. destruct Hin as [<-|[<-|[]]]; unfold order_ray, shape, tri_at in *; cbn [fst] in *.
    + exists u, v. split; [|split; [|split]]; [| | |apply vec_ext].
      all: revert HX HY HZ; vunf; intros HX HY HZ; lra.
    + exfalso. revert HX HY HZ; vunf; intros HX HY HZ; lra.
  - eexists. split; [left; reflexivity|]. pose proof C03_hyp as (_ & H1 & H2 & _). split; assumption.
Qed.
