(** * TracerScenes: scenes built by a history, ready for tracing (real arithmetic) *)
From Coq Require Import Permutation.
From Verif Require Import NumR Geometry Triangle Sphere Colour Ray Bvh Material Scene Samplers Primitives RayTracer TracerProofs TracerSafe
  SpecGeom SpecBvh SpecScene TriangleProofs BvhProofs BvhReal BvhReal2 BvhQuery BvhExamples SceneProofs P_Triangle P_Bvh.
Open Scope R_scope.

(** small enough for the accelerator's integer fields *)
Definition manageable (s : @Scene NumR) : Prop :=
  (Z.of_nat (length (a_tri (sc_arrays s))) <= 2 ^ 30)%Z /\ uncrowded (a_tri (sc_arrays s)).

Section Rebuilt.
  Context {E : @Ext NumR} {HE : externals_ok E}.

  (** what a query on a scene with an up to date accelerator answers *)
  Definition finds (s : @Scene NumR) (fuel : nat) (r : @Ray NumR) (aux : list Z) : Prop :=
    let ray := r_geometry r in
    (exists j t d x aux', cast_ray fuel s r aux = Ret (Some (Z.of_nat j), set_interaction r x, aux') /\
       nth_error (a_tri (sc_arrays s)) j = Some t /\ touches ray t d /\ in_sight ray d /\ i_p (x_shading x) = along ray d /\
       triangle_intersect t ray = Some (x_shading x) /\ (unit (direction ray) -> x_point x = along ray d) /\
       forall t' d', In t' (a_tri (sc_arrays s)) -> crosses ray t' d' -> in_sight ray d' -> reach2 ray d <= reach2 ray d') \/
    (exists aux', cast_ray fuel s r aux = Ret (None, r, aux') /\
       forall t' d', In t' (a_tri (sc_arrays s)) -> ~ (crosses ray t' d' /\ in_sight ray d')).

  Lemma rebuilt h s0 : play scene_new h = Ret s0 -> manageable s0 -> exists s,
    rebuild_accelerator s0 = Ret s /\ sc_materials s = sc_materials s0 /\ sc_lights s = sc_lights s0 /\
    sc_distant_lights s = sc_distant_lights s0 /\ sc_sky s = sc_sky s0 /\ sc_sky_colour s = sc_sky_colour s0 /\
    aligned (sc_arrays s) /\ Permutation (records (sc_arrays s)) (flat_map stored (objects_of h)) /\
    length (a_tri (sc_arrays s)) = length (a_tri (sc_arrays s0)) /\
    forall fuel, (2 * length (a_tri (sc_arrays s0)) <= fuel)%nat ->
      (forall r aux, finds s fuel r aux) /\
      (forall ray d2 aux, exists clear aux', scene_unobstructed_distance fuel s ray d2 aux = Ret (clear, aux') /\
        ((exists t d, In t (a_tri (sc_arrays s)) /\ crosses ray t d /\ in_the_way ray d2 d) -> clear = false) /\
        (clear = false -> exists t d, In t (a_tri (sc_arrays s)) /\ touches ray t d /\ in_the_way ray d2 d)).
  Proof.
    intros H [Hn HU]. pose proof HE as (HP & _).
    destruct (inv_play HP h [] scene_new s0 inv_new H) as (Ha & _ & Hr & _). cbn [app] in Hr.
    destruct (C03_closest_hit E HE (sc_arrays s0) Ha Hn HU (length (a_tri (sc_arrays s0))) (le_n _)) as (nodes & a' & HB & HQ).
    destruct (C04_shadow E HE (sc_arrays s0) Ha Hn HU (length (a_tri (sc_arrays s0))) (le_n _)) as (nodes2 & a2 & HB2 & HQ2).
    rewrite HB in HB2. injection HB2 as <- <-.
    destruct (C01_build_permutes NumR E HP _ _ _ _ Ha HB) as [Ha' HPm].
    exists (set_accelerator (set_arrays s0 a') (Some nodes)). 
    split; [unfold rebuild_accelerator, install_accelerator; rewrite HB; reflexivity|].
    do 5 (split; [reflexivity|]). split; [exact Ha'|]. split; [cbn; rewrite HPm; exact Hr|].
    assert (PT : Permutation (a_tri a') (a_tri (sc_arrays s0))).
    { rewrite <- (map_records_tri _ Ha'), <- (map_records_tri _ Ha). apply Permutation_map. exact HPm. }
    split; [apply Permutation_length; exact PT|]. intros fuel Hf. split.
    - intros r aux. unfold finds. cbv zeta. unfold cast_ray. cbn [sc_accelerator set_accelerator sc_arrays set_arrays].
      destruct (HQ fuel r aux Hf) as [(j & t' & d & x & aux' & H1 & H2 & H3 & H4 & H5 & H6 & H7 & H8 & _ & Hbest)|(aux' & H1 & Hno)].
      + left. exists j, t', d, x, aux'. repeat (split; [assumption|]). intros t1 d1 Hin. apply Hbest. eapply Permutation_in; [exact PT|exact Hin].
      + right. exists aux'. split; [exact H1|]. intros t1 d1 Hin. apply Hno. eapply Permutation_in; [exact PT|exact Hin].
    - intros ray d2 aux. unfold scene_unobstructed_distance. cbn [sc_accelerator set_accelerator sc_arrays set_arrays].
      destruct (HQ2 fuel ray d2 aux Hf) as (cl & aux' & H1 & H2 & H3). exists cl, aux'. split; [exact H1|]. split.
      + intros (t & d & Hin & Hc). apply H2. exists t, d. split; [eapply Permutation_in; [exact PT|exact Hin]|exact Hc].
      + intros Hc. destruct (H3 Hc) as (t & d & Hin & Hx). exists t, d. split; [eapply Permutation_in; [symmetry; exact PT|exact Hin]|exact Hx].
  Qed.

  (** the whole record of a triangle *)
  Lemma record_at {N : Num} (a : Arrays) j t : aligned a -> nth_error (a_tri a) j = Some t ->
    exists f b n, nth_error (a_front a) j = Some f /\ nth_error (a_back a) j = Some b /\ nth_error (a_norm a) j = Some n /\
      In (t, f, b, n) (records a).
  Proof.
    intros (H1 & H2 & H3) Ht. assert (L : (j < length (a_tri a))%nat) by (apply nth_error_Some; rewrite Ht; discriminate).
    destruct (nth_error (a_front a) j) as [f|] eqn:Ef; [|apply nth_error_None in Ef; rewrite H1 in Ef; lia].
    destruct (nth_error (a_back a) j) as [b|] eqn:Eb; [|apply nth_error_None in Eb; rewrite H2 in Eb; lia].
    destruct (nth_error (a_norm a) j) as [n|] eqn:En; [|apply nth_error_None in En; rewrite H3 in En; lia].
    exists f, b, n. do 3 (split; [reflexivity|]). apply (nth_error_In _ j). rewrite nth_error_records, Ht, Ef, Eb, En. reflexivity.
  Qed.

  Context {RG : Gen NumR} {O : @Geo NumR}.
  (** the perpendicular routine of geometry3d succeeds on non-zero vectors *)
  Definition perpendicular_ok : Prop := forall v : VecR, v <> pt 0 0 0 -> get_perpendicular v <> None.
  (** nothing in the history that the light sampling cannot handle: no (luminous) cylinder, no distant source without direction *)
  Definition samplable (h : list (@op NumR)) : Prop := forall f b p, In (f, b, p) (objects_of h) ->
    (forall c, p <> PCylinder c) /\ (forall d, p = PSource d -> ds_direction d <> pt 0 0 0).

  Lemma selected_in {A B} (P : A -> Prop) (f : A -> B) l r x : selected P f l r -> In x r -> exists a, In a l /\ x = f a.
  Proof.
    induction 1 as [|a l r Ha HS IH|a l r Ha HS IH]; intros Hx; [destruct Hx| |].
    - destruct Hx as [<-|Hx]; [exists a; split; [left; reflexivity|reflexivity]|]. destruct (IH Hx) as (b & Hb & ->). exists b. split; [right|]; auto.
    - destruct (IH Hx) as (b & Hb & ->). exists b. split; [right|]; auto.
  Qed.

  Lemma rebuilt_prepared h s0 : play scene_new h = Ret s0 -> manageable s0 -> perpendicular_ok -> samplable h ->
    exists s, rebuild_accelerator s0 = Ret s /\ forall fuel, (2 * length (a_tri (sc_arrays s0)) <= fuel)%nat -> prepared fuel s.
  Proof.
    intros H HM HPp HS. destruct (rebuilt h s0 H HM) as (s & HB & E1 & E2 & E3 & _ & _ & Ha & Hp & _ & HQ). pose proof HE as (HP & _).
    exists s. split; [exact HB|]. intros fuel Hf. destruct (HQ fuel Hf) as [HC HSh].
    destruct (inv_play HP h [] scene_new s0 inv_new H) as (_ & _ & _ & _ & Hobj & HL & HD). cbn [app] in Hobj, HL, HD.
    assert (VL : forall (P : nat * nat * Primitive -> Prop) ls, selected P as_object (objects_of h) ls -> Forall (valid_light s) ls).
    { intros P ls HSel. apply Forall_forall. intros l Hin. destruct (selected_in _ _ _ _ _ HSel Hin) as ([[f b] p] & Ho & ->).
      destruct (Hobj _ _ _ Ho) as [Hf' Hb']. destruct (HS _ _ _ Ho) as [HS1 HS2]. unfold valid_light. cbn [as_object ob_front ob_back ob_primitive]. rewrite E1.
      split; [exact Hf'|]. split; [exact Hb'|]. split; [exact HS1|]. intros d Hd. apply HPp.
      apply norm_pos_nz. pose proof (normalized_unit (ds_direction d) (HS2 d Hd)) as U. unfold norm. rewrite U, sqrt_1. lra. }
    split; [|split; [|split; [exact Ha|split; [|split; [|split]]]]].
    - intros r aux. destruct (HC r aux) as [(j & t & d & x & aux' & H1 & H2 & _)|(aux' & H1 & _)].
      + do 3 eexists. split; [exact H1|]. cbn. rewrite Nat2Z.id. apply nth_error_Some. rewrite H2. discriminate.
      + do 3 eexists. split; [exact H1|exact I].
    - intros ray d2 aux. destruct (HSh ray d2 aux) as (cl & aux' & H1 & _). eauto.
    - apply Forall_forall. intros i Hi. rewrite <- (map_records_front _ Ha) in Hi. apply in_map_iff in Hi as ([[[t f] b] n] & <- & Hi).
      eapply Permutation_in in Hi; [|exact Hp]. apply in_flat_map in Hi as ([[f' b'] p] & Ho & Hi). unfold stored in Hi. apply in_map_iff in Hi as (tn & Hi & _).
      injection Hi as _ <- <- _. cbn. rewrite E1. destruct (Hobj _ _ _ Ho); assumption.
    - apply Forall_forall. intros i Hi. rewrite <- (map_records_back _ Ha) in Hi. apply in_map_iff in Hi as ([[[t f] b] n] & <- & Hi).
      eapply Permutation_in in Hi; [|exact Hp]. apply in_flat_map in Hi as ([[f' b'] p] & Ho & Hi). unfold stored in Hi. apply in_map_iff in Hi as (tn & Hi & _).
      injection Hi as _ <- <- _. cbn. rewrite E1. destruct (Hobj _ _ _ Ho); assumption.
    - rewrite E2. eapply VL. exact HL.
    - rewrite E3. eapply VL. exact HD.
  Qed.
End Rebuilt.
