(** * TracerLights: what sampling the lights adds up to (any arithmetic) *)
From Verif Require Import Num Geometry Triangle Sphere Colour Ray Bvh Material Scene Samplers Primitives RayTracer SpecTracer TracerProofs TracerSafe.

Section Lights.
  Context {N : Num} {T : Trig N} {E : Ext} {RG : Gen N} {O : Geo}.
  Local Open Scope num_scope.

  Lemma light_loop_samples fuel s m r p normal e1 e2 n l : forall loops i acc nodes g res nodes' g',
    light_loop loops fuel s m r p normal e1 e2 n l i acc nodes g = Ret (res, nodes', g') ->
    exists xs, (length xs = n - i)%nat /\ Forall (light_sample fuel s m r p normal e1 e2 n l) xs /\ res = fold_left add_sample xs acc.
  Proof.
    induction loops as [|loops IH]; intros i acc nodes g res nodes' g'; cbn [light_loop]; destruct (Nat.ltb_spec i n) as [L|L]; try discriminate.
    1,3: intros H; injection H as <- <- <-; exists []; cbn; repeat split; [lia|constructor].
    destruct (sample_direction _ _ _) as [[dir g1]| |] eqn:SD; cbn [obind]; try discriminate. cbv zeta.
    destruct (intersect_light _ _ _ _ _) as [[[[lc pdf]|] nd]| |] eqn:IL; cbn [obind]; try discriminate; [|apply IH].
    destruct (fltb pdf TINY18) eqn:Q.
    - intros H. destruct (IH _ _ _ _ _ _ _ H) as (xs & H1 & H2 & H3). exists (None :: xs). split; [cbn; lia|]. split; [|exact H3].
      constructor; [|exact H2]. exists g, dir, g1, nodes, nd, lc, pdf. split; [exact SD|]. split; [exact IL|]. unfold TINY18 in Q. rewrite Q. reflexivity.
    - destruct (eval_bsdf _ _ _ _ _ _ _ _) as [bv| |] eqn:EB; cbn [obind]; try discriminate.
      intros H. destruct (IH _ _ _ _ _ _ _ H) as (xs & H1 & H2 & H3). eexists (Some _ :: xs). split; [cbn; lia|]. split; [|exact H3].
      constructor; [|exact H2]. exists g, dir, g1, nodes, nd, lc, pdf. split; [exact SD|]. split; [exact IL|]. unfold TINY18 in Q. rewrite Q.
      exists bv. split; [exact EB|reflexivity].
  Qed.

  Lemma lights_loop_samples fuel s m r p normal e1 e2 n : forall ls acc nodes g res nodes' g',
    lights_loop fuel s m r p normal e1 e2 n ls acc nodes g = Ret (res, nodes', g') ->
    exists xs, samples_of fuel s m r p normal e1 e2 n ls xs /\ res = fold_left add_sample xs acc.
  Proof.
    induction ls as [|l ls IH]; intros acc nodes g res nodes' g'; cbn [lights_loop].
    - intros H. injection H as <- <- <-. exists []. split; [constructor|reflexivity].
    - destruct (light_loop _ _ _ _ _ _ _ _ _ _ _ _ _ _ _) as [[[a b] c]| |] eqn:LL; cbn [obind]; try discriminate.
      intros H. destruct (IH _ _ _ _ _ _ H) as (ys & Y1 & Y2). destruct (light_loop_samples _ _ _ _ _ _ _ _ _ _ _ _ _ _ _ _ _ _ LL) as (xs & X1 & X2 & X3).
      exists (xs ++ ys). split; [constructor; [lia|exact X2|exact Y1]|]. rewrite fold_left_app, <- X3. exact Y2.
  Qed.

  (** a light that every sampled direction misses is sampled forever *)
  Lemma light_loop_missed fuel s m r p normal e1 e2 n l :
    (forall dir, prim_intersect (ob_primitive l) (mkRay3D p dir) = None) ->
    (forall g, exists dir g', sample_direction (ob_primitive l) g p = Ret (dir, g')) ->
    forall loops i acc nodes g, (i < n)%nat -> light_loop loops fuel s m r p normal e1 e2 n l i acc nodes g = Stuck.
  Proof.
    intros HM HS. induction loops as [|loops IH]; intros i acc nodes g Hi; cbn [light_loop];
      (replace (Nat.ltb i n) with true by (symmetry; apply Nat.ltb_lt; exact Hi)); [reflexivity|].
    destruct (HS g) as (dir & g' & ->). cbn [obind]. cbv zeta. unfold intersect_light. cbn [ob_primitive]. rewrite HM. cbn [obind]. apply IH. exact Hi.
  Qed.

  (** when every direction drawn reaches the primitive, n passes are enough *)
  Lemma light_loop_returns fuel s m r p normal e1 e2 n l : prepared fuel s -> valid_light s l -> scatters m ->
    (forall g dir g', sample_direction (ob_primitive l) g p = Ret (dir, g') -> prim_intersect (ob_primitive l) (mkRay3D p dir) <> None) ->
    forall loops i acc nodes g, (n <= i + loops)%nat -> exists x, light_loop loops fuel s m r p normal e1 e2 n l i acc nodes g = Ret x.
  Proof.
    intros HP HL HM HH. induction loops as [|loops IH]; intros i acc nodes g Hl; cbn [light_loop]; destruct (Nat.ltb_spec i n) as [L|L]; eauto; [lia|].
    destruct (sample_direction_returns s l g p HL) as (d & g' & SD). rewrite SD. cbn [obind]. cbv zeta.
    destruct (intersect_light_returns fuel s l (mkRay3D p d) nodes HP HL) as (o & nd & IL). rewrite IL. cbn [obind].
    destruct o as [[lc pdf]|].
    - destruct (fltb _ _); [apply IH; lia|].
      match goal with |- context [eval_bsdf _ _ _ ?a ?b ?c ?d ?e] => destruct (eval_bsdf_returns m a b c d e HM) as (x & ->) end. cbn [obind]. apply IH; lia.
    - exfalso. unfold intersect_light in IL. specialize (HH _ _ _ SD). destruct (prim_intersect _ _) as [info|]; [|contradiction]. cbv zeta in IL.
      destruct (scene_unobstructed_distance _ _ _ _ _) as [[cl nd']| |]; cbn [obind] in IL; try discriminate. destruct (negb cl); [discriminate|].
      destruct (match i_side info with Front => _ | Back => _ | NonApplicable => _ end); [|discriminate].
      destruct (ret_opt _); cbn [obind] in IL; try discriminate. destruct (solid_angle_pdf _ _ _); discriminate.
  Qed.

  (** a light all of whose answers have a negligible density adds nothing *)
  Lemma samples_dark fuel s m r p normal e1 e2 n l xs acc :
    (forall dir nodes colour pdf nodes', intersect_light fuel s l (mkRay3D p dir) nodes = Ret (Some (colour, pdf), nodes') -> fltb pdf (flit 1 (10 ^ 18)) = true) ->
    Forall (light_sample fuel s m r p normal e1 e2 n l) xs -> fold_left add_sample xs acc = acc.
  Proof.
    intros HD. revert acc. induction xs as [|x xs IH]; intros acc HF; [reflexivity|]. inversion_clear HF as [|? ? HX HR]. cbn [fold_left].
    rewrite IH by exact HR. destruct HX as (g & dir & g' & nd & nd' & lc & pdf & _ & IL & HX). rewrite (HD _ _ _ _ _ IL) in HX. subst x. reflexivity.
  Qed.

  (** sampling a cylinder is a panic *)
  Lemma cylinder_panics fuel s m r p normal e1 e2 n l c loops i acc nodes g : ob_primitive l = PCylinder c -> (i < n)%nat ->
    light_loop (S loops) fuel s m r p normal e1 e2 n l i acc nodes g = Crash.
  Proof.
    intros HC Hi. cbn [light_loop]. replace (Nat.ltb i n) with true by (symmetry; apply Nat.ltb_lt; exact Hi). rewrite HC. reflexivity.
  Qed.
End Lights.
