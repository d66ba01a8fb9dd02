(** * Property C102: the life of the accelerator - nothing can be asked of a scene before it is built, and it is built once *)
From Coq Require Import List Arith Lia ZArith.
From Verif Require Import Num NumR Geometry Triangle Sphere Colour Ray Bvh BvhProofs Material Scene SpecScene Samplers Primitives RayTracer
  Image ColourMatrix Render Daylight SceneProofs SpecBvh P_Bvh P_Scene P_Handles.
Import ListNotations.

(** the accelerator was built during the history *)
Definition was_built {N : Num} (h : list op) : Prop := In Build h \/ In Rebuild h.

Section Life.
  Context {N : Num} {T : Trig N} {E : Ext} {RG : Gen N} {GO : Geo}.

  Lemma step_accelerator s o s' : step s o = Ret s' ->
    match o with Build => sc_accelerator s = None /\ sc_accelerator s' <> None | Rebuild => sc_accelerator s' <> None | _ => sc_accelerator s' = sc_accelerator s end.
  Proof.
    destruct o as [m|f b p| | |sky|c]; cbn [step]; intros H.
    - injection H as <-. reflexivity.
    - unfold push_object in H. destruct (nth_error (sc_materials s) f) as [mf|]; [|discriminate]. destruct (nth_error (sc_materials s) b) as [mb|]; [|discriminate].
      unfold register_light in H. destruct (emits_direct_light mf || emits_direct_light mb)%bool; [destruct (id_is_source (prim_id p))|];
        cbn [fst snd] in H; destruct (mesh_primitive p _) as [[ts ns]| |]; cbn in H; try discriminate; injection H as <-; reflexivity.
    - unfold build_accelerator in H. destruct (sc_accelerator s) eqn:A; [discriminate|]. split; [reflexivity|].
      apply install_inv in H. destruct H as (nodes & a & _ & ->). discriminate.
    - apply install_inv in H. destruct H as (nodes & a & _ & ->). discriminate.
    - injection H as <-. reflexivity.
    - injection H as <-. reflexivity.
  Qed.
  Lemma play_accelerator h : forall s s', play s h = Ret s' -> (sc_accelerator s' <> None <-> sc_accelerator s <> None \/ was_built h).
  Proof.
    induction h as [|o h IH]; intros s s' H; cbn [play] in H.
    - injection H as <-. unfold was_built. cbn. tauto.
    - destruct (step s o) as [s1| |] eqn:E1; cbn [obind] in H; try discriminate. rewrite (IH _ _ H). apply step_accelerator in E1. unfold was_built. cbn [In].
      destruct o as [m|f b p| | |sky|c]; try (rewrite E1; split; [intros [?|[?|?]]; auto|intros [?|[[?|?]|[?|?]]]; try discriminate; auto]).
      + destruct E1 as [_ E1]. split; [intros _; right; left; left; reflexivity|intros _; left; exact E1].
      + split; [intros _; right; right; left; reflexivity|intros _; left; exact E1].
  Qed.

  Section Unbuilt.
    Variable s : Scene.
    Hypothesis NB : sc_accelerator s = None.
    Lemma no_cast fuel r aux : cast_ray fuel s r aux = Crash. Proof. unfold cast_ray. rewrite NB. reflexivity. Qed.
    Lemma no_shadow fuel r d2 aux : scene_unobstructed_distance fuel s r d2 aux = Crash. Proof. unfold scene_unobstructed_distance. rewrite NB. reflexivity. Qed.
    Lemma no_trace nest fuel c r aux g : trace_ray (S nest) fuel c s r aux g = Crash. Proof. cbn [trace_ray]. rewrite no_cast. reflexivity. Qed.
    Lemma no_pixel nest fuel c cam w i aux g : render_pixel (S nest) fuel c s cam w i aux g = Crash.
    Proof.
      unfold render_pixel. assert (P : pixel_position w i = Crash \/ exists p, pixel_position w i = Ret p) by (unfold pixel_position; cbv zeta; destruct (_ <? _)%nat; [left; reflexivity|right; eauto]).
      destruct P as [->|[p ->]]; [reflexivity|]. cbn [obind]. destruct (cam p) as [ray wt]. rewrite no_trace. reflexivity.
    Qed.
    Lemma no_picture nest fuel c width height cam seed : (0 < width)%nat -> (0 < height)%nat -> render_sequential (S nest) fuel c s width height cam seed = Crash.
    Proof.
      intros HW HH. assert (T0 : (0 < width * height)%nat) by nia. unfold render_sequential, one_by_one, render_start. cbv zeta.
      set (total := (width * height)%nat) in *. assert (NC : (0 < n_chunks total)%nat). { unfold n_chunks, CHUNK. apply Nat.div_str_pos. lia. }
      destruct (n_chunks total) as [|k]; [lia|]. cbn [seq flat_map map]. assert (CL : (0 < chunk_length total 0)%nat) by (unfold chunk_length, CHUNK; lia).
      destruct (chunk_length total 0) as [|l] eqn:EL; [lia|]. cbn [Nat.mul Nat.add repeat app render_steps].
      unfold render_step at 1. cbn [rd_workers nth_error w_traced w_left Nat.eqb]. rewrite no_pixel. reflexivity.
    Qed.
    Lemma no_daylight nest fuel d (ray : Ray3D) rays seed seed_ray : get_perpendicular (direction ray) <> None -> (0 < dc_n_ambient_samples d)%nat ->
      calc_dc (S nest) fuel d (ray :: rays) s seed seed_ray = Crash.
    Proof.
      intros HP HS. unfold calc_dc. cbn [map_out]. assert (D0 : dc_sensor (S nest) fuel d s ray (seed 0%nat) (seed_ray 0%nat) = Crash); [|rewrite D0; reflexivity].
      unfold dc_sensor. destruct (get_perpendicular (direction ray)) as [e2|]; [|congruence]. cbn [ret_opt obind].
      destruct (dc_n_ambient_samples d) as [|n]; [lia|]. cbn [draw_directions]. destruct (gen (seed 0%nat)) as [r g]. destruct (gen g) as [th g']. cbn [map_out].
      unfold dc_primary at 1. cbn [dc_trace]. rewrite no_cast. reflexivity.
    Qed.
  End Unbuilt.
End Life.

(** ** C102 - a scene that was not built answers no question: everything that casts a ray panics ... *)
Theorem C102_unbuilt : forall (N : Num) (T : Trig N) (E : Ext) (RG : Gen N) (GO : Geo) (h : list op) s, play scene_new h = Ret s -> ~ was_built h ->
  (forall fuel r aux, cast_ray fuel s r aux = Crash) /\
  (forall fuel r d2 aux, scene_unobstructed_distance fuel s r d2 aux = Crash) /\
  (forall nest fuel c r aux g, trace_ray (S nest) fuel c s r aux g = Crash) /\
  (forall nest fuel c width height camera seed, (0 < width)%nat -> (0 < height)%nat -> render_sequential (S nest) fuel c s width height camera seed = Crash) /\
  (forall nest fuel d ray rays seed seed_ray, get_perpendicular (direction ray) <> None -> (0 < dc_n_ambient_samples d)%nat ->
     calc_dc (S nest) fuel d (ray :: rays) s seed seed_ray = Crash).
Proof.
  intros N T E RG GO h s HP NB. assert (A : sc_accelerator s = None).
  { destruct (sc_accelerator s) eqn:A; [exfalso|reflexivity]. destruct (play_accelerator h _ _ HP) as [K _]. destruct K as [K|K]; [rewrite A; discriminate|apply K; reflexivity|exact (NB K)]. }
  split; [intros; apply no_cast; exact A|]. split; [intros; apply no_shadow; exact A|]. split; [intros; apply no_trace; exact A|].
  split; [intros; apply no_picture; assumption|intros; apply no_daylight; assumption].
Qed.
Print Assumptions C102_unbuilt.
(** ... build_accelerator can be called exactly once, and not after rebuild_accelerator; rebuild_accelerator always *)
Theorem C102_once : forall (N : Num) (T : Trig N) (E : Ext) (h : list op) s, play scene_new h = Ret s ->
  (was_built h -> play scene_new (h ++ [Build]) = Crash) /\
  (forall s', play scene_new (h ++ [Build]) = Ret s' -> ~ was_built h /\ play scene_new (h ++ [Rebuild]) = Ret s').
Proof.
  intros N T E h s HP. pose proof (play_accelerator h _ _ HP) as K. rewrite !play_app, HP. cbn [obind play step]. unfold build_accelerator, rebuild_accelerator. split.
  - intros WB. destruct (sc_accelerator s) eqn:A; [reflexivity|]. exfalso. apply K; [right; exact WB|reflexivity].
  - intros s' H. destruct (sc_accelerator s) eqn:A; [discriminate|]. split; [intros WB; apply K; [right; exact WB|reflexivity]|exact H].
Qed.
Print Assumptions C102_once.
(** in exact arithmetic building always succeeds: build_accelerator returns iff the scene was not built before, rebuild_accelerator always *)
Theorem C102_buildable : forall (T : Trig NumR) E, externals_ok E -> forall (h : list (@op NumR)) s, play scene_new h = Ret s ->
  ((exists s', play scene_new (h ++ [Build]) = Ret s') <-> ~ was_built h) /\ (exists s', play scene_new (h ++ [Rebuild]) = Ret s').
Proof.
  intros T E HE h s HP. pose proof HE as (HPm & _). pose proof (play_accelerator h _ _ HP) as K.
  destruct (inv_play HPm h [] scene_new s inv_new HP) as (Ha & _).
  destruct (C02_build_returns E HE (sc_arrays s) Ha (length (a_tri (sc_arrays s))) (le_n _)) as (nodes & a & HB).
  rewrite !play_app, HP. cbn [obind play step]. unfold build_accelerator, rebuild_accelerator, install_accelerator. rewrite HB. cbn [obind]. split; [split|].
  - intros [s' H] WB. destruct (sc_accelerator s) eqn:A; [discriminate|]. apply K; [right; exact WB|reflexivity].
  - intros NB. destruct (sc_accelerator s) eqn:A; [exfalso|eexists; reflexivity]. destruct K as [K _]. destruct (K ltac:(discriminate)) as [C|C]; [apply C; reflexivity|exact (NB C)].
  - eexists. reflexivity.
Qed.
Print Assumptions C102_buildable.
(** A history of each kind: objects pushed and not built; built *)
Example C102_hyp : let t := mkTri (@V3 NumR 0 0 0)%R (@V3 NumR 1 0 0)%R (@V3 NumR 0 1 0)%R in
  forall E : Ext, let h := [AddMaterial (Plastic (@mkS NumR 1 1 1)%R 0%R 0%R); AddObject 0 0 (PTriangle t)] in
  (exists s, play scene_new h = Ret s) /\ ~ was_built h /\ was_built (h ++ [Build]).
Proof.
  intros t E h. split; [eexists; reflexivity|]. unfold was_built. cbn. split; [intros [H|H]; repeat (destruct H as [H|H]; [discriminate|]); exact H|left; auto].
Qed.
