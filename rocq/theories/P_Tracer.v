(** * Properties C44, C45, C46, C47, C54: tracing a ray (real arithmetic)

    [trace_ray nest fuel c s r aux g]: trace the ray [r] in the scene [s] with the configuration [c], the reusable buffers [aux] and
    the generator state [g].  [nest] and [fuel] are running time budgets (depth of nested calls; passes of each loop), [Stuck] is an
    exhausted budget and [Crash] a panic: a call that is Stuck for every large budget never returns. *)
From Coq Require Import Permutation.
From Verif Require Import NumR Geometry Triangle Sphere Colour Ray Bvh Material Scene Samplers Primitives RayTracer TracerProofs TracerSafe TracerSky SpecTracer TracerLights TracerScenes
  TracerCorridor TracerRefute TracerLone SpecGeom SpecBvh SpecScene TriangleProofs BvhProofs BvhReal BvhReal2 BvhQuery BvhExamples SceneProofs P_Triangle P_Bvh.
Open Scope R_scope.

(** ** vocabulary *)
(** a scene made by the history h, its accelerator brought up to date at the end *)
Definition made {E : @Ext NumR} (h : list (@op NumR)) (s : @Scene NumR) : Prop :=
  exists s0, play scene_new h = Ret s0 /\ rebuild_accelerator s0 = Ret s.
(** the generator draws numbers of [0,1) *)
Definition fair (RG : Gen NumR) : Prop := forall g, 0 <= fst (gen g) < 1.
(** generators and geometry routines used to show that hypotheses can be met *)
Definition constant (x : R) : Gen NumR := {| G := Datatypes.unit; gen := fun g => (x : @F NumR, g) |}.
Definition geo_example : @Geo NumR := {| is_parallel := fun _ _ => false; is_same_direction := fun _ _ => false;
  get_perpendicular := fun v => Some v; prim_intersect := fun _ _ => None; triangle3d_area := fun _ => (1 : R) |}.
Lemma fair_constant x : 0 <= x < 1 -> fair (constant x).
Proof. intros H g. exact H. Qed.
Lemma play_then {E : @Ext NumR} h s : play scene_new (h ++ [Rebuild]) = Ret s -> made h s.
Proof.
  assert (PA : forall h1 h2 s1, play s1 (h1 ++ h2) = run s2 <- play s1 h1 ;; play s2 h2).
  { induction h1 as [|o h1 IH]; intros h2 s1; cbn; [reflexivity|]. destruct (step s1 o); cbn; auto. }
  rewrite PA. destruct (play scene_new h) as [s0| |] eqn:HP; cbn [obind]; try discriminate. cbn [play step].
  destruct (rebuild_accelerator s0) as [s1| |] eqn:HB; cbn [obind]; try discriminate. intros H. injection H as <-. exists s0. split; assumption.
Qed.

(** ** C44 - termination and depth *)
(** The nesting of bounces is bounded by the configured depth as long as every specular bounce is counted (the draw compared with
    count_specular_bounce is always smaller, e.g. count_specular_bounce = 1): any budget of max_depth + 2 nested calls is as good as
    any other.  Missing: configurations below 1, where it is false. *)
Theorem C44_nesting_partial : forall (N : Num) (T : Trig N) (E : Ext) (RG : Gen N) (O : Geo) (c : Tracer) (s : Scene) fuel,
  (forall g, fltb (fst (gen g)) (count_specular_bounce c) = true) ->
  forall n1 n2 r aux g, (max_depth c + 2 - r_depth r <= n1)%nat -> (max_depth c + 2 - r_depth r <= n2)%nat -> (0 < n1)%nat -> (0 < n2)%nat ->
  trace_ray n1 fuel c s r aux g = trace_ray n2 fuel c s r aux g.
Proof. intros N T E RG O c s fuel HC n1 n2 r aux g H1 H2 P1 P2. apply trace_ray_nesting; try assumption; lia. Qed.
Print Assumptions C44_nesting_partial.
Example C44_nesting_hyp : forall g : @G NumR (constant (1/2)), @fltb NumR (fst (gen g)) 1 = true.
Proof. intros g. apply Rltb_is_true. cbn. lra. Qed.

(** In a scene without lights and without sky, tracing returns for every configuration with max_depth at most 14, every ray and
    every sequence of draws, when specular bounces are counted and glossy materials never take their specular branch (its own
    rejection loop has no bound, see C26): as many loop passes as ambient samples and max_depth + 2 nested calls suffice. *)
Theorem C44_dark_returns_partial : forall (E : @Ext NumR) (RG : Gen NumR) (O : @Geo NumR) h s0, externals_ok E -> perpendicular_ok ->
  play scene_new h = Ret s0 -> manageable s0 -> samplable h -> sc_lights s0 = [] -> sc_distant_lights s0 = [] -> sc_sky s0 = None ->
  Forall plain (sc_materials s0) ->
  exists s, made h s /\ forall c : @Tracer NumR, (forall g, @fltb NumR (fst (gen g)) (count_specular_bounce c) = true) -> (max_depth c <= 14)%nat ->
  forall r aux g, length (h_rays aux) = 15%nat -> forall nest fuel, (max_depth c + 2 <= nest)%nat ->
    (2 * length (a_tri (sc_arrays s0)) <= fuel)%nat -> (n_ambient_samples c <= fuel)%nat -> (0 < fuel)%nat ->
  exists li r' aux' g', trace_ray nest fuel c s r aux g = Ret (li, @f0 NumR, r', aux', g').
Proof.
  intros E RG O h s0 HE HPp HP HM HS HL HD HK HMat. destruct (rebuilt_prepared (HE := HE) h s0 HP HM HPp HS) as (s & HB & HPr).
  exists s. split; [exists s0; split; assumption|]. intros c HC Hd r aux g Ha nest fuel Hn Hf1 Hf2 Hf3.
  destruct (rebuilt (HE := HE) h s0 HP HM) as (s' & HB' & E1 & E2 & E3 & E4 & _). rewrite HB in HB'. injection HB' as <-.
  apply trace_ray_returns; try assumption; try lia; [apply Rltb_is_false; lra|apply HPr; exact Hf1|].
  unfold dark. rewrite E1, E2, E3, E4. auto.
Qed.
Print Assumptions C44_dark_returns_partial.
Lemma geo_perpendicular : @perpendicular_ok geo_example.
Proof. intros v _. discriminate. Qed.
Definition gray_wall : @Material NumR := Plastic (gray (1/2 : R)) (0 : R) (0 : R).
Example C44_dark_hyp : exists s0, play (E := ext_example) scene_new (corridor gray_wall) = Ret s0 /\ manageable s0 /\ samplable (corridor gray_wall) /\
  sc_lights s0 = [] /\ sc_distant_lights s0 = [] /\ sc_sky s0 = None /\ Forall (@plain NumR (constant (1/2))) (sc_materials s0).
Proof.
  destruct (corridor_plays (E := ext_example) gray_wall eq_refl) as (s0 & HP & HM & _ & H1 & H2 & H3 & H4). exists s0.
  split; [exact HP|]. split; [exact HM|]. split.
  { intros f b p [Q|[Q|[]]]; injection Q as <- <- <-; split; [discriminate|intros d Hd; discriminate|discriminate|intros d Hd; discriminate]. }
  split; [exact H2|]. split; [exact H3|]. split; [exact H4|]. rewrite H1. constructor; [|constructor]. intros g. apply Rltb_is_false. cbn. lra.
Qed.

(** ... and it is false otherwise: two facing mirrors.  When no draw is below count_specular_bounce (always so when it is 0) a ray
    bounces between them forever, at any depth limit. *)
Theorem C44_mirrors_refuted : forall (E : @Ext NumR) (RG : Gen NumR) (O : @Geo NumR) (colour : Spectrum) (c : @Tracer NumR), externals_ok E ->
  (forall g, count_specular_bounce c <= fst (gen g)) ->
  exists s, made (corridor (Mirror colour)) s /\ forall r aux g, r_geometry r = vertical (1/4) (1/4) (1/2) 1 -> r_depth r = 0%nat ->
  forall nest fuel, (4 <= fuel)%nat -> trace_ray nest fuel c s r aux g = Stuck.
Proof.
  intros E RG O colour c HE HN. destruct (mirror_corridor_stuck (HE := HE) colour c) as (s & HP & HS).
  { intros g. apply Rltb_is_false. apply HN. }
  exists s. split; [apply play_then; exact HP|]. intros r aux g Hr Hd nest fuel Hf. eapply HS; [exact Hf|exact Hr| |rewrite Hd; lia].
  unfold inside, target. rewrite Rltb_is_false by lra. rewrite Rabs_pos_eq by lra. repeat split; lra.
Qed.
Print Assumptions C44_mirrors_refuted.
(* every fair generator, when specular bounces are never counted; and the default configuration with draws of one half *)
Example C44_mirrors_hyp : (forall RG, fair RG -> forall g : @G NumR RG, 0 <= fst (gen g)) /\
  (forall g : @G NumR (constant (1/2)), @count_specular_bounce NumR tracer_default <= fst (gen g)).
Proof. split; [intros RG H g; apply H|]. intros g. cbn. lra. Qed.

(** ** C45 - the ray buffer *)
(** With the buffer of 15 rays that rendering uses, no configuration with max_depth at most 14 panics, whatever the scene (made of
    triangles, spheres and distant sources), the ray, the draws and the budgets: neither the buffer, nor any other array, nor an
    unimplemented material method, nor a NaN check. *)
Theorem C45_in_bounds_partial : forall (E : @Ext NumR) (RG : Gen NumR) (O : @Geo NumR) h s0, externals_ok E -> perpendicular_ok ->
  play scene_new h = Ret s0 -> manageable s0 -> samplable h ->
  exists s, made h s /\ forall (c : @Tracer NumR) r aux g nest fuel, (max_depth c <= 14)%nat -> length (h_rays aux) = 15%nat ->
    (2 * length (a_tri (sc_arrays s0)) <= fuel)%nat -> trace_ray nest fuel c s r aux g <> Crash.
Proof.
  intros E RG O h s0 HE HPp HP HM HS. destruct (rebuilt_prepared (HE := HE) h s0 HP HM HPp HS) as (s & HB & HPr).
  exists s. split; [exists s0; split; assumption|]. intros c r aux g nest fuel Hd Ha Hf.
  apply trace_ray_safe; [|apply HPr; exact Hf|rewrite Ha; lia]. intros x. apply Reqb_true. reflexivity.
Qed.
Print Assumptions C45_in_bounds_partial.
(* the hypotheses are those of C44_dark_hyp without the restriction to dark scenes *)
Example C45_default_depth : (max_depth (@tracer_default NumR) <= 14)%nat /\ length (h_rays (@helper_default NumR)) = 15%nat.
Proof. cbn. lia. Qed.

(** From max_depth = 15 on it is false: two facing diffuse plates and a run of the generator (all draws zero) for which the bounces
    stay between them panic, indexing the 16th element of the buffer. *)
Theorem C45_overflow_refuted : forall (E : @Ext NumR) (O : @Geo NumR) (colour : @Spectrum NumR) (rough : R) (c : @Tracer NumR), externals_ok E ->
  (15 <= max_depth c)%nat -> (0 < n_ambient_samples c)%nat -> 0 < @limit_weight NumR c -> 0 <= @radiance NumR colour ->
  exists s, made (corridor (Plastic colour (0 : R) rough)) s /\
  forall r aux g, r_geometry r = vertical (1/4) (1/4) (1/2) 1 -> r_depth r = 0%nat -> 0 <= @r_value NumR r -> length (h_rays aux) = 15%nat ->
  forall nest fuel, (16 <= nest)%nat -> (4 <= fuel)%nat -> trace_ray (R := constant 0) nest fuel c s r aux g = Crash.
Proof.
  intros E O colour rough c HE Hd Hn Hl Hc.
  destruct (diffuse_corridor_crash (HE := HE) (RG := constant 0) (O := O) colour rough Hc c (fun _ => eq_refl) Hl Hn) as (s & HP & HS).
  exists s. split; [apply play_then; exact HP|]. intros r aux g Hr Hr0 Hv Ha nest fuel Hnest Hf.
  apply (HS fuel Hf 15%nat nest r aux g (1/2) 1); [rewrite Ha, Hr0; reflexivity|lia|lia|exact Hv|exact Hr|].
  unfold inside, target. rewrite Rltb_is_false by lra. rewrite Rabs_pos_eq by lra. repeat split; lra.
Qed.
Print Assumptions C45_overflow_refuted.
Example C45_overflow_hyp : exists c : @Tracer NumR, (15 <= max_depth c)%nat /\ (0 < n_ambient_samples c)%nat /\ 0 < @limit_weight NumR c /\
  0 <= @radiance NumR (gray (1/2 : R)).
Proof. exists (@mkTracer NumR 15 1 1 (1/1000) 1). cbn. repeat split; try lia; lra. Qed.

(** ** C46 - how many ambient samples *)
Theorem C46_counts : forall (N : Num) (r : Ray) (max maxdepth : nat) (limit draw : F),
  let '(n, r') := get_n_ambient_samples r max maxdepth limit draw in
  (maxdepth = 0 \/ max = 0 -> n = 0 /\ r' = r)%nat /\
  (maxdepth <> 0 -> max <> 0 -> r_depth r = 0 -> n = max /\ r' = r)%nat /\
  (maxdepth <> 0 -> max <> 0 -> r_depth r <> 0 ->
     (fltb (fdiv (r_value r) limit) draw = false -> n = 1 /\ r' = r) /\
     (fltb (fdiv (r_value r) limit) draw = true -> n = 0 /\ r' = set_value r limit))%nat.
Proof.
  intros N r max maxdepth limit draw. unfold get_n_ambient_samples.
  destruct (Nat.eqb_spec maxdepth 0) as [->|D]; cbn [orb]; [repeat split; intros; try lia; tauto|].
  destruct (Nat.eqb_spec max 0) as [->|M]; cbn [orb]; [repeat split; intros; try lia; tauto|].
  destruct (Nat.eqb_spec (r_depth r) 0) as [Z|Z]; [repeat split; intros; try lia; tauto|].
  destruct (fltb _ draw); repeat split; intros; try lia; try congruence; tauto.
Qed.
Print Assumptions C46_counts.
Example C46_counts_survives : get_n_ambient_samples (N := NumR) (set_depth ray_default 3) 70 5 (1/1000 : R) (1/2 : R) = (1%nat, set_depth ray_default 3).
Proof.
  unfold get_n_ambient_samples. cbn [Nat.eqb orb r_depth set_depth r_value ray_default].
  match goal with |- context [@fltb NumR ?a ?b] => assert (Q : @fltb NumR a b = false) by (apply Rltb_is_false; rsimp; lra); rewrite Q end. reflexivity.
Qed.

(** Below the first surface the ray survives exactly when the draw is at most value/limit, so (draws being uniform) with probability
    min(1, value/limit).  An unbiased estimator divides the survivor's weight by that probability: it would be [limit].  The code
    leaves the survivor's weight alone and writes [limit] in the ray that is killed. *)
Theorem C46_not_compensated_refuted : forall (r : @Ray NumR) (max maxdepth : nat) (limit draw : R), (0 < maxdepth)%nat -> (0 < max)%nat -> (0 < r_depth r)%nat ->
  0 < @r_value NumR r < limit -> 0 <= draw < 1 ->
  let p := r_value r / limit in
  let '(n, r') := get_n_ambient_samples r max maxdepth limit draw in
  0 < p < 1 /\ (n = 1%nat <-> draw <= p) /\ (n = 1%nat -> r_value r' = r_value r /\ r_value r' <> r_value r / p) /\ (n <> 1%nat -> r_value r' = r_value r / p).
Proof.
  intros r max maxdepth limit draw Hd Hm Hr Hv Hq p.
  assert (Hp : 0 < p < 1).
  { unfold p. split; [apply Rmult_lt_0_compat; [lra|apply Rinv_0_lt_compat; lra]|]. apply (Rmult_lt_reg_r limit); [lra|]. unfold Rdiv. rewrite Rmult_assoc, Rinv_l by lra. lra. }
  assert (Hc : r_value r / p = limit) by (unfold p; field; lra).
  unfold get_n_ambient_samples. destruct (Nat.eqb_spec maxdepth 0); [lia|]. destruct (Nat.eqb_spec max 0); [lia|]. cbn [orb].
  destruct (Nat.eqb_spec (r_depth r) 0); [lia|]. change (@fltb NumR (fdiv (r_value r) limit) draw) with (Rltb p draw). rewrite Hc.
  destruct (Rltb_spec p draw) as [L|L]; (split; [exact Hp|]).
  - split; [split; [discriminate|lra]|]. split; [discriminate|reflexivity].
  - split; [split; [lra|reflexivity]|]. split; [intros _; split; [reflexivity|]|intros Q; contradiction Q; reflexivity]. intros Q. rewrite Q in Hv. lra.
Qed.
Print Assumptions C46_not_compensated_refuted.
Example C46_not_compensated_hyp : 0 < @r_value NumR (set_value (set_depth ray_default 2) (1/2000 : R)) < 1/1000.
Proof. cbn. lra. Qed.

(** ** C47 - diffuse surfaces and the sky *)
(** The radiance of the sky never reaches a surface: in a scene without mirrors, glass or dielectrics, replacing the sky (and its
    colour) by any other changes nothing in the outcome of any ray that hits something. *)
Theorem C47_sky_ignored_refuted : forall (E : @Ext NumR) (RG : Gen NumR) (O : @Geo NumR) (s : @Scene NumR) (sky : VecR -> R) colour (c : @Tracer NumR),
  sc_sky s <> None -> Forall (fun m => specular_only m = false) (sc_materials s) ->
  let s' := set_sky_colour (set_sky s (Some sky)) colour in
  forall nest fuel r aux g i r1 nodes, cast_ray fuel s r (h_nodes aux) = Ret (Some i, r1, nodes) ->
  trace_ray nest fuel c s' r aux g = trace_ray nest fuel c s r aux g.
Proof.
  intros E RG O s sky colour c HS HM s' nest fuel r aux g i r1 nodes HC.
  assert (HD : @fltb NumR f0 (fdiv (fdiv f1 f2) fpi) = true).
  { change (Rltb (0/1) (1 / 1 / (2 / 1) / PI) = true). apply Rltb_is_true. pose proof PI_RGT_0 as HPI.
    assert (0 < / PI) by (apply Rinv_0_lt_compat; exact HPI). unfold Rdiv. nra. }
  destruct (sky_unseen sky colour HD fuel c s HS HM nest) as [_ H]. exact (H r aux g i r1 nodes HC).
Qed.
Print Assumptions C47_sky_ignored_refuted.

(** Worse, estimating it need not return.  One diffuse triangle under any sky, any camera ray that hits it, any draws of [0,1): all the
    samples escape to the sky, all are discarded, and the loop goes on forever. *)
Theorem C47_never_returns_refuted : forall (E : @Ext NumR) (RG : Gen NumR) (O : @Geo NumR) (t : TriR) (m : @Material NumR) colour (rough : R) (sky : VecR -> R) (c : @Tracer NumR),
  externals_ok E -> fair RG -> (m = Plastic colour (0 : R) rough \/ m = Metal colour (0 : R) rough) -> (0 < max_depth c)%nat -> (0 < n_ambient_samples c)%nat ->
  exists s, made [AddMaterial m; AddObject 0 0 (PTriangle t); SetSky (Some sky)] s /\
  forall r aux g d, r_depth r = 0%nat -> unit (direction (r_geometry r)) -> (0 < length (h_rays aux))%nat -> crosses (r_geometry r) t d -> in_sight (r_geometry r) d ->
  forall nest fuel, (2 <= fuel)%nat -> trace_ray nest fuel c s r aux g = Stuck.
Proof.
  intros E RG O t m colour rough sky c HE HF HM Hd Hn.
  assert (HSc : TracerSafe.scatters m) by (destruct HM as [-> | ->]; [left|right]; do 3 eexists; reflexivity).
  destruct (lone_stuck (HE := HE) t m sky HSc colour rough HM HF c Hd Hn) as (s & HP & HS).
  exists s. split; [apply (play_then (lone t m sky)); exact HP|]. intros r aux g d H1 H2 H3 H4 H5 nest fuel Hf. eapply HS; eassumption.
Qed.
Print Assumptions C47_never_returns_refuted.
(* a ray from one above the middle of the unit triangle, straight down *)
Example C47_never_returns_hyp : fair (constant (1/2)) /\ unit (direction (down (1/4) (1/4) 1)) /\ crosses (down (1/4) (1/4) 1) unit_tri 1 /\ in_sight (down (1/4) (1/4) 1) 1.
Proof.
  split; [apply fair_constant; lra|]. split; [unfold unit, down; vunf; ring|].
  destruct C12_hit_complete_hyp as [H1 H2]. split; [split; [exists (1/4), (1/4); repeat split; try lra; exact H1|split; [exact H2|lra]]|].
  unfold in_sight, reach2, dist2. unfold down, along. vunf. pose proof big_float_max. split; lra.
Qed.
(* ... and the same scene meets the hypotheses of C47_sky_ignored_refuted *)
Example C47_sky_ignored_hyp : forall (sky : VecR -> R), exists s : @Scene NumR,
  play (E := ext_example) scene_new (lone unit_tri gray_wall sky ++ [Rebuild]) = Ret s /\ sc_sky s <> None /\ Forall (fun m => specular_only m = false) (sc_materials s) /\
  forall fuel r, (2 <= fuel)%nat -> r_geometry r = down (1/4) (1/4) 1 -> exists i r1 nodes, cast_ray (E := ext_example) fuel s r [] = Ret (Some i, r1, nodes).
Proof.
  intros sky. assert (HM : TracerSafe.scatters gray_wall) by (left; do 3 eexists; reflexivity).
  destruct (lone_ready (E := ext_example) (HE := ext_example_ok) unit_tri gray_wall sky HM) as (s & HP & E1 & _ & _ & E4 & A1 & _ & _ & _ & HQ).
  exists s. split; [exact HP|]. split; [rewrite E4; discriminate|]. split; [rewrite E1; repeat constructor|].
  intros fuel r Hf HR. destruct (HQ fuel Hf r []) as [(j & t & d & x & nd & H & _)|(nd & _ & H)]; [eauto|exfalso].
  destruct C47_never_returns_hyp as (_ & _ & H1 & H2). apply (H unit_tri 1); [rewrite A1; left; reflexivity|]. rewrite HR. split; assumption.
Qed.
