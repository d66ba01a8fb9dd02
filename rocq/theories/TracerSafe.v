(** * TracerSafe: when the tracer cannot panic and when it returns *)
From Verif Require Import Num Geometry Triangle Sphere Colour Ray Bvh BvhProofs Material Scene Samplers Primitives RayTracer TracerProofs.

Definition safe {A} (x : outcome A) : Prop := x <> Crash.
Lemma safe_ret {A} (a : A) : safe (Ret a).
Proof. discriminate. Qed.
Lemma safe_stuck {A} : safe (@Stuck A).
Proof. discriminate. Qed.
Lemma safe_bind {A B} (x : outcome A) (f : A -> outcome B) : safe x -> (forall a, x = Ret a -> safe (f a)) -> safe (obind x f).
Proof. intros Hx Hf. destruct x; cbn; [apply Hf; reflexivity|contradiction|discriminate]. Qed.
Lemma ret_opt_some {A} (o : option A) : o <> None -> exists a, o = Some a.
Proof. destruct o; [eauto|contradiction]. Qed.

Section Safe.
  Context {N : Num} {T : Trig N} {E : Ext} {R : Gen N} {O : Geo}.

  Definition valid_light (s : Scene) (l : Object) : Prop :=
    (ob_front l < length (sc_materials s))%nat /\ (ob_back l < length (sc_materials s))%nat /\
    (forall c, ob_primitive l <> PCylinder c) /\
    (forall d, ob_primitive l = PSource d -> get_perpendicular (vnormalized (ds_direction d)) <> None).
  (** the scene's queries answer with triangles of the scene, and every index stored in it is valid *)
  Definition prepared (fuel : nat) (s : Scene) : Prop :=
    (forall r aux, exists o r' aux', cast_ray fuel s r aux = Ret (o, r', aux') /\
       match o with Some i => (Z.to_nat i < length (a_tri (sc_arrays s)))%nat | None => True end) /\
    (forall ray d2 aux, exists b aux', scene_unobstructed_distance fuel s ray d2 aux = Ret (b, aux')) /\
    aligned (sc_arrays s) /\
    Forall (fun i => (i < length (sc_materials s))%nat) (a_front (sc_arrays s)) /\
    Forall (fun i => (i < length (sc_materials s))%nat) (a_back (sc_arrays s)) /\
    Forall (valid_light s) (sc_lights s) /\ Forall (valid_light s) (sc_distant_lights s).
  Definition no_nan : Prop := forall x : F, feqb x x = true.

  Definition scatters (m : Material) : Prop := (exists c sp ro, m = Plastic c sp ro) \/ (exists c sp ro, m = Metal c sp ro).
  Lemma not_special m : emits_light m = false -> specular_only m = false -> scatters m.
  Proof. destruct m; cbn; try discriminate; intros; [left|right]; eauto. Qed.

  Lemma ward_draw_safe (NN : no_nan) normal e1 e2 sp al be r : forall fuel g, safe (ward_draw fuel normal e1 e2 sp al be r g).
  Proof.
    induction fuel as [|fuel IH]; intros g; cbn [ward_draw]; [discriminate|].
    destruct (gen g) as [x1 g1], (gen g1) as [x2 g2]. cbn [ward_loop]. cbv zeta.
    destruct (orb _ _); [|apply IH]. destruct (evaluate_ward _ _ _ _ _ _ _ _) as [a b]. rewrite NN. cbn. discriminate.
  Qed.
  Lemma sample_bsdf_safe (NN : no_nan) fuel m normal e1 e2 p r g : scatters m -> safe (sample_bsdf_draw fuel m normal e1 e2 p r g).
  Proof.
    assert (W : forall sp al be, safe (sample_ward_draw fuel normal e1 e2 p sp al be r g)).
    { intros sp al be. unfold sample_ward_draw. destruct (gen g) as [q g1]. destruct (fltb q sp) eqn:Q; [apply ward_draw_safe; exact NN|].
      destruct (gen g1) as [x1 g2], (gen g2) as [x2 g3]. unfold sample_ward. cbn [wd_prob wd_disc]. rewrite Q. discriminate. }
    intros [(c & sp & ro & ->)|(c & sp & ro & ->)]; cbn [sample_bsdf_draw]; (apply safe_bind; [apply W|]);
      intros [[[[a b] w] r'] g'] _; discriminate.
  Qed.
  Lemma eval_bsdf_returns m normal e1 e2 r v : scatters m -> exists x, eval_bsdf is_parallel is_same_direction m normal e1 e2 r v = Ret x.
  Proof.
    intros [(c & sp & ro & ->)|(c & sp & ro & ->)]; cbn [eval_bsdf]; destruct (evaluate_ward _ _ _ _ _ _ _ _) as [a b]; eauto.
  Qed.

  Lemma sample_direction_returns s l g p : valid_light s l -> exists d g', sample_direction (ob_primitive l) g p = Ret (d, g').
  Proof.
    intros (_ & _ & HC & HP). unfold sample_direction. destruct (ob_primitive l) as [sp|t|cy|src] eqn:Ep.
    - destruct (sample_sphere_surface sp g). cbn [obind]. eauto.
    - destruct (sample_triangle_surface t g). cbn [obind]. eauto.
    - exfalso. eapply HC. reflexivity.
    - unfold sample_source_disc. cbv zeta. destruct (gen g) as [x1 g1], (gen g1) as [x2 g2].
      destruct (get_perpendicular _) as [e|] eqn:GP; [cbn [obind]; eauto|]. exfalso. eapply HP; [reflexivity|exact GP].
  Qed.
  Lemma intersect_light_returns fuel s l ray nodes : prepared fuel s -> valid_light s l ->
    exists o nodes', intersect_light fuel s l ray nodes = Ret (o, nodes').
  Proof.
    intros (_ & HS & _) (Hf & Hb & HC & _). unfold intersect_light. destruct (prim_intersect _ _) as [info|]; [|eauto]. cbv zeta.
    match goal with |- context [scene_unobstructed_distance _ _ ?a ?b ?c] => destruct (HS a b c) as (cl & nd & ->) end. cbn [obind].
    destruct (negb cl); [eauto|].
    assert (SP : exists x, solid_angle_pdf (ob_primitive l) info ray = Ret x).
    { destruct (ob_primitive l) as [sp|t|cy|src]; cbn [solid_angle_pdf]; eauto. exfalso. eapply HC. reflexivity. }
    destruct SP as [pdf SP].
    apply nth_error_Some in Hf, Hb. destruct (ret_opt_some _ Hf) as [mf Ef], (ret_opt_some _ Hb) as [mb Eb].
    destruct (i_side info); [rewrite Ef|rewrite Eb|eauto]; cbn [ret_opt obind]; rewrite SP; cbn [obind]; eauto.
  Qed.

  Lemma light_loop_safe fuel s m r p normal e1 e2 n l : prepared fuel s -> valid_light s l -> scatters m ->
    forall loops i acc nodes g, safe (light_loop loops fuel s m r p normal e1 e2 n l i acc nodes g).
  Proof.
    intros HP HL HM. induction loops as [|loops IH]; intros i acc nodes g; cbn [light_loop]; destruct (Nat.ltb i n); try discriminate.
    destruct (sample_direction_returns s l g p HL) as (d & g' & ->). cbn [obind]. cbv zeta.
    destruct (intersect_light_returns fuel s l (mkRay3D p d) nodes HP HL) as (o & nd & ->). cbn [obind].
    destruct o as [[lc pdf]|]; [|apply IH]. destruct (fltb _ _); [apply IH|].
    match goal with |- context [eval_bsdf _ _ _ ?a ?b ?c ?d ?e] => destruct (eval_bsdf_returns m a b c d e HM) as (x & ->) end.
    cbn [obind]. apply IH.
  Qed.
  Lemma lights_loop_safe fuel s m r p normal e1 e2 n : prepared fuel s -> scatters m ->
    forall ls acc nodes g, Forall (valid_light s) ls -> safe (lights_loop fuel s m r p normal e1 e2 n ls acc nodes g).
  Proof.
    intros HP HM. induction ls as [|l ls IH]; intros acc nodes g HF; cbn [lights_loop]; [discriminate|]. inversion_clear HF as [|? ? HL HR].
    apply safe_bind; [apply light_loop_safe; assumption|]. intros [[a b] c] _. apply IH. exact HR.
  Qed.
  Lemma local_safe fuel s m r n nodes g : prepared fuel s -> scatters m -> safe (get_local_illumination fuel s m r n nodes g).
  Proof.
    intros HP HM. pose proof HP as (_ & _ & _ & _ & _ & L1 & L2). unfold get_local_illumination, sample_light_array.
    destruct (get_triad r) as [[[p nm] e1] e2]. apply safe_bind; [apply lights_loop_safe; assumption|]. intros [[a b] c] _.
    apply safe_bind; [apply lights_loop_safe; assumption|]. intros [[a' b'] c'] _. discriminate.
  Qed.

  (** a trace function that never panics on rays at least as deep as d *)
  Definition safe_from (d k : nat) (trace : Trace) : Prop := forall r aux g,
    (d <= r_depth r)%nat -> length (h_rays aux) = k -> safe (trace r aux g).

  (** sampling the material never panics *)
  Definition samples_safely (m : Material) : Prop := forall fuel normal e1 e2 p r g, safe (sample_bsdf_draw fuel m normal e1 e2 p r g).
  Lemma ambient_loop_safe trace k m p normal e1 e2 depth n fuel : frames trace -> safe_from (S depth) k trace -> samples_safely m ->
    forall loops count global r aux g,
    r_depth r = depth -> length (h_rays aux) = k -> (exists r0, nth_error (h_rays aux) depth = Some r0 /\ r_depth r0 = depth) ->
    safe (ambient_loop trace loops fuel m p normal e1 e2 depth n count global r aux g).
  Proof.
    intros HF HS HM. induction loops as [|loops IH]; intros count global r aux g Hr Hk (r0 & H0 & D0); cbn [ambient_loop];
      destruct (Nat.ltb count n); try discriminate.
    apply safe_bind; [apply HM|]. intros [[[bv pdf] r1] g1] SB.
    pose proof (sample_bsdf_keeps _ _ _ _ _ _ _ _ _ _ _ _ SB) as (K & _). cbv zeta.
    set (r2 := set_value _ _). assert (D2 : r_depth r2 = S depth) by (cbn; congruence).
    apply safe_bind; [apply HS; [lia|exact Hk]|]. intros [[[[li lp] r3] aux3] g3] TR.
    pose proof (HF _ _ _ _ _ _ _ _ TR) as SBel. rewrite D2 in SBel.
    assert (H3 : nth_error (h_rays aux3) depth = Some r0) by (destruct SBel as [_ ->]; [exact H0|lia]).
    assert (Hk3 : length (h_rays aux3) = k) by (destruct SBel as [-> _]; exact Hk).
    rewrite H3. cbn [ret_opt obind]. destruct (fltb f0 lp); apply IH; try assumption; exists r0; split; assumption.
  Qed.
  Lemma global_safe trace k fuel n m r aux g : frames trace -> safe_from (S (r_depth r)) k trace -> samples_safely m ->
    length (h_rays aux) = k -> (r_depth r < k)%nat -> safe (get_global_illumination trace fuel n m r aux g).
  Proof.
    intros HF HS HM Hk Hd. unfold get_global_illumination. destruct (Nat.eqb n 0); [discriminate|].
    destruct (get_triad r) as [[[p nm] e1] e2]. apply safe_bind.
    { unfold store_ray. destruct (Nat.ltb_spec (r_depth r) (length (h_rays aux))); [discriminate|lia]. }
    intros aux1 SR. destruct (store_ray_spec _ _ _ _ SR) as (_ & S1 & [L2 _]).
    apply safe_bind; [|intros [[[gl r2] aux2] g2] _; discriminate].
    eapply ambient_loop_safe; try eassumption; [reflexivity|congruence|exists r; split; [exact S1|reflexivity]].
  Qed.
  Lemma specular_path_safe trace c p li r aux g d k : safe_from d k trace -> path_depth d p -> length (h_rays aux) = k ->
    safe (specular_path trace c p li r aux g).
  Proof.
    intros HS HP Hk. destruct p as [[nr bv]|]; cbn [specular_path]; [|discriminate]. cbn [path_depth] in HP.
    destruct (gen g) as [q g1]. apply safe_bind; [|intros [[[[l pf] r3] a3] g3] _; discriminate].
    apply HS; [|exact Hk]. destruct (fltb _ _); cbn; lia.
  Qed.

  Lemma hit_material_returns fuel s r i : prepared fuel s -> (i < length (a_tri (sc_arrays s)))%nat -> exists o, hit_material s r i = Ret o.
  Proof.
    intros (_ & _ & (A1 & A2 & A3) & Hf & Hb & _) Hi. unfold hit_material. cbv zeta.
    assert (K : forall l, length l = length (a_tri (sc_arrays s)) -> Forall (fun j => (j < length (sc_materials s))%nat) l ->
            exists o, (run i0 <- ret_opt (nth_error l i) ;; run m <- ret_opt (nth_error (sc_materials s) i0) ;; Ret (Some m)) = Ret o).
    { intros l Hl HF. assert (Hn : nth_error l i <> None) by (apply nth_error_Some; lia). destruct (ret_opt_some _ Hn) as [j Ej].
      rewrite Ej. cbn [ret_opt obind]. rewrite Forall_forall in HF. pose proof (HF _ (nth_error_In _ _ Ej)) as Hj.
      apply nth_error_Some in Hj. destruct (ret_opt_some _ Hj) as [m Em]. rewrite Em. cbn. eauto. }
    destruct (i_side _); [apply K; auto|apply K; auto|eauto].
  Qed.

  Lemma hit_material_in s r i m : hit_material s r i = Ret (Some m) -> In m (sc_materials s).
  Proof.
    intros HM. unfold hit_material in HM. cbv zeta in HM. destruct (i_side _); try discriminate.
    all: match type of HM with context [nth_error ?l ?i] => destruct (nth_error l i) as [j|] eqn:E1 end; cbn [ret_opt obind] in HM; try discriminate.
    all: destruct (nth_error (sc_materials s) j) as [m'|] eqn:E2; cbn [ret_opt obind] in HM; try discriminate; injection HM as <-; eapply nth_error_In; exact E2.
  Qed.
  (** in any arithmetic: the tracer panics only if sampling a scattering material of the scene does *)
  Theorem trace_ray_safe_when fuel c s : prepared fuel s -> (forall m, In m (sc_materials s) -> scatters m -> samples_safely m) ->
    forall nest r aux g, (max_depth c < length (h_rays aux))%nat -> safe (trace_ray nest fuel c s r aux g).
  Proof.
    intros HP SS. induction nest as [|nest IH]; intros r aux g Hk; cbn [trace_ray]; [discriminate|].
    pose proof HP as (HC & _ & (A1 & A2 & A3) & _). destruct (HC r (h_nodes aux)) as (o & r1 & nodes & CR & Hi). rewrite CR. cbn [obind]. cbv zeta.
    destruct (cast_keeps _ _ _ _ _ _ _ CR) as (_ & _ & KD & _).
    destruct o as [i|].
    2:{ destruct (see_sky s r1) as [[l pf] r2]. discriminate. }
    destruct (hit_material_returns fuel s r1 _ HP Hi) as (o & HMt). rewrite HMt. cbn [obind]. destruct o as [m|]; [|discriminate].
    pose proof (hit_material_in _ _ _ _ HMt) as Hin.
    destruct (get_triad r1) as [[[p nm] e1] e2].
    destruct (emits_light m) eqn:EL.
    { pose proof Hi as Hi'. apply nth_error_Some in Hi'. destruct (ret_opt_some _ Hi') as [t Et]. rewrite Et. discriminate. }
    destruct (Nat.ltb_spec (max_depth c) (r_depth r1)) as [L|L]; [discriminate|].
    assert (Hn : nth_error (a_norm (sc_arrays s)) (Z.to_nat i) <> None) by (apply nth_error_Some; rewrite A3; exact Hi).
    destruct (ret_opt_some _ Hn) as [ns En]. rewrite En. cbn [ret_opt obind].
    set (r2 := set_shading r1 _). assert (D2 : r_depth r2 = r_depth r) by (cbn; exact KD).
    assert (SF : safe_from 0 (length (h_rays aux)) (trace_ray nest fuel c s)).
    { intros r' aux' g' _ Hl. apply IH. rewrite Hl. exact Hk. }
    assert (SF' : forall d, safe_from d (length (h_rays aux)) (trace_ray nest fuel c s)).
    { intros d r' aux' g' _. apply SF. lia. }
    destruct (specular_only m) eqn:SO.
    - unfold specular_bounce. apply safe_bind.
      { destruct m; cbn in SO; try discriminate; discriminate. }
      intros [p1 p2] PP. destruct (possible_paths_depth _ _ _ _ _ _ PP) as [P1 P2].
      apply safe_bind; [eapply specular_path_safe; [apply SF'|exact P1|reflexivity]|].
      intros [[[l3 r3] a3] g3] S1. destruct (specular_path_frame _ _ _ _ _ _ _ _ _ _ _ _ (trace_ray_frame fuel c s nest) P1 S1) as [[L1 _] _].
      apply safe_bind; [eapply specular_path_safe; [apply SF'|exact P2|exact L1]|].
      intros [[[l4 r4] a4] g4] _. discriminate.
    - unfold scatter. destruct (draw_n_ambient_samples c r2 g) as [[na r3] g3] eqn:DN.
      destruct (draw_n_keeps _ _ _ _ _ _ DN) as (_ & _ & KD3 & _). pose proof (not_special m EL SO) as HM.
      apply safe_bind; [apply local_safe; assumption|]. intros [[lo nd] g4] _.
      apply safe_bind; [|intros [[[gl r5] a5] g5] _; discriminate].
      eapply global_safe; [apply trace_ray_frame|apply SF'|exact (SS m Hin HM)|reflexivity|].
      rewrite KD3, D2. cbn [h_rays]. lia.
  Qed.
  Theorem trace_ray_safe (NN : no_nan) fuel c s : prepared fuel s ->
    forall nest r aux g, (max_depth c < length (h_rays aux))%nat -> safe (trace_ray nest fuel c s r aux g).
  Proof. intros HP. apply trace_ray_safe_when; [exact HP|]. intros m _ HM fuel' normal e1 e2 p r g. apply sample_bsdf_safe; assumption. Qed.

  (** ** termination when nothing is rejected *)
  (** materials whose sampling never takes the specular branch of the Ward model, whatever is drawn *)
  Definition plain (m : Material) : Prop :=
    match m with Plastic _ sp _ | Metal _ sp _ => forall g, fltb (fst (gen g)) sp = false | Light _ => False | _ => True end.
  Definition dark (s : Scene) : Prop :=
    sc_lights s = [] /\ sc_distant_lights s = [] /\ sc_sky s = None /\ Forall plain (sc_materials s).

  Definition returns {A} (x : outcome A) : Prop := exists a, x = Ret a.
  Lemma returns_bind {A B} (x : outcome A) (f : A -> outcome B) : returns x -> (forall a, x = Ret a -> returns (f a)) -> returns (obind x f).
  Proof. intros [a ->] Hf. cbn. apply Hf. reflexivity. Qed.
  Lemma returns_ret {A} (a : A) : returns (Ret a).
  Proof. exists a. reflexivity. Qed.

  Lemma sample_bsdf_returns fuel m normal e1 e2 p r g : scatters m -> plain m -> returns (sample_bsdf_draw fuel m normal e1 e2 p r g).
  Proof.
    assert (W : forall sp al be, fltb (fst (gen g)) sp = false -> returns (sample_ward_draw fuel normal e1 e2 p sp al be r g)).
    { intros sp al be Q. unfold sample_ward_draw. destruct (gen g) as [q g1]. cbn [fst] in Q. rewrite Q.
      destruct (gen g1) as [x1 g2], (gen g2) as [x2 g3]. unfold sample_ward. cbn [wd_prob wd_disc]. rewrite Q. cbn. eexists. reflexivity. }
    intros [(c & sp & ro & ->)|(c & sp & ro & ->)] HPl; cbn [plain] in HPl; cbn [sample_bsdf_draw];
      (apply returns_bind; [apply W, HPl|]); intros [[[[a b] w] r'] g'] _; apply returns_ret.
  Qed.

  (** what a dark scene's trace does: it returns, and never reports a light density *)
  Definition good (d k : nat) (trace : Trace) : Prop := forall r aux g, (d <= r_depth r)%nat -> length (h_rays aux) = k ->
    exists li r' aux' g', trace r aux g = Ret (li, f0, r', aux', g').

  Lemma ambient_loop_returns (Z0 : fltb f0 f0 = false) trace k m p normal e1 e2 depth n fuel :
    frames trace -> good (S depth) k trace -> scatters m -> plain m ->
    forall loops count global r aux g, (n <= count + loops)%nat ->
    r_depth r = depth -> length (h_rays aux) = k -> (exists r0, nth_error (h_rays aux) depth = Some r0 /\ r_depth r0 = depth) ->
    returns (ambient_loop trace loops fuel m p normal e1 e2 depth n count global r aux g).
  Proof.
    intros HF HS HM HPl. induction loops as [|loops IH]; intros count global r aux g Hl Hr Hk (r0 & H0 & D0); cbn [ambient_loop];
      destruct (Nat.ltb_spec count n) as [L|L]; try apply returns_ret; [lia|].
    apply returns_bind; [apply sample_bsdf_returns; assumption|]. intros [[[bv pdf] r1] g1] SB.
    pose proof (sample_bsdf_keeps _ _ _ _ _ _ _ _ _ _ _ _ SB) as (K & _). cbv zeta.
    set (r2 := set_value _ _). assert (D2 : r_depth r2 = S depth) by (cbn; congruence).
    destruct (HS r2 aux g1 ltac:(lia) Hk) as (li & r3 & aux3 & g3 & TR). rewrite TR. cbn [obind].
    pose proof (HF _ _ _ _ _ _ _ _ TR) as SBel. rewrite D2 in SBel.
    assert (H3 : nth_error (h_rays aux3) depth = Some r0) by (destruct SBel as [_ ->]; [exact H0|lia]).
    assert (Hk3 : length (h_rays aux3) = k) by (destruct SBel as [-> _]; exact Hk).
    rewrite H3. cbn [ret_opt obind]. rewrite Z0. apply IH; try assumption; [lia|]. exists r0. split; assumption.
  Qed.

  Theorem trace_ray_returns (Z0 : fltb f0 f0 = false) fuel c s : prepared fuel s -> dark s -> counted c ->
    (n_ambient_samples c <= fuel)%nat -> (0 < fuel)%nat ->
    forall nest r aux g, (max_depth c < length (h_rays aux))%nat -> (max_depth c + 2 <= nest + r_depth r)%nat -> (0 < nest)%nat ->
    exists li r' aux' g', trace_ray nest fuel c s r aux g = Ret (li, f0, r', aux', g').
  Proof.
    intros HP (DL & DD & DS & DM) HC Hfa Hf. induction nest as [|nest IH]; intros r aux g Hk Hn H0; [lia|]. cbn [trace_ray].
    pose proof HP as (HQ & _ & (A1 & A2 & A3) & _). destruct (HQ r (h_nodes aux)) as (o & r1 & nodes & CR & Hi). rewrite CR. cbn [obind]. cbv zeta.
    destruct (cast_keeps _ _ _ _ _ _ _ CR) as (_ & _ & KD & _).
    destruct o as [i|].
    2:{ unfold see_sky. rewrite DS. eauto. }
    destruct (hit_material_returns fuel s r1 _ HP Hi) as (o & HM). rewrite HM. cbn [obind]. destruct o as [m|]; [|eauto].
    assert (Pm : plain m) by (rewrite Forall_forall in DM; apply DM; eapply hit_material_in; exact HM).
    destruct (get_triad r1) as [[[p nm] e1] e2].
    destruct (emits_light m) eqn:EL; [destruct m; cbn in EL, Pm; [discriminate|discriminate|contradiction|discriminate..]|].
    destruct (Nat.ltb_spec (max_depth c) (r_depth r1)) as [L|L]; [eauto|].
    assert (Hnn : nth_error (a_norm (sc_arrays s)) (Z.to_nat i) <> None) by (apply nth_error_Some; rewrite A3; exact Hi).
    destruct (ret_opt_some _ Hnn) as [ns En]. rewrite En. cbn [ret_opt obind].
    set (r2 := set_shading r1 _). assert (D2 : r_depth r2 = r_depth r) by (cbn; exact KD).
    assert (GD : good (S (r_depth r)) (length (h_rays aux)) (trace_ray nest fuel c s)).
    { intros r' aux' g' Hd Hl. apply IH; lia. }
    pose proof (trace_ray_frame fuel c s nest) as FR.
    destruct (specular_only m) eqn:SO.
    - unfold specular_bounce. destruct (get_possible_paths m nm p r2) as [[p1 p2]| |] eqn:PP; cbn [obind].
      2,3: destruct m; cbn in SO, PP; discriminate.
      destruct (possible_paths_depth _ _ _ _ _ _ PP) as [P1 P2]. rewrite D2 in P1, P2.
      assert (SPR : forall q li r' aux' g', path_depth (r_depth r) q -> length (h_rays aux') = length (h_rays aux) ->
              exists l3 r3 a3 g3, specular_path (trace_ray nest fuel c s) c q li r' aux' g' = Ret (l3, r3, a3, g3) /\ length (h_rays a3) = length (h_rays aux)).
      { intros q li r' aux' g' HPq Hl. destruct q as [[nr bv]|]; cbn [specular_path]; [|repeat eexists; exact Hl]. cbn [path_depth] in HPq.
        pose proof (HC g') as Hcg. destruct (gen g') as [x g1]. cbn [fst] in Hcg. rewrite Hcg.
        destruct (GD (set_depth nr (S (r_depth nr))) aux' g1) as (l3 & r3 & a3 & g3 & TR); [cbn; lia|exact Hl|].
        rewrite TR. cbn [obind]. repeat eexists. destruct (FR _ _ _ _ _ _ _ _ TR) as [LL _]. congruence. }
      destruct (SPR p1 BLACK r2 (mkHelper (h_rays aux) nodes) g P1 eq_refl) as (l3 & r3 & a3 & g3 & -> & L3). cbn [obind].
      destruct (SPR p2 l3 r3 a3 g3 P2 L3) as (l4 & r4 & a4 & g4 & -> & L4). cbn [obind]. eauto 10.
    - unfold scatter. destruct (draw_n_ambient_samples c r2 g) as [[na r3] g3] eqn:DN.
      destruct (draw_n_keeps _ _ _ _ _ _ DN) as (_ & _ & KD3 & _). pose proof (not_special m EL SO) as HMs.
      assert (Hna : (na <= fuel)%nat).
      { unfold draw_n_ambient_samples, get_n_ambient_samples in DN.
        destruct (Nat.eqb (max_depth c) 0); cbn [orb] in DN; [injection DN as <- _ _; lia|].
        destruct (Nat.eqb (n_ambient_samples c) 0); cbn [orb] in DN; [injection DN as <- _ _; lia|].
        destruct (Nat.eqb (r_depth r2) 0); cbn [orb] in DN; [injection DN as <- _ _; lia|].
        destruct (gen g) as [q g1]. destruct (fltb _ q); injection DN as <- _ _; lia. }
      unfold get_local_illumination, sample_light_array. rewrite DL, DD. destruct (get_triad r3) as [[[p3 nm3] e13] e23] eqn:GT.
      cbn [lights_loop obind].
      match goal with |- context [get_global_illumination ?t ?f ?n ?m ?r ?a ?g] => assert (GR : returns (get_global_illumination t f n m r a g)) end.
      { unfold get_global_illumination. destruct (Nat.eqb_spec na 0) as [Z|Z]; [apply returns_ret|]. rewrite GT. 
        unfold store_ray. cbn [h_rays]. destruct (Nat.ltb_spec (r_depth r3) (length (h_rays aux))) as [L3|L3]; [|lia]. cbn [obind].
        apply returns_bind; [|intros [[[gl r5] a5] g5] _; apply returns_ret].
        eapply ambient_loop_returns with (k := length (h_rays aux)); try assumption; cbn [h_rays].
        - rewrite KD3, D2. exact GD.
        - reflexivity.
        - apply set_nth_length.
        - exists r3. split; [apply set_nth_same; exact L3|reflexivity]. }
      destruct GR as [[[[gl r5] a5] g5] ->]. cbn [obind]. eauto.
  Qed.
End Safe.
