(** * Property C101: material handles are only names

    Two ways of telling the same scene - the same objects, each with the same materials on its sides, the same skies, built at the
    same moments, but with the materials numbered differently, listed in another order, listed twice, or listed without being used -
    give the same pictures and the same daylight coefficients, random number for random number. *)
From Coq Require Import List Arith Lia ZArith.
From Verif Require Import Num NumR NumSF Geometry Triangle Sphere Colour Ray Bvh BvhProofs Material Scene SpecScene Samplers Primitives RayTracer
  Image ColourMatrix Render Daylight SceneProofs.
Import ListNotations.

Section Handles.
  Context {N : Num} {T : Trig N} {E : Ext} {RG : Gen N} {GO : Geo}.

  (** ** what is asked of the two tellings; [ms], [ms'] are the materials told so far *)
  Inductive retold : list Material -> list Material -> list op -> list op -> Prop :=
  | rt_end ms ms' : retold ms ms' [] []
  | rt_left ms ms' m h h' : retold (ms ++ [m]) ms' h h' -> retold ms ms' (AddMaterial m :: h) h'
  | rt_right ms ms' m h h' : retold ms (ms' ++ [m]) h h' -> retold ms ms' h (AddMaterial m :: h')
  | rt_object ms ms' f b f' b' mf mb p h h' :
      nth_error ms f = Some mf -> nth_error ms' f' = Some mf -> nth_error ms b = Some mb -> nth_error ms' b' = Some mb ->
      retold ms ms' h h' -> retold ms ms' (AddObject f b p :: h) (AddObject f' b' p :: h')
  | rt_build ms ms' h h' : retold ms ms' h h' -> retold ms ms' (Build :: h) (Build :: h')
  | rt_rebuild ms ms' h h' : retold ms ms' h h' -> retold ms ms' (Rebuild :: h) (Rebuild :: h')
  | rt_sky ms ms' sky h h' : retold ms ms' h h' -> retold ms ms' (SetSky sky :: h) (SetSky sky :: h')
  | rt_sky_colour ms ms' c h h' : retold ms ms' h h' -> retold ms ms' (SetSkyColour c :: h) (SetSkyColour c :: h').

  (** ** the relation kept between the two scenes *)
  Definition means (ms ms' : list Material) (f f' : nat) : Prop := exists m, nth_error ms f = Some m /\ nth_error ms' f' = Some m.
  Definition same_object (ms ms' : list Material) (o o' : Object) : Prop :=
    ob_primitive o = ob_primitive o' /\ means ms ms' (ob_front o) (ob_front o') /\ means ms ms' (ob_back o) (ob_back o').
  Definition same_arrays (ms ms' : list Material) (a a' : Arrays) : Prop :=
    a_tri a = a_tri a' /\ a_norm a = a_norm a' /\ Forall2 (means ms ms') (a_front a) (a_front a') /\ Forall2 (means ms ms') (a_back a) (a_back a').
  Definition same_scene (s s' : Scene) : Prop :=
    same_arrays (sc_materials s) (sc_materials s') (sc_arrays s) (sc_arrays s') /\
    Forall2 (same_object (sc_materials s) (sc_materials s')) (sc_lights s) (sc_lights s') /\
    Forall2 (same_object (sc_materials s) (sc_materials s')) (sc_distant_lights s) (sc_distant_lights s') /\
    sc_accelerator s = sc_accelerator s' /\ sc_sky_colour s = sc_sky_colour s' /\ sc_sky s = sc_sky s'.

  Lemma nth_app_left {A} (l l2 : list A) i x : nth_error l i = Some x -> nth_error (l ++ l2) i = Some x.
  Proof. intros H. rewrite nth_error_app1; [exact H|]. apply nth_error_Some. congruence. Qed.
  Lemma means_more ms ms' x x' f f' : means ms ms' f f' -> means (ms ++ x) (ms' ++ x') f f'.
  Proof. intros (m & A & B). exists m. split; apply nth_app_left; assumption. Qed.
  Lemma Forall2_imp {A B} (P Q : A -> B -> Prop) l l' : (forall a b, P a b -> Q a b) -> Forall2 P l l' -> Forall2 Q l l'.
  Proof. intros H. induction 1; constructor; auto. Qed.
  Lemma Forall2_nth {A B} (P : A -> B -> Prop) l l' i : Forall2 P l l' ->
    match nth_error l i, nth_error l' i with Some a, Some b => P a b | None, None => True | _, _ => False end.
  Proof. intros H. revert i. induction H; intros [|i]; cbn; auto. apply IHForall2. Qed.
  Lemma same_scene_more s s' x x' : same_scene s s' -> same_scene (set_materials s (sc_materials s ++ x)) (set_materials s' (sc_materials s' ++ x')).
  Proof.
    intros ((A1 & A2 & A3 & A4) & L & D & R1 & R2 & R3). unfold same_scene, same_arrays. cbn.
    assert (O : forall o o', same_object (sc_materials s) (sc_materials s') o o' -> same_object (sc_materials s ++ x) (sc_materials s' ++ x') o o').
    { intros o o' (P & Q1 & Q2). repeat split; auto using means_more. }
    repeat split; try assumption; eapply Forall2_imp; try eassumption; auto using means_more.
  Qed.

  (** ** building the accelerator *)
  Definition pushed_alike ms ms' (x y : option Arrays) : Prop :=
    match x, y with Some a, Some b => same_arrays ms ms' a b | None, None => True | _, _ => False end.
  Lemma push_one_same ms ms' a a' i o o' : same_arrays ms ms' a a' -> same_arrays ms ms' o o' ->
    pushed_alike ms ms' (push_one a i o) (push_one a' i o').
  Proof.
    intros (A1 & A2 & A3 & A4) (O1 & O2 & O3 & O4). unfold push_one. rewrite <- A1, <- A2.
    pose proof (Forall2_nth _ _ _ i A3) as F3. pose proof (Forall2_nth _ _ _ i A4) as F4.
    destruct (nth_error (a_tri a) i) as [t|]; [|exact I].
    destruct (nth_error (a_back a) i) as [b|], (nth_error (a_back a') i) as [b'|]; try contradiction; [|exact I].
    destruct (nth_error (a_front a) i) as [f|], (nth_error (a_front a') i) as [f'|]; try contradiction; [|exact I].
    destruct (nth_error (a_norm a) i) as [n|]; [|exact I]. cbn. unfold same_arrays. cbn. rewrite O1, O2.
    split; [reflexivity|]. split; [reflexivity|]. split; apply Forall2_app; auto.
  Qed.
  Lemma push_all_same ms ms' a a' : same_arrays ms ms' a a' -> forall is o o', same_arrays ms ms' o o' ->
    pushed_alike ms ms' (push_all a is o) (push_all a' is o').
  Proof.
    intros HA. induction is as [|i is IH]; intros o o' HO; cbn [push_all]; [exact HO|].
    pose proof (push_one_same ms ms' a a' (oi_index i) o o' HA HO) as P.
    destruct (push_one a (oi_index i) o), (push_one a' (oi_index i) o'); try contradiction; [apply IH; exact P|exact I].
  Qed.
  Definition built_alike {A} ms ms' (x y : outcome (A * Arrays)) : Prop :=
    match x, y with Ret (n, a), Ret (n', a') => n = n' /\ same_arrays ms ms' a a' | Crash, Crash => True | Stuck, Stuck => True | _, _ => False end.
  Lemma build_same ms ms' a a' : same_arrays ms ms' a a' -> forall fuel is o o', same_arrays ms ms' o o' ->
    built_alike ms ms' (recursive_build fuel a is o) (recursive_build fuel a' is o').
  Proof.
    intros HA. induction fuel as [|fuel IH]; intros is o o' HO; cbn [recursive_build]; [exact I|].
    destruct is as [|i rest]; [exact I|]. destruct (decide i rest) as [[|ax l mid]|]; [| |exact I].
    - pose proof (push_all_same ms ms' a a' HA (i :: rest) o o' HO) as P. pose proof (proj1 HO) as L.
      destruct (push_all a (i :: rest) o), (push_all a' (i :: rest) o'); try contradiction; cbn; [|exact I]. rewrite L. split; [reflexivity|exact P].
    - pose proof (IH (firstn mid l) o o' HO) as P1.
      destruct (recursive_build fuel a (firstn mid l) o) as [[c1 o1]| |], (recursive_build fuel a' (firstn mid l) o') as [[c1' o1']| |]; try contradiction; cbn; try exact I.
      destruct P1 as [<- P1]. pose proof (IH (skipn mid l) o1 o1' P1) as P2.
      destruct (recursive_build fuel a (skipn mid l) o1) as [[c2 o2]| |], (recursive_build fuel a' (skipn mid l) o1') as [[c2' o2']| |]; try contradiction; cbn; try exact I.
      destruct P2 as [<- P2]. split; [reflexivity|exact P2].
  Qed.
  Definition step_alike (x y : outcome Scene) : Prop :=
    match x, y with Ret s, Ret s' => same_scene s s' | Crash, Crash => True | Stuck, Stuck => True | _, _ => False end.
  Lemma install_same s s' : same_scene s s' -> step_alike (install_accelerator s) (install_accelerator s') /\
    forall t t', install_accelerator s = Ret t -> install_accelerator s' = Ret t' -> sc_materials t = sc_materials s /\ sc_materials t' = sc_materials s'.
  Proof.
    intros (HA & L & D & R1 & R2 & R3). unfold install_accelerator, bvh_new. pose proof (proj1 HA) as HT. rewrite <- HT.
    destruct (Nat.eqb (length (a_tri (sc_arrays s))) 0).
    { cbn. split; [|intros t t' [= <-] [= <-]; split; reflexivity]. unfold same_scene. cbn. repeat split; try assumption; apply HA. }
    pose proof (build_same _ _ _ _ HA (length (a_tri (sc_arrays s))) (infos_of (a_tri (sc_arrays s))) empty_arrays empty_arrays) as P.
    assert (Z : same_arrays (sc_materials s) (sc_materials s') empty_arrays empty_arrays) by (repeat split; constructor). specialize (P Z).
    destruct (recursive_build _ (sc_arrays s) _ _) as [[n a]| |], (recursive_build _ (sc_arrays s') _ _) as [[n' a']| |]; try contradiction; cbn;
      try (split; [exact I|discriminate]).
    destruct P as [<- P]. split; [|intros t t' [= <-] [= <-]; split; reflexivity]. unfold same_scene. cbn. repeat split; try assumption; apply P.
  Qed.

  (** ** pushing an object *)
  Lemma repeat_means ms ms' f f' n : means ms ms' f f' -> Forall2 (means ms ms') (repeat f n) (repeat f' n).
  Proof. intros H. induction n; cbn; constructor; auto. Qed.
  Lemma push_object_same s s' f b f' b' mf mb p : same_scene s s' ->
    nth_error (sc_materials s) f = Some mf -> nth_error (sc_materials s') f' = Some mf -> nth_error (sc_materials s) b = Some mb -> nth_error (sc_materials s') b' = Some mb ->
    step_alike (push_object s f b p) (push_object s' f' b' p) /\
    forall t t', push_object s f b p = Ret t -> push_object s' f' b' p = Ret t' -> sc_materials t = sc_materials s /\ sc_materials t' = sc_materials s'.
  Proof.
    intros ((A1 & A2 & A3 & A4) & L & D & R1 & R2 & R3) F F' B B'. unfold push_object. rewrite F, F', B, B'.
    assert (MF : means (sc_materials s) (sc_materials s') f f') by (exists mf; auto). assert (MB : means (sc_materials s) (sc_materials s') b b') by (exists mb; auto).
    assert (OB : same_object (sc_materials s) (sc_materials s') (mkObject p f b) (mkObject p f' b')) by (repeat split; assumption).
    unfold register_light. destruct (emits_direct_light mf || emits_direct_light mb)%bool; [destruct (id_is_source (prim_id p))|]; cbn [fst snd];
      (destruct (mesh_primitive p _) as [[ts ns]| |]; cbn; [|split; [exact I|discriminate]|split; [exact I|discriminate]]);
      (split; [|intros t t' [= <-] [= <-]; split; reflexivity]); unfold same_scene, same_arrays; cbn; rewrite <- A1, <- A2;
      repeat split; auto using Forall2_app, repeat_means.
  Qed.

  Theorem retold_scenes ms ms' h h' : retold ms ms' h h' -> forall s s', ms = sc_materials s -> ms' = sc_materials s' -> same_scene s s' ->
    step_alike (play s h) (play s' h').
  Proof.
    induction 1 as [ms ms'|ms ms' m h h' _ IH|ms ms' m h h' _ IH|ms ms' f b f' b' mf mb p h h' F F' B B' _ IH|ms ms' h h' _ IH|ms ms' h h' _ IH|ms ms' sky h h' _ IH|ms ms' c h h' _ IH];
      intros s s' -> -> HS.
    - exact HS.
    - cbn [play step obind push_material fst]. apply IH; try reflexivity. pose proof (same_scene_more s s' [m] [] HS) as Q. rewrite app_nil_r in Q.
      replace (set_materials s' (sc_materials s')) with s' in Q by (destruct s'; reflexivity). exact Q.
    - cbn [play step obind push_material fst]. change (step_alike (play s h) (play (set_materials s' (sc_materials s' ++ [m])) h')). apply IH; try reflexivity.
      pose proof (same_scene_more s s' [] [m] HS) as Q. rewrite app_nil_r in Q.
      replace (set_materials s (sc_materials s)) with s in Q by (destruct s; reflexivity). exact Q.
    - cbn [play step]. destruct (push_object_same s s' f b f' b' mf mb p HS F F' B B') as [P Q].
      destruct (push_object s f b p) as [t| |], (push_object s' f' b' p) as [t'| |]; try contradiction; cbn [obind]; try exact I.
      destruct (Q t t' eq_refl eq_refl) as [E1 E2]. apply IH; [symmetry; exact E1|symmetry; exact E2|exact P].
    - cbn [play step]. unfold build_accelerator. replace (sc_accelerator s') with (sc_accelerator s) by apply HS. destruct (sc_accelerator s); [exact I|].
      destruct (install_same s s' HS) as [P Q].
      destruct (install_accelerator s) as [t| |], (install_accelerator s') as [t'| |]; try contradiction; cbn [obind]; try exact I.
      destruct (Q t t' eq_refl eq_refl) as [E1 E2]. apply IH; [symmetry; exact E1|symmetry; exact E2|exact P].
    - cbn [play step]. unfold rebuild_accelerator. destruct (install_same s s' HS) as [P Q].
      destruct (install_accelerator s) as [t| |], (install_accelerator s') as [t'| |]; try contradiction; cbn [obind]; try exact I.
      destruct (Q t t' eq_refl eq_refl) as [E1 E2]. apply IH; [symmetry; exact E1|symmetry; exact E2|exact P].
    - cbn [play step obind]. apply IH; try reflexivity. destruct HS as (A & L & D & R1 & R2 & R3). unfold same_scene. cbn. repeat split; try assumption; apply A.
    - cbn [play step obind]. apply IH; try reflexivity. destruct HS as (A & L & D & R1 & R2 & R3). unfold same_scene. cbn. repeat split; try assumption; apply A.
  Qed.

  (** ** tracing *)
  Section Same.
  Context (s s' : Scene) (HS : same_scene s s').
  Lemma same_cast fuel r nodes : cast_ray fuel s r nodes = cast_ray fuel s' r nodes.
  Proof. unfold cast_ray. destruct HS as ((A1 & _) & _ & _ & -> & _). rewrite A1. reflexivity. Qed.
  Lemma same_unobstructed fuel ray d nodes : scene_unobstructed_distance fuel s ray d nodes = scene_unobstructed_distance fuel s' ray d nodes.
  Proof. unfold scene_unobstructed_distance. destruct HS as ((A1 & _) & _ & _ & -> & _). rewrite A1. reflexivity. Qed.
  Lemma same_hit r i : hit_material s r i = hit_material s' r i.
  Proof.
    unfold hit_material. destruct HS as ((_ & _ & A3 & A4) & _). destruct (i_side _); [| |reflexivity].
    - pose proof (Forall2_nth _ _ _ i A3) as P. destruct (nth_error (a_front (sc_arrays s)) i), (nth_error (a_front (sc_arrays s')) i); try contradiction; [|reflexivity].
      destruct P as (m & P1 & P2). cbn. rewrite P1, P2. reflexivity.
    - pose proof (Forall2_nth _ _ _ i A4) as P. destruct (nth_error (a_back (sc_arrays s)) i), (nth_error (a_back (sc_arrays s')) i); try contradiction; [|reflexivity].
      destruct P as (m & P1 & P2). cbn. rewrite P1, P2. reflexivity.
  Qed.
  Lemma same_light fuel o o' ray nodes : same_object (sc_materials s) (sc_materials s') o o' ->
    intersect_light fuel s o ray nodes = intersect_light fuel s' o' ray nodes.
  Proof.
    intros (P & (mf & F1 & F2) & (mb & B1 & B2)). unfold intersect_light. rewrite <- P. destruct (prim_intersect (ob_primitive o) ray) as [info|]; [|reflexivity].
    cbv zeta. rewrite same_unobstructed. destruct (scene_unobstructed_distance fuel s' ray _ nodes) as [[c nd]| |]; cbn [obind]; try reflexivity.
    destruct c; cbn [negb]; [|reflexivity]. destruct (i_side info); [rewrite F1, F2|rewrite B1, B2|]; reflexivity.
  Qed.
  Lemma same_light_loop fuel m r p nm e1 e2 n o o' : same_object (sc_materials s) (sc_materials s') o o' -> forall loops i acc nodes g,
    light_loop loops fuel s m r p nm e1 e2 n o i acc nodes g = light_loop loops fuel s' m r p nm e1 e2 n o' i acc nodes g.
  Proof.
    intros HO. induction loops as [|loops IH]; intros i acc nodes g; cbn [light_loop]; destruct (Nat.ltb i n); try reflexivity.
    rewrite <- (proj1 HO). destruct (sample_direction (ob_primitive o) g p) as [[dir g1]| |]; cbn [obind]; try reflexivity.
    rewrite (same_light fuel o o' _ nodes HO). destruct (intersect_light fuel s' o' _ nodes) as [[h nd]| |]; cbn [obind]; try reflexivity.
    destruct h as [[col pdf]|]; [|apply IH]. destruct (fltb pdf TINY18); [apply IH|].
    destruct (eval_bsdf _ _ m nm e1 e2 r _) as [b| |]; cbn [obind]; try reflexivity. apply IH.
  Qed.
  Lemma same_lights_loop fuel m r p nm e1 e2 n : forall ls ls' acc nodes g, Forall2 (same_object (sc_materials s) (sc_materials s')) ls ls' ->
    lights_loop fuel s m r p nm e1 e2 n ls acc nodes g = lights_loop fuel s' m r p nm e1 e2 n ls' acc nodes g.
  Proof.
    intros ls ls' acc nodes g H. revert acc nodes g. induction H as [|o o' ls ls' HO _ IH]; intros acc nodes g; cbn [lights_loop]; [reflexivity|].
    rewrite (same_light_loop fuel m r p nm e1 e2 n o o' HO). destruct (light_loop fuel fuel s' m r p nm e1 e2 n o' 0 acc nodes g) as [[[a nd] g1]| |]; cbn [obind]; try reflexivity. apply IH.
  Qed.
  Lemma same_local fuel m r n nodes g : get_local_illumination fuel s m r n nodes g = get_local_illumination fuel s' m r n nodes g.
  Proof.
    unfold get_local_illumination, sample_light_array. destruct (get_triad r) as [[[p nm] e1] e2]. destruct HS as (_ & L & D & _).
    rewrite (same_lights_loop fuel m r _ nm e1 e2 n _ _ BLACK nodes g L). destruct (lights_loop fuel s' _ _ _ _ _ _ _ (sc_lights s') _ _ _) as [[[a nd] g1]| |]; cbn [obind]; try reflexivity.
    rewrite (same_lights_loop fuel m r _ nm e1 e2 n _ _ BLACK nd g1 D). reflexivity.
  Qed.
  Lemma same_sky r : see_sky s r = see_sky s' r.
  Proof. unfold see_sky. destruct HS as (_ & _ & _ & _ & -> & ->). reflexivity. Qed.

  Definition same_runs (t t' : Trace) : Prop := forall r aux g, t r aux g = t' r aux g.
  Lemma same_ambient t t' m p nm e1 e2 depth n fuel : same_runs t t' -> forall loops count global r aux g,
    ambient_loop t loops fuel m p nm e1 e2 depth n count global r aux g = ambient_loop t' loops fuel m p nm e1 e2 depth n count global r aux g.
  Proof.
    intros HT. induction loops as [|loops IH]; intros count global r aux g; cbn [ambient_loop]; destruct (Nat.ltb count n); try reflexivity.
    destruct (sample_bsdf_draw fuel m nm e1 e2 p r g) as [[[[bv pdf] r1] g1]| |]; cbn [obind]; try reflexivity. cbv zeta. rewrite HT.
    destruct (t' _ aux g1) as [[[[[li lp] r2] a2] g2]| |]; cbn [obind]; try reflexivity.
    destruct (nth_error (h_rays a2) depth); cbn [ret_opt obind]; [|reflexivity]. destruct (fltb f0 lp); apply IH.
  Qed.
  Lemma same_path t t' c p li r aux g : same_runs t t' -> specular_path t c p li r aux g = specular_path t' c p li r aux g.
  Proof. intros HT. destruct p as [[nr bv]|]; cbn [specular_path]; [|reflexivity]. destruct (gen g) as [q g1]. rewrite HT. reflexivity. Qed.
  Theorem same_trace fuel c : forall nest, same_runs (trace_ray nest fuel c s) (trace_ray nest fuel c s').
  Proof.
    induction nest as [|nest IH]; intros r aux g; cbn [trace_ray]; [reflexivity|].
    rewrite same_cast. destruct (cast_ray fuel s' r (h_nodes aux)) as [[[h r1] nd]| |]; cbn [obind]; try reflexivity. cbv zeta.
    destruct h as [i|]; [|rewrite same_sky; reflexivity].
    rewrite same_hit. destruct (hit_material s' r1 (Z.to_nat i)) as [[m|]| |]; cbn [obind]; try reflexivity.
    destruct (get_triad r1) as [[[p nm] e1] e2]. destruct HS as ((A1 & A2 & _) & _). rewrite A1, A2.
    destruct (emits_light m); [reflexivity|]. destruct (Nat.ltb _ _); [reflexivity|].
    destruct (nth_error (a_norm (sc_arrays s')) (Z.to_nat i)) as [ns|]; cbn [ret_opt obind]; [|reflexivity].
    destruct (specular_only m).
    - unfold specular_bounce. destruct (get_possible_paths m nm p _) as [[p1 p2]| |]; cbn [obind]; try reflexivity.
      rewrite (same_path _ _ c p1 _ _ _ _ IH). destruct (specular_path _ c p1 _ _ _ _) as [[[[l1 s1] b1] k1]| |]; cbn [obind]; try reflexivity.
      rewrite (same_path _ _ c p2 _ _ _ _ IH). reflexivity.
    - unfold scatter. destruct (draw_n_ambient_samples c _ g) as [[na r3] g3]. rewrite same_local.
      destruct (get_local_illumination fuel s' m r3 _ _ g3) as [[[lo nd2] g4]| |]; cbn [obind]; try reflexivity.
      unfold get_global_illumination. destruct (Nat.eqb na 0); [reflexivity|]. destruct (get_triad r3) as [[[p' nm'] e1'] e2'].
      destruct (store_ray _ _ _) as [aux2| |]; cbn [obind]; try reflexivity. rewrite (same_ambient _ _ _ _ _ _ _ _ _ _ IH). reflexivity.
  Qed.
  Theorem same_render nest fuel c w h cam seed : render_sequential nest fuel c s w h cam seed = render_sequential nest fuel c s' w h cam seed.
  Proof.
    unfold render_sequential. assert (P : forall ks st, render_steps nest fuel c s w cam ks st = render_steps nest fuel c s' w cam ks st).
    { induction ks as [|k ks IH]; intros st; cbn [render_steps]; [reflexivity|].
      assert (Q : render_step nest fuel c s w cam k st = render_step nest fuel c s' w cam k st).
      { unfold render_step. destruct (nth_error (rd_workers st) k) as [wk|]; [|reflexivity]. destruct (w_traced wk); [reflexivity|]. destruct (Nat.eqb _ _); [reflexivity|].
        unfold render_pixel. destruct (pixel_position w (w_pindex wk)) as [p| |]; cbn [obind]; try reflexivity. destruct (cam p) as [ray wt]. rewrite same_trace. reflexivity. }
      rewrite Q. destruct (render_step nest fuel c s' w cam k st); cbn [obind]; try reflexivity. apply IH. }
    rewrite P. reflexivity.
  Qed.

  Definition same_dc_runs (t t' : DCTrace) : Prop := forall r k aux g, t r k aux g = t' r k aux g.
  Lemma same_dc_path t t' d p k aux g : same_dc_runs t t' -> dc_specular_path t d p k aux g = dc_specular_path t' d p k aux g.
  Proof. intros HT. destruct p as [[nr bv]|]; cbn [dc_specular_path]; [|reflexivity]. cbv zeta. destruct (gen g) as [q g1]. rewrite HT. reflexivity. Qed.
  Lemma same_dc_ambient t t' fuel m p nm e1 e2 : same_dc_runs t t' -> forall n r k aux g,
    dc_ambient t fuel m p nm e1 e2 n r k aux g = dc_ambient t' fuel m p nm e1 e2 n r k aux g.
  Proof.
    intros HT. induction n as [|n IH]; intros r k aux g; cbn [dc_ambient]; [reflexivity|].
    destruct (sample_bsdf_draw fuel m nm e1 e2 p r g) as [[[[bv wt] r1] g1]| |]; cbn [obind]; try reflexivity. cbv zeta. rewrite HT.
    destruct (t' _ k aux g1) as [[[[r2 k2] a2] g2]| |]; cbn [obind]; try reflexivity. apply IH.
  Qed.
  Theorem same_dc_trace fuel d : forall nest, same_dc_runs (dc_trace nest fuel d s) (dc_trace nest fuel d s').
  Proof.
    induction nest as [|nest IH]; intros r k aux g; cbn [dc_trace]; [reflexivity|].
    rewrite same_cast. destruct (cast_ray fuel s' r (h_nodes aux)) as [[[h r1] nd]| |]; cbn [obind]; try reflexivity. cbv zeta.
    destruct h as [i|]; [|reflexivity]. destruct (Nat.ltb _ _); [reflexivity|].
    rewrite same_hit. destruct (hit_material s' r1 (Z.to_nat i)) as [[m|]| |]; cbn [obind]; try reflexivity.
    destruct (orb _ _); [reflexivity|]. destruct (get_triad r1) as [[[p nm] e1] e2]. destruct HS as ((_ & A2 & _) & _). rewrite A2.
    destruct (nth_error (a_norm (sc_arrays s')) (Z.to_nat i)) as [ns|]; cbn [ret_opt obind]; [|reflexivity].
    destruct (specular_only m).
    - destruct (get_possible_paths m nm p _) as [[p1 p2]| |]; cbn [obind]; try reflexivity.
      rewrite (same_dc_path _ _ d p1 _ _ _ IH). destruct (dc_specular_path _ d p1 _ _ _) as [[[k1 b1] g1]| |]; cbn [obind]; try reflexivity.
      rewrite (same_dc_path _ _ d p2 _ _ _ IH). reflexivity.
    - destruct (draw_n_ambient_samples _ _ g) as [[na r3] g3]. destruct (store_ray _ _ _) as [aux2| |]; cbn [obind]; try reflexivity.
      destruct (get_triad r3) as [[[p' nm'] e1'] e2']. apply same_dc_ambient. exact IH.
  Qed.
  Lemma map_out_ext {A B} (f f' : nat -> A -> outcome B) : (forall i a, f i a = f' i a) -> forall l i, map_out f i l = map_out f' i l.
  Proof. intros H. induction l as [|a l IH]; intros i; cbn [map_out]; [reflexivity|]. rewrite H. destruct (f' i a); cbn [obind]; try reflexivity. rewrite IH. reflexivity. Qed.
  Theorem same_calc_dc nest fuel d rays seed seed_ray : calc_dc nest fuel d rays s seed seed_ray = calc_dc nest fuel d rays s' seed seed_ray.
  Proof.
    unfold calc_dc. rewrite (map_out_ext _ (fun i ray => dc_sensor nest fuel d s' ray (seed i) (seed_ray i))); [reflexivity|].
    intros i ray. unfold dc_sensor. destruct (get_perpendicular (direction ray)); cbn [ret_opt obind]; [|reflexivity]. cbv zeta.
    rewrite (map_out_ext _ (fun k l => dc_primary nest fuel d s' (primary_ray (vcross v (direction ray)) v (direction ray) (origin ray) l) (seed_ray i k))); [reflexivity|].
    intros k l. unfold dc_primary. rewrite same_dc_trace. reflexivity.
  Qed.
  End Same.

  Lemma empty_same : same_scene scene_new scene_new.
  Proof. unfold same_scene, same_arrays. cbn. repeat split; constructor. Qed.
End Handles.

Theorem C101_handles : forall (N : Num) (T : Trig N) (E : Ext) (RG : Gen N) (GO : Geo) (h h' : list op) s, retold [] [] h h' -> play scene_new h = Ret s ->
  exists s', play scene_new h' = Ret s' /\
    (forall nest fuel c r aux g, trace_ray nest fuel c s r aux g = trace_ray nest fuel c s' r aux g) /\
    (forall nest fuel c width height camera seed, render_sequential nest fuel c s width height camera seed = render_sequential nest fuel c s' width height camera seed) /\
    (forall nest fuel d sensors seed seed_ray, calc_dc nest fuel d sensors s seed seed_ray = calc_dc nest fuel d sensors s' seed seed_ray).
Proof.
  intros N T E RG GO h h' s HR HP. pose proof (retold_scenes [] [] h h' HR scene_new scene_new eq_refl eq_refl empty_same) as Q. rewrite HP in Q.
  destruct (play scene_new h') as [s'| |] eqn:E'; try contradiction. exists s'. split; [reflexivity|]. cbn in Q.
  split; [|split]; intros; [apply same_trace|apply same_render|apply same_calc_dc]; exact Q.
Qed.
Print Assumptions C101_handles.

(** every history is a retelling of itself with one more material at the end *)
Lemma play_materials {N : Num} {T : Trig N} {E : Ext} o (s s1 : Scene) : step s o = Ret s1 ->
  sc_materials s1 = sc_materials s ++ (match o with AddMaterial m => [m] | _ => [] end).
Proof.
  destruct o as [m|f b p| | |sky|c]; cbn [step].
  - intros [= <-]. reflexivity.
  - unfold push_object. destruct (nth_error (sc_materials s) f) as [mf|]; [|discriminate]. destruct (nth_error (sc_materials s) b) as [mb|]; [|discriminate].
    unfold register_light. destruct (emits_direct_light mf || emits_direct_light mb)%bool; [destruct (id_is_source (prim_id p))|];
      (destruct (mesh_primitive p _) as [[ts ns]| |]; cbn; [|discriminate|discriminate]); intros [= <-]; cbn; rewrite app_nil_r; reflexivity.
  - unfold build_accelerator, install_accelerator. destruct (sc_accelerator s); [discriminate|]. destruct (bvh_new _ _) as [[n a]| |]; cbn; [|discriminate|discriminate]. intros [= <-]. cbn. rewrite app_nil_r. reflexivity.
  - unfold rebuild_accelerator, install_accelerator. destruct (bvh_new _ _) as [[n a]| |]; cbn; [|discriminate|discriminate]. intros [= <-]. cbn. rewrite app_nil_r. reflexivity.
  - intros [= <-]. cbn. rewrite app_nil_r. reflexivity.
  - intros [= <-]. cbn. rewrite app_nil_r. reflexivity.
Qed.
Lemma retold_longer {N : Num} {T : Trig N} {E : Ext} m : forall h (s s1 : Scene), play s h = Ret s1 -> retold (sc_materials s) (sc_materials s) h (h ++ [AddMaterial m]).
Proof.
  induction h as [|o h IH]; intros s s1 HP; cbn [app]; [apply rt_right, rt_end|]. cbn [play] in HP.
  destruct (step s o) as [s2| |] eqn:ST; cbn [obind] in HP; [|discriminate|discriminate]. pose proof (play_materials o s s2 ST) as M. specialize (IH s2 s1 HP). rewrite M in IH.
  destruct o as [x|f b p| | |sky|c]; cbn [app] in IH; try rewrite app_nil_r in IH.
  - apply rt_left, rt_right. exact IH.
  - cbn [step] in ST. unfold push_object in ST. destruct (nth_error (sc_materials s) f) as [mf|] eqn:F; [|discriminate]. destruct (nth_error (sc_materials s) b) as [mb|] eqn:B; [|discriminate].
    apply (rt_object _ _ _ _ _ _ mf mb); assumption.
  - apply rt_build. exact IH.
  - apply rt_rebuild. exact IH.
  - apply rt_sky. exact IH.
  - apply rt_sky_colour. exact IH.
Qed.
Lemma play_app {N : Num} {T : Trig N} {E : Ext} : forall h k (s : Scene), play s (h ++ k) = obind (play s h) (fun t => play t k).
Proof. induction h as [|o h IH]; intros k s; cbn [app play]; [reflexivity|]. destruct (step s o); cbn [obind]; [apply IH|reflexivity|reflexivity]. Qed.

(** the simplest case: a material pushed at the end, which no object uses, changes nothing *)
Theorem C101_unused : forall (N : Num) (T : Trig N) (E : Ext) (RG : Gen N) (GO : Geo) (h : list op) s m, play scene_new h = Ret s ->
  let s' := fst (push_material s m) in
    (forall nest fuel c r aux g, trace_ray nest fuel c s r aux g = trace_ray nest fuel c s' r aux g) /\
    (forall nest fuel c width height camera seed, render_sequential nest fuel c s width height camera seed = render_sequential nest fuel c s' width height camera seed) /\
    (forall nest fuel d sensors seed seed_ray, calc_dc nest fuel d sensors s seed seed_ray = calc_dc nest fuel d sensors s' seed seed_ray).
Proof.
  intros N T E RG GO h s m HP s'. destruct (C101_handles N T E RG GO h (h ++ [AddMaterial m]) s (retold_longer m h scene_new s HP) HP) as (t & HT & Q).
  rewrite play_app, HP in HT. cbn [obind play step] in HT. injection HT as <-. exact Q.
Qed.
Print Assumptions C101_unused.

(** a case: a white plate with a luminous back, told with its two materials, and told with the materials in the other order, twice, and
    with one that is not used; both tellings succeed, whatever the arithmetic *)
Example C101_hyp : forall (N : Num) (T : Trig N) (E : Ext) (t : @Triangle N) (c x : @F N),
  let white := Plastic (gray c) f0 f0 in let lamp := Light (gray x) in
  let h := [AddMaterial white; AddMaterial lamp; AddObject 0 1 (PTriangle t); Build] in
  let h' := [AddMaterial lamp; AddMaterial (Mirror (gray x)); AddMaterial white; AddMaterial lamp; AddObject 2 3 (PTriangle t); Build] in
  retold [] [] h h' /\ (exists s, play scene_new h = Ret s /\ length (a_tri (sc_arrays s)) = 1%nat /\ a_front (sc_arrays s) = [0]%nat /\ length (sc_lights s) = 1%nat) /\
  (exists s', play scene_new h' = Ret s' /\ a_front (sc_arrays s') = [2]%nat).
Proof.
  intros N T E t c x white lamp h h'. split; [|split].
  - unfold h, h'. do 2 apply rt_left. do 4 apply rt_right. cbn [app]. apply (rt_object _ _ _ _ _ _ white lamp); try reflexivity. apply rt_build, rt_end.
  - eexists. split; [reflexivity|]. split; [reflexivity|]. split; reflexivity.
  - eexists. split; reflexivity.
Qed.
