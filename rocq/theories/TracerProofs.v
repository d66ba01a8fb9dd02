(** * TracerProofs: the auxiliary ray buffer and the recursion of trace_ray, for every arithmetic *)
From Verif Require Import Num Geometry Triangle Sphere Colour Ray Bvh Material Scene Samplers Primitives RayTracer.

Lemma set_nth_length {A} i (x : A) l : length (set_nth i x l) = length l.
Proof. revert i. induction l as [|y l IH]; intros [|i]; cbn; auto. Qed.
Lemma set_nth_same {A} i (x : A) l : (i < length l)%nat -> nth_error (set_nth i x l) i = Some x.
Proof. revert i. induction l as [|y l IH]; intros [|i] H; cbn in *; try lia; auto. apply IH. lia. Qed.
Lemma set_nth_other {A} i k (x : A) l : i <> k -> nth_error (set_nth i x l) k = nth_error l k.
Proof. revert i k. induction l as [|y l IH]; intros [|i] [|k] H; cbn; auto; congruence. Qed.

(** destruct the outcome that blocks the computation in hypothesis H *)
Ltac ostep H :=
  match type of H with
  | context [obind ?e _] =>
      lazymatch e with
      | context [obind _ _] => fail
      | _ => let D := fresh "D" in destruct e eqn:D; cbn [obind] in H; try discriminate H
      end
  end.

Section Generic.
  Context {N : Num} {T : Trig N} {E : Ext} {R : Gen N} {O : Geo}.

  (** ** what the steps keep of the ray *)
  Lemma ward_loop_keeps normal e1 e2 sp al be r draws a b c r' :
    ward_loop normal e1 e2 sp al be r draws = Ret (a, b, c, r') ->
    r_depth r' = r_depth r /\ r_interaction r' = r_interaction r /\ r_refraction_index r' = r_refraction_index r /\
    r_value r' = r_value r /\ r_colour r' = r_colour r /\ origin (r_geometry r') = origin (r_geometry r).
  Proof.
    induction draws as [|[x1 x2] draws IH]; cbn [ward_loop]; [discriminate|]. cbv zeta.
    destruct (orb _ _); [|exact IH]. destruct (evaluate_ward _ _ _ _ _ _ _ _) as [sp' di].
    destruct (negb _); [discriminate|]. intros H. injection H as <- <- <- <-. repeat split.
  Qed.
  Lemma ward_draw_keeps normal e1 e2 sp al be r : forall fuel g a b c r' g',
    ward_draw fuel normal e1 e2 sp al be r g = Ret (a, b, c, r', g') ->
    r_depth r' = r_depth r /\ r_interaction r' = r_interaction r /\ r_refraction_index r' = r_refraction_index r /\
    r_value r' = r_value r /\ r_colour r' = r_colour r /\ origin (r_geometry r') = origin (r_geometry r).
  Proof.
    induction fuel as [|fuel IH]; intros g a b c r' g'; cbn [ward_draw]; [discriminate|].
    destruct (gen g) as [x1 g1], (gen g1) as [x2 g2].
    destruct (ward_loop _ _ _ _ _ _ _ _) as [[[[a1 b1] c1] r1]| |] eqn:W; try discriminate; [|apply IH].
    intros H. injection H as <- <- <- <- <-. eapply ward_loop_keeps; exact W.
  Qed.
  Lemma sample_ward_draw_keeps fuel normal e1 e2 p sp al be r g a b c r' g' :
    sample_ward_draw fuel normal e1 e2 p sp al be r g = Ret (a, b, c, r', g') ->
    r_depth r' = r_depth r /\ r_interaction r' = r_interaction r /\ r_refraction_index r' = r_refraction_index r /\
    r_value r' = r_value r /\ r_colour r' = r_colour r /\ origin (r_geometry r') = vadd p (vscale normal SHIFT).
  Proof.
    unfold sample_ward_draw. destruct (gen g) as [q g1]. destruct (fltb q sp) eqn:Q.
    - intros H. apply ward_draw_keeps in H. exact H.
    - destruct (gen g1) as [x1 g2], (gen g2) as [x2 g3]. unfold sample_ward. cbn [wd_prob wd_disc]. rewrite Q. cbn [obind].
      intros H. injection H as <- <- <- <- <-. repeat split.
  Qed.
  Lemma sample_bsdf_keeps fuel m normal e1 e2 p r g v w r' g' :
    sample_bsdf_draw fuel m normal e1 e2 p r g = Ret (v, w, r', g') ->
    r_depth r' = r_depth r /\ r_interaction r' = r_interaction r /\ r_refraction_index r' = r_refraction_index r /\
    r_value r' = r_value r /\ r_colour r' = r_colour r /\ origin (r_geometry r') = vadd p (vscale normal SHIFT).
  Proof.
    destruct m; cbn [sample_bsdf_draw]; try discriminate;
      destruct (sample_ward_draw _ _ _ _ _ _ _ _ _ _) as [[[[[a b] c] r1] g1]| |] eqn:W; cbn [obind]; try discriminate;
      intros H; injection H as <- <- <- <-; eapply sample_ward_draw_keeps; exact W.
  Qed.

  Definition path_depth (d : nat) (p : Path) : Prop := match p with Some (r, _) => r_depth r = d | None => True end.
  Lemma possible_paths_depth m normal p r p1 p2 : get_possible_paths m normal p r = Ret (p1, p2) ->
    path_depth (r_depth r) p1 /\ path_depth (r_depth r) p2.
  Proof.
    destruct m; cbn [get_possible_paths]; try discriminate; intros H; apply (f_equal (fun o => match o with Ret x => x | _ => (p1, p2) end)) in H; cbv beta iota in H.
    - unfold mirror_paths, mirror_bsdf in H. injection H as <- <-. cbn. split; [reflexivity|exact I].
    - unfold dielectric_paths in H. destruct (cos_and_n _ _ _ _) as [[[n1 c1] n2] c2].
      destruct (dielectric_refl_trans _ _ _ _ _) as [re tr]. injection H as <- <-. split; [reflexivity|]. destruct c2; [reflexivity|exact I].
    - unfold glass_paths in H. cbv zeta in H. destruct (cos_and_n _ _ _ _) as [[[n1 c1] n2] c2].
      destruct (glass_refl_trans _ _ _ _ _) as [re tr]. injection H as <- <-. split; [reflexivity|]. destruct (fltb _ _); [reflexivity|exact I].
  Qed.

  Lemma cast_keeps fuel s r aux o r' aux' : cast_ray fuel s r aux = Ret (o, r', aux') ->
    r_geometry r' = r_geometry r /\ r_refraction_index r' = r_refraction_index r /\ r_depth r' = r_depth r /\
    r_value r' = r_value r /\ r_colour r' = r_colour r.
  Proof.
    unfold cast_ray. destruct (sc_accelerator s) as [nodes|]; [|discriminate].
    unfold intersect. destruct nodes as [|n nodes]; [intros H; injection H as <- <- <-; repeat split|].
    cbv zeta. destruct (isect_loop _ _ _ _ _ _ _) as [[b st]| |]; cbn [obind]; try discriminate.
    destruct (b_index b), (b_info b); intros H; injection H as <- <- <-; repeat split.
  Qed.

  Lemma draw_n_keeps c r g n r' g' : draw_n_ambient_samples c r g = (n, r', g') ->
    r_geometry r' = r_geometry r /\ r_interaction r' = r_interaction r /\ r_depth r' = r_depth r /\ r_colour r' = r_colour r /\
    r_refraction_index r' = r_refraction_index r.
  Proof.
    unfold draw_n_ambient_samples, get_n_ambient_samples. destruct (Nat.eqb (max_depth c) 0); cbn [orb].
    { intros H; injection H as <- <- <-; repeat split. }
    destruct (Nat.eqb (n_ambient_samples c) 0); cbn [orb].
    { intros H; injection H as <- <- <-; repeat split. }
    destruct (Nat.eqb (r_depth r) 0); cbn [orb].
    { intros H; injection H as <- <- <-; repeat split. }
    destruct (gen g) as [q g1]. destruct (fltb _ q); intros H; injection H as <- <- <-; repeat split.
  Qed.

  (** ** the buffer: tracing a ray only writes the slots at or below its own depth *)
  Definition same_below (d : nat) (a b : Helper) : Prop :=
    length (h_rays b) = length (h_rays a) /\ forall k, (k < d)%nat -> nth_error (h_rays b) k = nth_error (h_rays a) k.
  Lemma same_below_refl d a : same_below d a a.
  Proof. split; auto. Qed.
  Lemma same_below_trans d a b c : same_below d a b -> same_below d b c -> same_below d a c.
  Proof. intros [L1 H1] [L2 H2]. split; [congruence|]. intros k Hk. rewrite H2, H1 by assumption. reflexivity. Qed.
  Lemma same_below_weak d d' a b : (d <= d')%nat -> same_below d' a b -> same_below d a b.
  Proof. intros Hd [L H]. split; [exact L|]. intros k Hk. apply H. lia. Qed.
  Definition frames (trace : Trace) : Prop := forall r aux g li pdf r' aux' g',
    trace r aux g = Ret (li, pdf, r', aux', g') -> same_below (r_depth r) aux aux'.

  Lemma ambient_loop_frame trace m p normal e1 e2 depth n fuel : frames trace ->
    forall loops count global r aux g x r' aux' g',
    r_depth r = depth -> (exists r0, nth_error (h_rays aux) depth = Some r0 /\ r_depth r0 = depth) ->
    ambient_loop trace loops fuel m p normal e1 e2 depth n count global r aux g = Ret (x, r', aux', g') ->
    same_below (S depth) aux aux' /\ r_depth r' = depth.
  Proof.
    intros HF. induction loops as [|loops IH]; intros count global r aux g x r' aux' g' Hr (r0 & H0 & D0); cbn [ambient_loop];
      destruct (Nat.ltb count n).
    - discriminate.
    - intros H. injection H as <- <- <- <-. split; [apply same_below_refl|assumption].
    - destruct (sample_bsdf_draw _ _ _ _ _ _ _ _) as [[[[bv pdf] r1] g1]| |] eqn:SB; cbn [obind]; try discriminate.
      pose proof (sample_bsdf_keeps _ _ _ _ _ _ _ _ _ _ _ _ SB) as (K & _). cbv zeta.
      set (r2 := set_value _ _).
      destruct (trace r2 aux g1) as [[[[[li lp] r3] aux3] g3]| |] eqn:TR; cbn [obind]; try discriminate.
      pose proof (HF _ _ _ _ _ _ _ _ TR) as SBel. replace (r_depth r2) with (S depth) in SBel by (cbn; congruence).
      assert (H3 : nth_error (h_rays aux3) depth = Some r0) by (destruct SBel as [_ ->]; [exact H0|lia]).
      rewrite H3. cbn [ret_opt obind].
      destruct (fltb f0 lp); intros H; (eapply IH in H; [|exact D0|exists r0; split; assumption]);
        destruct H as [H HD]; (split; [eapply same_below_trans; eassumption|exact HD]).
    - intros H. injection H as <- <- <- <-. split; [apply same_below_refl|assumption].
  Qed.

  Lemma store_ray_spec aux d r aux' : store_ray aux d r = Ret aux' ->
    (d < length (h_rays aux))%nat /\ nth_error (h_rays aux') d = Some r /\ same_below d aux aux'.
  Proof.
    unfold store_ray. destruct (Nat.ltb_spec d (length (h_rays aux))) as [L|L]; [|discriminate]. intros H. injection H as <-.
    cbn [h_rays]. split; [exact L|]. split; [apply set_nth_same; exact L|]. split; [cbn; apply set_nth_length|].
    intros k Hk. cbn. apply set_nth_other. lia.
  Qed.

  Lemma global_frame trace fuel n m r aux g x r' aux' g' : frames trace ->
    get_global_illumination trace fuel n m r aux g = Ret (x, r', aux', g') -> same_below (r_depth r) aux aux' /\ r_depth r' = r_depth r.
  Proof.
    intros HF. unfold get_global_illumination. destruct (Nat.eqb n 0).
    - intros H. injection H as <- <- <- <-. split; [apply same_below_refl|reflexivity].
    - destruct (get_triad r) as [[[p nm] e1] e2]. destruct (store_ray aux (r_depth r) r) as [aux1| |] eqn:SR; cbn [obind]; try discriminate.
      destruct (store_ray_spec _ _ _ _ SR) as (_ & S1 & S2).
      destruct (ambient_loop _ _ _ _ _ _ _ _ _ _ _ _ _ _ _) as [[[[gl r2] aux2] g2]| |] eqn:AL; cbn [obind]; try discriminate.
      intros H. injection H as <- <- <- <-.
      apply ambient_loop_frame in AL; [|exact HF|reflexivity|exists r; split; [exact S1|reflexivity]].
      destruct AL as [A1 A2]. split; [|exact A2]. eapply same_below_trans; [exact S2|]. eapply same_below_weak; [|exact A1]. lia.
  Qed.

  Lemma specular_path_frame trace c p li r aux g li' r' aux' g' d : frames trace -> path_depth d p ->
    specular_path trace c p li r aux g = Ret (li', r', aux', g') ->
    same_below d aux aux' /\ r_depth r' = r_depth r.
  Proof.
    intros HF HP. destruct p as [[nr bv]|]; cbn [specular_path].
    2:{ intros H. injection H as <- <- <- <-. split; [apply same_below_refl|reflexivity]. }
    cbn [path_depth] in HP. destruct (gen g) as [q g1]. set (nr' := if fltb q _ then _ else _).
    destruct (trace nr' aux g1) as [[[[[l pf] r3] aux3] g3]| |] eqn:TR; cbn [obind]; try discriminate.
    intros H. injection H as <- <- <- <-. apply HF in TR. split; [|reflexivity].
    eapply same_below_weak; [|exact TR]. subst nr'. destruct (fltb _ _); cbn; lia.
  Qed.

  Lemma trace_ray_frame fuel c s : forall nest, frames (trace_ray nest fuel c s).
  Proof.
    induction nest as [|nest IH]; intros r aux g li pdf r' aux' g'; cbn [trace_ray]; [discriminate|].
    destruct (cast_ray fuel s r (h_nodes aux)) as [[[hit r1] nodes]| |] eqn:CR; cbn [obind]; try discriminate. cbv zeta.
    destruct (cast_keeps _ _ _ _ _ _ _ CR) as (_ & _ & KD & _).
    assert (Base : forall n, same_below (r_depth r) aux (mkHelper (h_rays aux) n)) by (intros; split; auto).
    destruct hit as [i|].
    2:{ destruct (see_sky s r1) as [[l pf] r2]. intros H. injection H as <- <- <- <- <-. apply Base. }
    destruct (hit_material s r1 (Z.to_nat i)) as [[m|]| |]; cbn [obind]; try discriminate.
    2:{ intros H. injection H as <- <- <- <- <-. apply Base. }
    destruct (get_triad r1) as [[[p nm] e1] e2].
    destruct (emits_light m).
    { destruct (nth_error _ _); cbn [ret_opt obind]; [|discriminate]. intros H. injection H as <- <- <- <- <-. apply Base. }
    destruct (Nat.ltb _ _).
    { intros H. injection H as <- <- <- <- <-. apply Base. }
    destruct (nth_error (a_norm _) _) as [ns|]; cbn [ret_opt obind]; [|discriminate].
    set (r2 := set_shading r1 _). assert (D2 : r_depth r2 = r_depth r) by (cbn; exact KD).
    destruct (specular_only m).
    - unfold specular_bounce. destruct (get_possible_paths m nm p r2) as [[p1 p2]| |] eqn:PP; cbn [obind]; try discriminate.
      destruct (possible_paths_depth _ _ _ _ _ _ PP) as [P1 P2]. rewrite D2 in P1, P2.
      destruct (specular_path _ c p1 _ _ _ _) as [[[[l3 r3] a3] g3]| |] eqn:S1; cbn [obind]; try discriminate.
      destruct (specular_path _ c p2 _ _ _ _) as [[[[l4 r4] a4] g4]| |] eqn:S2; cbn [obind]; try discriminate.
      intros H. injection H as <- <- <- <- <-.
      destruct (specular_path_frame _ _ _ _ _ _ _ _ _ _ _ _ IH P1 S1) as [F1 _].
      destruct (specular_path_frame _ _ _ _ _ _ _ _ _ _ _ _ IH P2 S2) as [F2 _].
      eapply same_below_trans; [apply (Base nodes)|]. eapply same_below_trans; eassumption.
    - unfold scatter. destruct (draw_n_ambient_samples c r2 g) as [[na r3] g3] eqn:DN.
      destruct (draw_n_keeps _ _ _ _ _ _ DN) as (_ & _ & KD3 & _).
      destruct (get_local_illumination _ _ _ _ _ _ _) as [[[lo nd] g4]| |]; cbn [obind]; try discriminate.
      destruct (get_global_illumination _ _ _ _ _ _ _) as [[[[gl r5] a5] g5]| |] eqn:GG; cbn [obind]; try discriminate.
      intros H. injection H as <- <- <- <- <-.
      destruct (global_frame _ _ _ _ _ _ _ _ _ _ _ IH GG) as [FG _].
      rewrite KD3, D2 in FG. exact FG.
  Qed.

  (** ** the nesting of calls *)
  Definition agree (d : nat) (t1 t2 : Trace) : Prop := forall r aux g, (d <= r_depth r)%nat -> t1 r aux g = t2 r aux g.

  Lemma ambient_loop_agree t1 t2 m p normal e1 e2 depth n fuel : frames t1 -> agree (S depth) t1 t2 ->
    forall loops count global r aux g,
    r_depth r = depth -> (exists r0, nth_error (h_rays aux) depth = Some r0 /\ r_depth r0 = depth) ->
    ambient_loop t1 loops fuel m p normal e1 e2 depth n count global r aux g =
    ambient_loop t2 loops fuel m p normal e1 e2 depth n count global r aux g.
  Proof.
    intros HF HA. induction loops as [|loops IH]; intros count global r aux g Hr (r0 & H0 & D0); cbn [ambient_loop];
      destruct (Nat.ltb count n); try reflexivity.
    destruct (sample_bsdf_draw _ _ _ _ _ _ _ _) as [[[[bv pdf] r1] g1]| |] eqn:SB; cbn [obind]; try reflexivity.
    pose proof (sample_bsdf_keeps _ _ _ _ _ _ _ _ _ _ _ _ SB) as (K & _). cbv zeta.
    set (r2 := set_value _ _). assert (D2 : r_depth r2 = S depth) by (cbn; congruence).
    rewrite <- (HA r2 aux g1) by lia.
    destruct (t1 r2 aux g1) as [[[[[li lp] r3] aux3] g3]| |] eqn:TR; cbn [obind]; try reflexivity.
    pose proof (HF _ _ _ _ _ _ _ _ TR) as SBel. rewrite D2 in SBel.
    assert (H3 : nth_error (h_rays aux3) depth = Some r0) by (destruct SBel as [_ ->]; [exact H0|lia]).
    rewrite H3. cbn [ret_opt obind]. destruct (fltb f0 lp); apply IH; try assumption; exists r0; split; assumption.
  Qed.
  Lemma global_agree t1 t2 fuel n m r aux g : frames t1 -> agree (S (r_depth r)) t1 t2 ->
    get_global_illumination t1 fuel n m r aux g = get_global_illumination t2 fuel n m r aux g.
  Proof.
    intros HF HA. unfold get_global_illumination. destruct (Nat.eqb n 0); [reflexivity|].
    destruct (get_triad r) as [[[p nm] e1] e2]. destruct (store_ray aux (r_depth r) r) as [aux1| |] eqn:SR; cbn [obind]; try reflexivity.
    destruct (store_ray_spec _ _ _ _ SR) as (_ & S1 & S2).
    rewrite (ambient_loop_agree t1 t2); [reflexivity|exact HF|exact HA|reflexivity|exists r; split; [exact S1|reflexivity]].
  Qed.
  Lemma specular_path_agree t1 t2 c p li r aux g d : path_depth d p -> 
    agree (if fltb (fst (gen g)) (count_specular_bounce c) then S d else d) t1 t2 ->
    specular_path t1 c p li r aux g = specular_path t2 c p li r aux g.
  Proof.
    intros HP HA. destruct p as [[nr bv]|]; cbn [specular_path]; [|reflexivity]. cbn [path_depth] in HP.
    destruct (gen g) as [q g1]. cbn [fst] in HA. rewrite (HA _ aux g1); [reflexivity|].
    destruct (fltb q _); cbn; lia.
  Qed.

  (** one call agrees for two recursive callees that agree one level deeper *)
  Definition counted (c : Tracer) : Prop := forall g, fltb (fst (gen g)) (count_specular_bounce c) = true.
  Lemma trace_ray_nesting c s fuel : counted c ->
    forall n1 n2 r aux g, (max_depth c + 2 <= n1 + r_depth r)%nat -> (max_depth c + 2 <= n2 + r_depth r)%nat -> (0 < n1)%nat -> (0 < n2)%nat ->
    trace_ray n1 fuel c s r aux g = trace_ray n2 fuel c s r aux g.
  Proof.
    intros HC. induction n1 as [|n1 IH]; intros [|n2] r aux g H1 H2 P1 P2; try lia. cbn [trace_ray].
    destruct (cast_ray fuel s r (h_nodes aux)) as [[[hit r1] nodes]| |] eqn:CR; cbn [obind]; try reflexivity. cbv zeta.
    destruct (cast_keeps _ _ _ _ _ _ _ CR) as (_ & _ & KD & _).
    destruct hit as [i|]; [|reflexivity].
    destruct (hit_material s r1 (Z.to_nat i)) as [[m|]| |]; cbn [obind]; try reflexivity.
    destruct (get_triad r1) as [[[p nm] e1] e2].
    destruct (emits_light m); [reflexivity|].
    destruct (Nat.ltb_spec (max_depth c) (r_depth r1)) as [L|L]; [reflexivity|].
    assert (HA : agree (S (r_depth r)) (trace_ray n1 fuel c s) (trace_ray n2 fuel c s)).
    { intros r' aux' g' Hd. apply IH; lia. }
    destruct (nth_error (a_norm _) _) as [ns|]; cbn [ret_opt obind]; [|reflexivity].
    set (r2 := set_shading r1 _). assert (D2 : r_depth r2 = r_depth r) by (cbn; exact KD).
    destruct (specular_only m).
    - unfold specular_bounce. destruct (get_possible_paths m nm p r2) as [[p1 p2]| |] eqn:PP; cbn [obind]; try reflexivity.
      destruct (possible_paths_depth _ _ _ _ _ _ PP) as [Q1 Q2]. rewrite D2 in Q1, Q2.
      rewrite (specular_path_agree _ (trace_ray n2 fuel c s) c p1 _ _ _ _ _ Q1) by (rewrite HC; exact HA).
      destruct (specular_path _ c p1 _ _ _ _) as [[[[l3 r3] a3] g3]| |]; cbn [obind]; try reflexivity.
      rewrite (specular_path_agree _ (trace_ray n2 fuel c s) c p2 _ _ _ _ _ Q2) by (rewrite HC; exact HA). reflexivity.
    - unfold scatter. destruct (draw_n_ambient_samples c r2 g) as [[na r3] g3] eqn:DN.
      destruct (draw_n_keeps _ _ _ _ _ _ DN) as (_ & _ & KD3 & _).
      destruct (get_local_illumination _ _ _ _ _ _ _) as [[[lo nd] g4]| |]; cbn [obind]; try reflexivity.
      rewrite (global_agree _ (trace_ray n2 fuel c s)); [reflexivity|apply trace_ray_frame|].
      rewrite KD3, D2. exact HA.
  Qed.
End Generic.
