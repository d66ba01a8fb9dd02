(** * TracerAux: the auxiliary buffers never influence a result *)
From Verif Require Import RayTracer TracerProofs.

(** two runs that end alike: both return related results, both panic, or both exceed their budget *)
Definition alike {A B} (Q : A -> B -> Prop) (x : outcome A) (y : outcome B) : Prop :=
  match x, y with Ret a, Ret b => Q a b | Crash, Crash => True | Stuck, Stuck => True | _, _ => False end.
Lemma alike_bind {A B A' B'} (P : A -> B -> Prop) (Q : A' -> B' -> Prop) x y f g :
  alike P x y -> (forall a b, x = Ret a -> y = Ret b -> P a b -> alike Q (f a) (g b)) -> alike Q (obind x f) (obind y g).
Proof. destruct x, y; cbn; intros H K; try contradiction; auto. Qed.
Lemma alike_refl {A} (Q : A -> A -> Prop) x : (forall a, Q a a) -> alike Q x x.
Proof. destruct x; cbn; auto. Qed.
Lemma alike_same {A B} (Q : A -> A -> Prop) (x : outcome B) f g : (forall a, x = Ret a -> alike Q (f a) (g a)) -> alike Q (obind x f) (obind x g).
Proof. destruct x; cbn; auto. Qed.

Section Aux.
  Context {N : Num} {T : Trig N} {E : Ext} {RG : Gen N} {O : Geo}.

  Lemma cast_alike fuel s r n1 n2 : alike (fun a b => fst a = fst b) (cast_ray fuel s r n1) (cast_ray fuel s r n2).
  Proof.
    unfold cast_ray. destruct (sc_accelerator s) as [[|nd nds]|]; cbn; auto. unfold truncate0. cbn [firstn].
    apply alike_refl. reflexivity.
  Qed.
  Lemma unobstructed_alike fuel s ray d n1 n2 :
    alike (fun a b => fst a = fst b) (scene_unobstructed_distance fuel s ray d n1) (scene_unobstructed_distance fuel s ray d n2).
  Proof.
    unfold scene_unobstructed_distance. destruct (sc_accelerator s) as [[|nd nds]|]; cbn; auto. unfold truncate0. cbn [firstn].
    apply alike_refl. reflexivity.
  Qed.
  Lemma intersect_light_alike fuel s l ray n1 n2 : alike (fun a b => fst a = fst b) (intersect_light fuel s l ray n1) (intersect_light fuel s l ray n2).
  Proof.
    unfold intersect_light. destruct (prim_intersect _ ray) as [info|]; [|reflexivity]. cbv zeta.
    eapply alike_bind; [apply unobstructed_alike|]. intros [c1 m1] [c2 m2] _ _ H. cbn in H. subst c2.
    destruct c1; cbn [negb]; [|reflexivity]. destruct (match i_side info with Front => _ | Back => _ | NonApplicable => _ end) as [ix|]; [|reflexivity].
    apply alike_same. intros mm _. apply alike_same. intros pdf _. reflexivity.
  Qed.
  Definition lit_alike (a b : Spectrum * list Z * G) : Prop := fst (fst a) = fst (fst b) /\ snd a = snd b.
  Lemma light_loop_alike fuel s m r p nm e1 e2 n l : forall loops i acc n1 n2 g,
    alike lit_alike (light_loop loops fuel s m r p nm e1 e2 n l i acc n1 g) (light_loop loops fuel s m r p nm e1 e2 n l i acc n2 g).
  Proof.
    induction loops as [|loops IH]; intros i acc n1 n2 g; cbn [light_loop]; destruct (Nat.ltb i n); try (cbn; auto; split; reflexivity).
    apply alike_same. intros [dir g1] _. eapply alike_bind; [apply intersect_light_alike|].
    intros [h1 m1] [h2 m2] _ _ H. cbn in H. subst h2. destruct h1 as [[col pdf]|]; [|apply IH].
    destruct (fltb pdf TINY18); [apply IH|]. apply alike_same. intros b _. apply IH.
  Qed.
  Lemma lights_loop_alike fuel s m r p nm e1 e2 n : forall ls acc n1 n2 g,
    alike lit_alike (lights_loop fuel s m r p nm e1 e2 n ls acc n1 g) (lights_loop fuel s m r p nm e1 e2 n ls acc n2 g).
  Proof.
    induction ls as [|l ls IH]; intros acc n1 n2 g; cbn [lights_loop]; [split; reflexivity|].
    eapply alike_bind; [apply light_loop_alike|]. intros [[a1 m1] g1] [[a2 m2] g2] _ _ [H1 H2]. cbn in H1, H2. subst a2 g2. apply IH.
  Qed.
  Lemma local_alike fuel s m r n n1 n2 g :
    alike lit_alike (get_local_illumination fuel s m r n n1 g) (get_local_illumination fuel s m r n n2 g).
  Proof.
    unfold get_local_illumination, sample_light_array. destruct (get_triad r) as [[[p nm] e1] e2].
    eapply alike_bind; [apply lights_loop_alike|]. intros [[a1 m1] g1] [[a2 m2] g2] _ _ [H1 H2]. cbn in H1, H2. subst a2 g2.
    eapply alike_bind; [apply lights_loop_alike|]. intros [[b1 k1] h1] [[b2 k2] h2] _ _ [H1 H2]. cbn in H1, H2. subst b2 h2. split; reflexivity.
  Qed.

  (** the same colour, density, ray and generator; buffers of the same size *)
  Definition same_traced (a b : Traced) : Prop :=
    let '(li, pdf, r, aux, g) := a in let '(li', pdf', r', aux', g') := b in
    li = li' /\ pdf = pdf' /\ r = r' /\ g = g' /\ length (h_rays aux) = length (h_rays aux').
  Definition same_lit (a b : Spectrum * Ray * Helper * G) : Prop :=
    let '(li, r, aux, g) := a in let '(li', r', aux', g') := b in
    li = li' /\ r = r' /\ g = g' /\ length (h_rays aux) = length (h_rays aux').
  Definition forgets (trace : Trace) : Prop := forall r a1 a2 g, length (h_rays a1) = length (h_rays a2) ->
    alike same_traced (trace r a1 g) (trace r a2 g).

  Lemma ambient_loop_alike trace m p nm e1 e2 depth n fuel : frames trace -> forgets trace ->
    forall loops count global r a1 a2 g, r_depth r = depth -> length (h_rays a1) = length (h_rays a2) ->
    nth_error (h_rays a1) depth = nth_error (h_rays a2) depth -> (exists r0, nth_error (h_rays a1) depth = Some r0 /\ r_depth r0 = depth) ->
    alike same_lit (ambient_loop trace loops fuel m p nm e1 e2 depth n count global r a1 g)
                   (ambient_loop trace loops fuel m p nm e1 e2 depth n count global r a2 g).
  Proof.
    intros HF HG. induction loops as [|loops IH]; intros count global r a1 a2 g Hr HL HN (r0 & H0 & D0); cbn [ambient_loop];
      destruct (Nat.ltb count n); try (cbn; auto; repeat split; auto; fail).
    apply alike_same. intros [[[bv pdf] r1] g1] SB. pose proof (sample_bsdf_keeps _ _ _ _ _ _ _ _ _ _ _ _ SB) as (K & _). cbv zeta.
    set (r2 := set_value _ _). assert (D2 : r_depth r2 = S depth) by (cbn; congruence).
    eapply alike_bind; [apply HG; exact HL|].
    intros [[[[l1 f1'] s1] b1] k1] [[[[l2 f2'] s2] b2] k2] T1 T2 (<- & <- & <- & <- & HL').
    apply HF in T1. apply HF in T2. rewrite D2 in T1, T2.
    assert (B1 : nth_error (h_rays b1) depth = Some r0) by (destruct T1 as [_ ->]; [exact H0|lia]).
    assert (B2 : nth_error (h_rays b2) depth = Some r0) by (destruct T2 as [_ ->]; [rewrite <- HN; exact H0|lia]).
    rewrite B1, B2. cbn [ret_opt obind].
    destruct (fltb f0 _); apply IH; try assumption; try congruence; exists r0; split; assumption.
  Qed.

  Lemma global_alike trace fuel n m r a1 a2 g : frames trace -> forgets trace -> length (h_rays a1) = length (h_rays a2) ->
    alike same_lit (get_global_illumination trace fuel n m r a1 g) (get_global_illumination trace fuel n m r a2 g).
  Proof.
    intros HF HG HL. unfold get_global_illumination. destruct (Nat.eqb n 0); [repeat split; exact HL|].
    destruct (get_triad r) as [[[p nm] e1] e2]. unfold store_ray. rewrite <- HL.
    destruct (Nat.ltb_spec (r_depth r) (length (h_rays a1))) as [L|L]; cbn [obind]; [|exact I].
    eapply alike_bind.
    - apply ambient_loop_alike; try assumption; try reflexivity; cbn [h_rays].
      + rewrite !set_nth_length. exact HL.
      + rewrite !set_nth_same by (try rewrite <- HL; exact L). reflexivity.
      + exists r. split; [apply set_nth_same; exact L|reflexivity].
    - intros [[[l1 s1] b1] k1] [[[l2 s2] b2] k2] _ _ (<- & <- & <- & HL'). repeat split. exact HL'.
  Qed.
  Lemma specular_path_alike trace c p li r a1 a2 g : forgets trace -> length (h_rays a1) = length (h_rays a2) ->
    alike same_lit (specular_path trace c p li r a1 g) (specular_path trace c p li r a2 g).
  Proof.
    intros HG HL. destruct p as [[nr bv]|]; cbn [specular_path]; [|repeat split; exact HL].
    destruct (gen g) as [q g1]. eapply alike_bind; [apply HG; exact HL|].
    intros [[[[l1 f1'] s1] b1] k1] [[[[l2 f2'] s2] b2] k2] _ _ (<- & _ & _ & <- & HL'). repeat split. exact HL'.
  Qed.

  Theorem trace_ray_forgets fuel c s : forall nest, forgets (trace_ray nest fuel c s).
  Proof.
    induction nest as [|nest IH]; intros r a1 a2 g HL; cbn [trace_ray]; [exact I|].
    eapply alike_bind; [apply cast_alike|]. intros [[h1 r1] n1] [[h2 r2] n2] _ _ H. cbn in H. injection H as <- <-. cbv zeta.
    destruct h1 as [i|]; [|destruct (see_sky s r1) as [[l pf] r2]; repeat split; exact HL].
    apply alike_same. intros [m|] _; [|repeat split; exact HL].
    destruct (get_triad r1) as [[[p nm] e1] e2]. destruct (emits_light m).
    { apply alike_same. intros t _. repeat split; exact HL. }
    destruct (Nat.ltb _ _); [repeat split; exact HL|].
    apply alike_same. intros ns _. destruct (specular_only m).
    - unfold specular_bounce. apply alike_same. intros [p1 p2] _.
      eapply alike_bind; [apply specular_path_alike; [exact IH|exact HL]|].
      intros [[[l1 s1] b1] k1] [[[l2 s2] b2] k2] _ _ (<- & <- & <- & HL1).
      eapply alike_bind; [apply specular_path_alike; [exact IH|exact HL1]|].
      intros [[[l3 s3] b3] k3] [[[l4 s4] b4] k4] _ _ (<- & <- & <- & HL2). repeat split; exact HL2.
    - unfold scatter. destruct (draw_n_ambient_samples c _ g) as [[na r3] g3].
      eapply alike_bind; [apply local_alike|]. intros [[lo nd] g4] [[lo2 nd2] g5] _ _ [H1 H2]. cbn in H1, H2. subst lo2 g5.
      eapply alike_bind; [apply global_alike; [apply trace_ray_frame|exact IH|exact HL]|].
      intros [[[l1 s1] b1] k1] [[[l2 s2] b2] k2] _ _ (<- & <- & <- & HL1). repeat split; exact HL1.
  Qed.
End Aux.
