(** * TracerAny: scenes built by a history, ready for tracing, in any arithmetic whose [<] is a strict order (binary64 with NaN and
      infinities included) *)
From Coq Require Import Permutation.
From Verif Require Import Num Geometry Triangle Sphere Colour Ray Bvh BvhProofs BvhOrder Material Scene Samplers Primitives RayTracer TracerProofs TracerSafe
  SpecScene SceneProofs P_Bvh.

Section Any.
  Context {N : Num} {T : Trig N} {E : Ext} {RG : Gen N} {GO : Geo}.
  Hypothesis HO : strict_order N.
  Hypothesis HP : perm_sorts E.

  (** nothing in the history that the light sampling cannot handle: no cylinder, and distant sources with a direction that the
      library's perpendicular routine accepts *)
  Definition samplable_any (h : list op) : Prop := forall f b p, In (f, b, p) (objects_of h) ->
    (forall c, p <> PCylinder c) /\ (forall d, p = PSource d -> get_perpendicular (vnormalized (ds_direction d)) <> None).

  Lemma any_selected_in {A B} (P : A -> Prop) (f : A -> B) l r x : selected P f l r -> In x r -> exists a, In a l /\ x = f a.
  Proof.
    induction 1 as [|a l r Ha HS IH|a l r Ha HS IH]; intros Hx; [destruct Hx| |].
    - destruct Hx as [<-|Hx]; [exists a; split; [left; reflexivity|reflexivity]|]. destruct (IH Hx) as (b & Hb & ->). exists b. split; [right|]; auto.
    - destruct (IH Hx) as (b & Hb & ->). exists b. split; [right|]; auto.
  Qed.

  Lemma any_queries bfuel scene nodes scene' : aligned scene -> (Z.of_nat (length (a_tri scene)) < 2 ^ 15)%Z ->
    bvh_new bfuel scene = Ret (nodes, scene') ->
    forall fuel aux, (2 * length (a_tri scene) <= fuel)%nat ->
    (forall r, exists o r' aux', intersect fuel nodes (a_tri scene') r aux = Ret (o, r', aux') /\
       match o with Some i => (Z.to_nat i < length (a_tri scene'))%nat | None => True end) /\
    (forall ray d2, exists b aux', unobstructed_distance fuel nodes (a_tri scene') ray d2 aux = Ret (b, aux')).
  Proof.
    intros Ha Hn HB fuel aux Hf. unfold bvh_new in HB.
    destruct (Nat.eqb_spec (length (a_tri scene)) 0) as [D|D].
    { injection HB as <- <-. split; intros; cbn; do 2 eexists; [eexists; split; [reflexivity|exact I]|reflexivity]. }
    destruct (recursive_build _ _ _ _) as [[root o]| |] eqn:R; try discriminate. cbn [obind] in HB. injection HB as <- <-.
    assert (Hb : built bfuel scene root (snd (flatten_node root [])) o).
    { split; [exact Ha|]. split; [intros Z; rewrite Z in D; apply D; reflexivity|]. split; [exact R|reflexivity]. }
    assert (Ha0 : aligned (@empty_arrays N)) by (repeat split).
    destruct (build_spec HP _ _ _ _ _ _ Ha0 R) as (_ & _ & Hc & _). rewrite infos_of_length in Hc. cbn [empty_arrays a_tri length] in Hc.
    pose proof (covers_leaves_le _ _ _ Hc) as Hl. pose proof (covers_nsize _ _ _ Hc) as Hns.
    assert (Hlen : (length (snd (flatten_node root [])) <= fuel)%nat).
    { rewrite flatten_flat. cbn [snd app]. rewrite flat_length. lia. }
    split.
    - intros r. destruct (intersect_generic HO HP _ _ _ _ _ _ Hb Hl Hn ltac:(lia) fuel r aux Hlen) as [(j & t2 & info & H & (t & Ht & _) & _)|[H _]].
      + do 3 eexists. split; [exact H|]. cbn. rewrite Nat2Z.id. apply nth_error_Some. congruence.
      + do 3 eexists. split; [exact H|exact I].
    - intros ray d2. destruct (shadow_generic HP _ _ _ _ _ _ Hb Hl Hn ltac:(lia) fuel ray d2 aux Hlen) as (b & st & H & _); eauto.
  Qed.

  Lemma any_prepared h s0 s : play scene_new h = Ret s0 -> rebuild_accelerator s0 = Ret s ->
    (Z.of_nat (length (a_tri (sc_arrays s0))) < 2 ^ 15)%Z -> samplable_any h ->
    sc_materials s = sc_materials s0 /\ sc_lights s = sc_lights s0 /\ sc_distant_lights s = sc_distant_lights s0 /\ sc_sky s = sc_sky s0 /\
    forall fuel, (2 * length (a_tri (sc_arrays s0)) <= fuel)%nat -> prepared fuel s.
  Proof.
    intros H HB Hn HS. destruct (install_inv _ _ HB) as (nodes & a' & B & ->). do 4 (split; [reflexivity|]). intros fuel Hf.
    pose proof (inv_play HP h [] scene_new s0 inv_new H) as HI0. cbn [app] in HI0.
    assert (HI : inv (h ++ [Rebuild]) (set_accelerator (set_arrays s0 a') (Some nodes))).
    { eapply inv_step; [exact HP|exact HI0|]. exact HB. }
    destruct HI as (Ha & (Hif & Hib) & _ & _ & Hobj & HL & HD).
    assert (Ha0 : aligned (sc_arrays s0)) by apply HI0.
    assert (OO : objects_of (h ++ [Rebuild]) = objects_of h) by (unfold objects_of; rewrite flat_map_app; cbn; apply app_nil_r).
    rewrite OO in *.
    assert (VL : forall (P : nat * nat * Primitive -> Prop) ls, selected P as_object (objects_of h) ls -> Forall (valid_light (set_accelerator (set_arrays s0 a') (Some nodes))) ls).
    { intros P ls HSel. apply Forall_forall. intros l Hin. destruct (any_selected_in _ _ _ _ _ HSel Hin) as ([[f b] p] & Ho & ->).
      destruct (Hobj _ _ _ Ho) as [Hf' Hb']. destruct (HS _ _ _ Ho) as [HS1 HS2]. unfold valid_light. cbn [as_object ob_front ob_back ob_primitive].
      split; [exact Hf'|]. split; [exact Hb'|]. split; [exact HS1|exact HS2]. }
    split; [|split; [|split; [exact Ha|split; [|split; [|split]]]]].
    - intros r aux. exact (proj1 (any_queries _ _ _ _ Ha0 Hn B fuel aux Hf) r).
    - intros ray d2 aux. exact (proj2 (any_queries _ _ _ _ Ha0 Hn B fuel aux Hf) ray d2).
    - exact Hif.
    - exact Hib.
    - eapply VL. exact HL.
    - eapply VL. exact HD.
  Qed.

  (** a surface whose samples never take the glossy branch of the Ward model, whatever is drawn; mirrors, panes and lamps *)
  Definition never_glossy (m : Material) : Prop :=
    match m with Plastic _ sp _ | Metal _ sp _ => forall g, fltb (fst (gen g)) sp = false | _ => True end.
  Lemma never_glossy_safe m : scatters m -> never_glossy m -> samples_safely m.
  Proof.
    intros HM HN fuel normal e1 e2 p r g. assert (HPl : plain m) by (destruct HM as [(c & sp & ro & ->)|(c & sp & ro & ->)]; exact HN).
    destruct (sample_bsdf_returns fuel m normal e1 e2 p r g HM HPl) as [x ->]. discriminate.
  Qed.
End Any.
