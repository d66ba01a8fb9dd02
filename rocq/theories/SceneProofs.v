(** * Proofs about scene construction *)
From Coq Require Import Permutation.
From Verif Require Import Num Geometry Triangle Sphere Colour Ray Bvh Material Scene BvhProofs SpecScene.

Lemma nth_error_prefix {A} (l l' : list A) i x : nth_error l i = Some x -> nth_error (l ++ l') i = Some x.
Proof. intros H. rewrite nth_error_app1; [exact H|]. apply nth_error_Some. rewrite H. discriminate. Qed.

Section SceneProofs.
  Context {N : Num} {T : Trig N} {E : Ext}.

  Lemma mesh_sphere_lengths s : length (snd (mesh_sphere s)) = length (fst (mesh_sphere s)).
  Proof. unfold mesh_sphere, mesh_sphere_at. cbn [fst snd]. rewrite !map_length. reflexivity. Qed.

  Lemma mesh_facets p l ts ns : mesh_primitive p l = Ret (ts, ns) -> length ns = length ts /\ facets p = combine ts ns.
  Proof.
    destruct p as [s|t|c|s]; cbn [mesh_primitive facets].
    - intros H. assert (Hs : mesh_sphere s = (ts, ns)) by congruence. pose proof (mesh_sphere_lengths s) as L. rewrite Hs in L |- *.
      split; [exact L|reflexivity].
    - unfold mesh_triangle. cbv zeta. intros H. injection H as <- <-. split; [reflexivity|]. destruct t; reflexivity.
    - destruct l; [|discriminate]. intros H. injection H as <- <-. split; reflexivity.
    - destruct l; [|discriminate]. intros H. injection H as <- <-. split; reflexivity.
  Qed.

  Lemma records_app a b : aligned a ->
    records (mkArr (a_tri a ++ a_tri b) (a_front a ++ a_front b) (a_back a ++ a_back b) (a_norm a ++ a_norm b)) = records a ++ records b.
  Proof.
    intros (H1 & H2 & H3). unfold records. cbn [a_tri a_front a_back a_norm].
    rewrite !combine_app; rewrite ?combine_length; try lia. reflexivity.
  Qed.
  Lemma records_repeat : forall ts ns f b, length ns = length ts ->
    records (mkArr ts (repeat f (length ts)) (repeat b (length ts)) ns) = map (fun tn => (fst tn, f, b, snd tn)) (combine ts ns).
  Proof.
    unfold records. cbn [a_tri a_front a_back a_norm]. induction ts as [|t ts IH]; intros [|n ns] f b; cbn; try discriminate; [reflexivity|].
    intros H. injection H as H. rewrite IH by assumption. reflexivity.
  Qed.

  (** a successful push, in full *)
  Lemma push_object_inv s f b p s' : push_object s f b p = Ret s' ->
    exists mf mb ts ns l, nth_error (sc_materials s) f = Some mf /\ nth_error (sc_materials s) b = Some mb /\
      l = (emits_direct_light mf || emits_direct_light mb)%bool /\ mesh_primitive p l = Ret (ts, ns) /\
      s' = mkScene (mkArr (a_tri (sc_arrays s) ++ ts) (a_front (sc_arrays s) ++ repeat f (length ts))
                          (a_back (sc_arrays s) ++ repeat b (length ts)) (a_norm (sc_arrays s) ++ ns))
                   (sc_materials s)
                   (if (l && negb (id_is_source (prim_id p)))%bool then sc_lights s ++ [mkObject p f b] else sc_lights s)
                   (if (l && id_is_source (prim_id p))%bool then sc_distant_lights s ++ [mkObject p f b] else sc_distant_lights s)
                   (sc_accelerator s) (sc_sky_colour s) (sc_sky s).
  Proof.
    unfold push_object. destruct (nth_error (sc_materials s) f) as [mf|] eqn:Ef; [|discriminate].
    destruct (nth_error (sc_materials s) b) as [mb|] eqn:Eb; [|discriminate].
    unfold register_light. destruct (emits_direct_light mf || emits_direct_light mb)%bool eqn:L;
      [destruct (id_is_source (prim_id p)) eqn:S|]; cbn [fst snd];
      (destruct (mesh_primitive p _) as [[ts ns]| |] eqn:M; [|discriminate|discriminate]); cbn [obind];
      intros H; injection H as <-; exists mf, mb, ts, ns; (match type of M with mesh_primitive _ ?l = _ => exists l end); rewrite ?L, ?S;
      repeat split; try reflexivity; try assumption.
  Qed.

  (** invariants *)
  Definition indices_valid (s : Scene) : Prop :=
    Forall (fun i => i < length (sc_materials s)) (a_front (sc_arrays s)) /\
    Forall (fun i => i < length (sc_materials s)) (a_back (sc_arrays s)).

  Lemma install_inv s s' : install_accelerator s = Ret s' -> exists nodes a,
    bvh_new (length (a_tri (sc_arrays s))) (sc_arrays s) = Ret (nodes, a) /\ s' = set_accelerator (set_arrays s a) (Some nodes).
  Proof.
    unfold install_accelerator. destruct (bvh_new _ _) as [[nodes a]| |] eqn:B; cbn [obind]; try discriminate.
    intros H. injection H as <-. eauto.
  Qed.

  Lemma map_records_front a : aligned a -> map (fun r => snd (fst (fst r))) (records a) = a_front a.
  Proof.
    destruct a as [ts fs bs ns]. unfold records, aligned. cbn [a_tri a_front a_back a_norm].
    revert fs bs ns. induction ts as [|t ts IH]; intros [|f fs] [|b bs] [|n ns]; cbn; intros (H1 & H2 & H3); try discriminate; [reflexivity|].
    f_equal. apply IH. lia.
  Qed.
  Lemma map_records_back a : aligned a -> map (fun r => snd (fst r)) (records a) = a_back a.
  Proof.
    destruct a as [ts fs bs ns]. unfold records, aligned. cbn [a_tri a_front a_back a_norm].
    revert fs bs ns. induction ts as [|t ts IH]; intros [|f fs] [|b bs] [|n ns]; cbn; intros (H1 & H2 & H3); try discriminate; [reflexivity|].
    f_equal. apply IH. lia.
  Qed.
  Lemma map_records_tri a : aligned a -> map (fun r => fst (fst (fst r))) (records a) = a_tri a.
  Proof.
    destruct a as [ts fs bs ns]. unfold records, aligned. cbn [a_tri a_front a_back a_norm].
    revert fs bs ns. induction ts as [|t ts IH]; intros [|f fs] [|b bs] [|n ns]; cbn; intros (H1 & H2 & H3); try discriminate; [reflexivity|].
    f_equal. apply IH. lia.
  Qed.

  Definition inv (h : list op) (s : Scene) : Prop :=
    aligned (sc_arrays s) /\ indices_valid s /\
    Permutation (records (sc_arrays s)) (flat_map stored (objects_of h)) /\
    sc_materials s = materials_of h /\
    (forall f b p, In (f, b, p) (objects_of h) -> f < length (sc_materials s) /\ b < length (sc_materials s)) /\
    selected (fun o => luminous (sc_materials s) o /\ ~ distant (snd o)) as_object (objects_of h) (sc_lights s) /\
    selected (fun o => luminous (sc_materials s) o /\ distant (snd o)) as_object (objects_of h) (sc_distant_lights s).

  Lemma selected_app {A B} (P : A -> Prop) (f : A -> B) l1 l2 r1 r2 :
    selected P f l1 r1 -> selected P f l2 r2 -> selected P f (l1 ++ l2) (r1 ++ r2).
  Proof. induction 1; intros H2; cbn; [assumption|constructor; auto|constructor 3; auto]. Qed.
  Lemma selected_ext {A B} (P Q : A -> Prop) (f : A -> B) l r : (forall a, In a l -> P a <-> Q a) -> selected P f l r -> selected Q f l r.
  Proof.
    intros H S. induction S; [constructor| |].
    - constructor; [apply H; [left; reflexivity|assumption]|]. apply IHS. intros x Hx. apply H. right. assumption.
    - constructor 3; [rewrite <- H; [assumption|left; reflexivity]|]. apply IHS. intros x Hx. apply H. right. assumption.
  Qed.
  Lemma luminous_more ms m o : (let '(f, b, _) := o in f < length ms /\ b < length ms) -> luminous (ms ++ [m]) o <-> luminous ms o.
  Proof.
    destruct o as [[f b] p]. intros [Hf Hb]. unfold luminous. rewrite !nth_error_app1 by assumption. reflexivity.
  Qed.
  Lemma emits_is_light m : emits_direct_light m = true <-> is_light m.
  Proof. unfold is_light. destruct m; cbn; split; intros H; try discriminate; try (destruct H; discriminate); eauto. Qed.
  Lemma luminous_emits ms f b p mf mb : nth_error ms f = Some mf -> nth_error ms b = Some mb ->
    luminous ms (f, b, p) <-> (emits_direct_light mf || emits_direct_light mb)%bool = true.
  Proof.
    intros Hf Hb. unfold luminous. rewrite Hf, Hb, orb_true_iff, !emits_is_light. split.
    - intros (m & [H|H] & L); injection H as <-; tauto.
    - intros [H|H]; eexists; split; try exact H; tauto.
  Qed.
  Lemma distant_source p : distant p <-> id_is_source (prim_id p) = true.
  Proof. unfold distant. destruct p; cbn; split; intros H; try discriminate; try (destruct H; discriminate); eauto. Qed.

  Lemma inv_new : inv [] scene_new.
  Proof.
    repeat split; try constructor; cbn in *; try contradiction.
  Qed.

  Lemma inv_step (HP : perm_sorts E) h s o s' : inv h s -> step s o = Ret s' -> inv (h ++ [o]) s'.
  Proof.
    intros (Ha & (Hf & Hb) & Hr & Hm & Ho & Hl & Hd) Hs.
    assert (MO : materials_of (h ++ [o]) = materials_of h ++ materials_of [o]) by (unfold materials_of; apply flat_map_app).
    assert (OO : objects_of (h ++ [o]) = objects_of h ++ objects_of [o]) by (unfold objects_of; apply flat_map_app).
    assert (Hbuild : install_accelerator s = Ret s' -> objects_of [o] = [] -> materials_of [o] = [] -> inv (h ++ [o]) s').
    { intros HI E1 E2. unfold inv. rewrite MO, OO, E1, E2, !app_nil_r. destruct (install_inv _ _ HI) as (nodes & a & B & ->).
      destruct (build_permutation HP _ _ _ _ Ha B) as [Ha' Hp]. cbn [set_accelerator set_arrays sc_arrays sc_materials sc_lights sc_distant_lights].
      split; [exact Ha'|]. split.
      - unfold indices_valid. cbn [set_accelerator set_arrays sc_arrays sc_materials].
        rewrite <- (map_records_front _ Ha') , <- (map_records_back _ Ha').
        rewrite <- (map_records_front _ Ha) in Hf. rewrite <- (map_records_back _ Ha) in Hb.
        split; (eapply Permutation_Forall; [apply Permutation_map; symmetry; exact Hp|assumption]).
      - split; [etransitivity; eassumption|]. tauto. }
    destruct o as [m|f b p| | |g|g]; cbn [step] in Hs.
    - injection Hs as <-. unfold inv. rewrite MO, OO. cbn [objects_of materials_of flat_map app]. rewrite app_nil_r.
      cbn [push_material fst set_materials sc_arrays sc_materials sc_lights sc_distant_lights].
      split; [exact Ha|]. split.
      { unfold indices_valid. cbn [push_material fst set_materials sc_arrays sc_materials]. rewrite app_length.
        split; (eapply Forall_impl; [|eassumption]; cbn; intros; lia). }
      split; [exact Hr|]. split; [rewrite Hm; reflexivity|]. split.
      { intros f b p Hin. specialize (Ho f b p Hin). rewrite app_length. lia. }
      split; (eapply selected_ext; [|eassumption]); intros [[f b] p] Hin; specialize (Ho f b p Hin);
        pose proof (luminous_more (sc_materials s) m (f, b, p)) as L; cbn iota in L; rewrite (L Ho); reflexivity.
    - destruct (push_object_inv _ _ _ _ _ Hs) as (mf & mb & ts & ns & l & Ef & Eb & El & M & ->).
      destruct (mesh_facets _ _ _ _ M) as [Lns F].
      assert (Ff : f < length (sc_materials s)) by (apply nth_error_Some; rewrite Ef; discriminate).
      assert (Fb : b < length (sc_materials s)) by (apply nth_error_Some; rewrite Eb; discriminate).
      unfold inv. rewrite MO, OO. cbn [objects_of materials_of flat_map app]. rewrite app_nil_r.
      cbn [sc_arrays sc_materials sc_lights sc_distant_lights].
      destruct Ha as (A1 & A2 & A3).
      split; [|split; [|split; [|split; [exact Hm|split; [|split]]]]].
      + unfold aligned. cbn [a_tri a_front a_back a_norm]. rewrite !app_length, !repeat_length. lia.
      + unfold indices_valid. cbn [sc_arrays sc_materials a_front a_back]. rewrite !Forall_app. repeat split; try assumption;
          apply Forall_forall; intros x Hx; apply repeat_spec in Hx; lia.
      + rewrite flat_map_app. cbn [flat_map]. rewrite app_nil_r. unfold stored at 2. rewrite F.
        rewrite <- (records_repeat ts ns f b Lns).
        assert (RA := records_app (sc_arrays s) (mkArr ts (repeat f (length ts)) (repeat b (length ts)) ns) (conj A1 (conj A2 A3))).
        cbn [a_tri a_front a_back a_norm] in RA. rewrite RA.
        apply Permutation_app_tail. exact Hr.
      + intros f' b' p' Hin. apply in_app_iff in Hin. destruct Hin as [Hin|[Hin|[]]]; [eauto|]. injection Hin as <- <- <-. tauto.
      + pose proof (luminous_emits _ f b p _ _ Ef Eb) as LE. rewrite <- El in LE. pose proof (distant_source p) as DS.
        destruct l; destruct (id_is_source (prim_id p)); cbn [andb negb].
        * rewrite <- (app_nil_r (sc_lights s)). apply selected_app; [exact Hl|]. constructor 3; [|constructor]. cbn [snd]. tauto.
        * apply selected_app; [exact Hl|]. apply (sel_take _ as_object (f, b, p)); [|constructor]. cbn [snd].
          split; [tauto|]. intros D. apply DS in D. discriminate.
        * rewrite <- (app_nil_r (sc_lights s)). apply selected_app; [exact Hl|]. constructor 3; [|constructor]. cbn [snd]. tauto.
        * rewrite <- (app_nil_r (sc_lights s)). apply selected_app; [exact Hl|]. constructor 3; [|constructor]. cbn [snd].
          intros [D _]. apply LE in D. discriminate.
      + pose proof (luminous_emits _ f b p _ _ Ef Eb) as LE. rewrite <- El in LE. pose proof (distant_source p) as DS.
        destruct l; destruct (id_is_source (prim_id p)); cbn [andb negb].
        * apply selected_app; [exact Hd|]. apply (sel_take _ as_object (f, b, p)); [|constructor]. cbn [snd]. tauto.
        * rewrite <- (app_nil_r (sc_distant_lights s)). apply selected_app; [exact Hd|]. constructor 3; [|constructor]. cbn [snd].
          intros [_ D]. apply DS in D. discriminate.
        * rewrite <- (app_nil_r (sc_distant_lights s)). apply selected_app; [exact Hd|]. constructor 3; [|constructor]. cbn [snd].
          intros [D _]. apply LE in D. discriminate.
        * rewrite <- (app_nil_r (sc_distant_lights s)). apply selected_app; [exact Hd|]. constructor 3; [|constructor]. cbn [snd].
          intros [D _]. apply LE in D. discriminate.
    - unfold build_accelerator in Hs. destruct (sc_accelerator s); [discriminate|]. apply Hbuild; try exact Hs; reflexivity.
    - apply Hbuild; try exact Hs; reflexivity.
    - injection Hs as <-. unfold inv. rewrite MO, OO. cbn [objects_of materials_of flat_map app]. rewrite !app_nil_r.
      cbn [set_sky sc_arrays sc_materials sc_lights sc_distant_lights]. unfold indices_valid in *. tauto.
    - injection Hs as <-. unfold inv. rewrite MO, OO. cbn [objects_of materials_of flat_map app]. rewrite !app_nil_r.
      cbn [set_sky_colour sc_arrays sc_materials sc_lights sc_distant_lights]. unfold indices_valid in *. tauto.
  Qed.

  Lemma inv_play (HP : perm_sorts E) : forall h' h s s', inv h s -> play s h' = Ret s' -> inv (h ++ h') s'.
  Proof.
    induction h' as [|o h' IH]; cbn [play]; intros h s s' HI Hp.
    - injection Hp as <-. rewrite app_nil_r. exact HI.
    - destruct (step s o) as [s1| |] eqn:S; cbn [obind] in Hp; try discriminate.
      replace (h ++ o :: h') with ((h ++ [o]) ++ h') by (rewrite <- app_assoc; reflexivity).
      eapply IH; [|exact Hp]. eapply inv_step; eassumption.
  Qed.

  (** materials only grow *)
  Lemma step_materials s o s' : step s o = Ret s' -> sc_materials s' = sc_materials s ++ materials_of [o].
  Proof.
    destruct o as [m|f b p| | |g|g]; cbn [step materials_of flat_map app]; rewrite ?app_nil_r.
    - intros H. injection H as <-. reflexivity.
    - intros H. destruct (push_object_inv _ _ _ _ _ H) as (mf & mb & ts & ns & l & _ & _ & _ & _ & ->). reflexivity.
    - unfold build_accelerator. destruct (sc_accelerator s); [discriminate|]. intros H. destruct (install_inv _ _ H) as (n & a & _ & ->). reflexivity.
    - intros H. destruct (install_inv _ _ H) as (n & a & _ & ->). reflexivity.
    - intros H. injection H as <-. reflexivity.
    - intros H. injection H as <-. reflexivity.
  Qed.
  Lemma play_materials : forall h s s', play s h = Ret s' -> sc_materials s' = sc_materials s ++ materials_of h.
  Proof.
    induction h as [|o h IH]; cbn [play]; intros s s' H.
    - injection H as <-. cbn. rewrite app_nil_r. reflexivity.
    - destruct (step s o) as [s1| |] eqn:S; cbn [obind] in H; try discriminate.
      rewrite (IH _ _ H), (step_materials _ _ _ S). rewrite <- app_assoc. f_equal.
      unfold materials_of. cbn [flat_map]. rewrite app_nil_r. reflexivity.
  Qed.

  (** a query that succeeds is not affected by triangles appended after the build *)
  Lemma sliceZ_more {A} (l l' : list A) a b x : sliceZ l a b = Some x -> sliceZ (l ++ l') a b = Some x.
  Proof.
    unfold sliceZ. destruct (0 <=? a)%Z eqn:E1; cbn [andb]; [|discriminate].
    destruct (a <=? b)%Z eqn:E2; cbn [andb]; [|discriminate].
    destruct (b <=? Z.of_nat (length l))%Z eqn:E3; [|discriminate]. intros H.
    rewrite app_length. replace (b <=? Z.of_nat (length l + length l'))%Z with true by (symmetry; apply Z.leb_le; lia).
    rewrite <- H. f_equal. rewrite skipn_app, firstn_app.
    replace (Z.to_nat (b - a) - length (skipn (Z.to_nat a) l)) with 0 by (rewrite skipn_length; lia).
    rewrite firstn_O, app_nil_r. reflexivity.
  Qed.
  Lemma isect_more nodes prims extra ray : forall fuel cur st best x,
    isect_loop fuel nodes prims ray cur st best = Ret x -> isect_loop fuel nodes (prims ++ extra) ray cur st best = Ret x.
  Proof.
    induction fuel as [|k IH]; intros cur st best x; cbn [isect_loop]; [discriminate|].
    destruct (nthZ nodes cur) as [nd|]; [|discriminate].
    destruct (bbox_hit _ _ _).
    - destruct (is_leaf nd).
      + cbv zeta. destruct (sliceZ prims _ _) as [ts|] eqn:S; [|discriminate]. rewrite (sliceZ_more _ _ _ _ _ S).
        destruct st; auto.
      + destruct (dir_is_neg _ _); apply IH.
    - destruct st; auto.
  Qed.
  Lemma intersect_more fuel nodes prims extra r aux x :
    intersect fuel nodes prims r aux = Ret x -> intersect fuel nodes (prims ++ extra) r aux = Ret x.
  Proof.
    unfold intersect. destruct nodes as [|nd nodes]; [auto|]. cbv zeta.
    destruct (isect_loop fuel (nd :: nodes) prims _ _ _ _) as [[b st]| |] eqn:L; cbn [obind]; try discriminate.
    rewrite (isect_more _ _ extra _ _ _ _ _ _ L). cbn [obind]. auto.
  Qed.
  Lemma shadow_more nodes prims extra ray d2 : forall fuel cur st x,
    shadow_loop fuel nodes prims ray d2 cur st = Ret x -> shadow_loop fuel nodes (prims ++ extra) ray d2 cur st = Ret x.
  Proof.
    induction fuel as [|k IH]; intros cur st x; cbn [shadow_loop]; [discriminate|].
    destruct (nthZ nodes cur) as [nd|]; [|discriminate].
    destruct (bbox_hit _ _ _).
    - destruct (is_leaf nd).
      + cbv zeta. destruct (sliceZ prims _ _) as [ts|] eqn:S; [|discriminate]. rewrite (sliceZ_more _ _ _ _ _ S).
        destruct (existsb _ _); [auto|]. destruct st; auto.
      + destruct (dir_is_neg _ _); apply IH.
    - destruct st; auto.
  Qed.
End SceneProofs.
