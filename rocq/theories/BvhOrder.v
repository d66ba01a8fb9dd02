(** * Closest-hit and shadow answers of the traversal, for every arithmetic whose `<` is a strict order
      (IEEE `<` is one, NaN included; so is the order of the reals). *)
From Coq Require Import Permutation.
From Verif Require Import Num Geometry Triangle Ray Bvh BvhProofs.
Open Scope nat_scope.

Definition strict_order (N : Num) : Prop :=
  (forall x : F, fltb x x = false) /\
  (forall x y z : F, fltb x y = true -> fltb y z = true -> fltb x z = true).

Section Order.
  Context {N : Num} {E : Ext}.
  Hypothesis HO : strict_order N.

  (** triangle [t] is hit by [ray] at squared distance [t2] beyond the minimum distance *)
  Definition tri_hit (ray : Ray3D) (t : Triangle) (t2 : F) (info : IntersectionInfo) : Prop :=
    triangle_intersect t ray = Some info /\ t2 = vlen2 (vsub (i_p info) (origin ray)) /\ fltb MIN_T7 t2 = true.

  (** what a loop over some triangles may do to the best hit so far *)
  Definition improves (ray : Ray3D) (dom : Z -> option Triangle) (best r : Best) : Prop :=
    r = best \/
    (exists i t t2 info, dom i = Some t /\ tri_hit ray t t2 info /\ r = mkBest (Some i) t2 (Some info) /\
        fltb t2 (b_t2 best) = true).

  Lemma not_lt_trans t2 a b : fltb t2 a = false -> (b = a \/ fltb b a = true) -> fltb t2 b = false.
  Proof.
    intros H [->|H']; [assumption|]. destruct (fltb t2 b) eqn:D; [|reflexivity].
    rewrite (proj2 HO _ _ _ D H') in H. discriminate.
  Qed.

  Lemma improves_t2 ray dom best r : improves ray dom best r -> b_t2 r = b_t2 best \/ fltb (b_t2 r) (b_t2 best) = true.
  Proof. intros [->|(i & t & t2 & info & _ & _ & -> & H)]; auto. Qed.

  Lemma improves_trans ray dom a b c : improves ray dom a b -> improves ray dom b c -> improves ray dom a c.
  Proof.
    intros H1 H2. destruct H2 as [->|(i & t & t2 & info & D & T & -> & L)]; [assumption|].
    right. exists i, t, t2, info. repeat split; try assumption; try apply T.
    destruct (improves_t2 _ _ _ _ H1) as [Eq|Lt]; [rewrite Eq in L; assumption|]. eapply HO; eassumption.
  Qed.

  Lemma leaf_loop_spec ray ts : forall n best (dom : Z -> option Triangle),
    (forall k t, nth_error ts k = Some t -> dom (n + Z.of_nat k)%Z = Some t) ->
    let r := leaf_loop ray n ts best in
    improves ray dom best r /\
    (forall k t t2 info, nth_error ts k = Some t -> tri_hit ray t t2 info -> fltb t2 (b_t2 r) = false).
  Proof.
    induction ts as [|t ts IH]; intros n best dom Hdom; cbn [leaf_loop].
    - split; [left; reflexivity|]. intros [|k]; discriminate.
    - set (best' := match triangle_intersect t ray with
                    | Some info => let t2 := vlen2 (vsub (i_p info) (origin ray)) in
                        if (fltb MIN_T7 t2 && fltb t2 (b_t2 best))%bool then mkBest (Some n) t2 (Some info) else best
                    | None => best end).
      destruct (IH (n + 1)%Z best' dom) as [I1 I2].
      { intros k t' Hk. rewrite <- (Hdom (S k) t' Hk). f_equal. lia. }
      assert (HB : improves ray dom best best' /\
                   (forall t2 info, tri_hit ray t t2 info -> fltb t2 (b_t2 best') = false)).
      { unfold best'. destruct (triangle_intersect t ray) as [info|] eqn:T; cbv zeta.
        - destruct (fltb MIN_T7 _) eqn:M; cbn [andb].
          + destruct (fltb _ (b_t2 best)) eqn:L.
            * split.
              -- right. exists n, t, (vlen2 (vsub (i_p info) (origin ray))), info.
                 repeat split; try assumption. rewrite <- (Hdom 0 t eq_refl). f_equal. lia.
              -- intros t2 info' (T' & -> & _). rewrite T in T'. injection T' as <-. cbn [b_t2]. apply HO.
            * split; [left; reflexivity|]. intros t2 info' (T' & -> & _). rewrite T in T'. injection T' as <-. assumption.
          + split; [left; reflexivity|]. intros t2 info' (T' & -> & M'). rewrite T in T'. injection T' as <-. congruence.
        - split; [left; reflexivity|]. intros t2 info' (T' & _). congruence. }
      destruct HB as [HB1 HB2]. split.
      + eapply improves_trans; eassumption.
      + intros [|k] t' t2 info Hk HT; cbn [nth_error] in Hk.
        * injection Hk as <-. eapply not_lt_trans; [apply (HB2 _ _ HT)|]. eapply improves_t2; eassumption.
        * eapply I2; eassumption.
  Qed.

  Variable prims : list Triangle.
  Variable ray : Ray3D.

  (** primitive j lies under node [nd], and no box on the way is missed by the ray *)
  Fixpoint reached (nd : Node) (j : nat) : Prop :=
    match nd with
    | Leaf b first n => bbox_hit b ray (inv_dir ray) = true /\ first <= j < first + n
    | Inner b _ c1 c2 => bbox_hit b ray (inv_dir ray) = true /\ (reached c1 j \/ reached c2 j)
    end.

  Lemma slice_nth first n k : k < n -> nth_error (slice prims first n) k = nth_error prims (first + k).
  Proof.
    intros H. unfold slice.
    assert (G : forall (l : list Triangle) m i, i < m -> nth_error (firstn m l) i = nth_error l i).
    { induction l as [|x l IHl]; intros [|m] [|i] Hm; cbn; try reflexivity; try lia. apply IHl. lia. }
    rewrite G by assumption. clear.
    revert prims. induction first as [|f IH]; intros [|x l]; cbn; try reflexivity; try apply IH.
    destruct k; reflexivity.
  Qed.

  Lemma visit_spec nd : forall best, in_prims prims nd ->
    let r := visit prims ray nd best in
    improves ray (nthZ prims) best r /\
    (forall j t t2 info, reached nd j -> nth_error prims j = Some t -> tri_hit ray t t2 info -> fltb t2 (b_t2 r) = false).
  Proof.
    induction nd as [b first n|b ax c1 IH1 c2 IH2]; intros best HI; cbn [visit reached in_prims] in *.
    - destruct (bbox_hit b ray (inv_dir ray)) eqn:HB.
      + destruct (leaf_loop_spec ray (slice prims first n) (Z.of_nat first) best (nthZ prims)) as [L1 L2].
        { intros k t Hk.
          assert (k < n).
          { assert (k < length (slice prims first n)) by (apply nth_error_Some; congruence).
            unfold slice in *. rewrite firstn_length in *. lia. }
          rewrite slice_nth in Hk by assumption.
          rewrite <- (nthZ_nat _ _ _ Hk). f_equal. lia. }
        split; [assumption|]. intros j t t2 info [_ Hj] Ht Hit. eapply (L2 (j - first)); [|eassumption].
        rewrite slice_nth by lia. rewrite <- Ht. f_equal. lia.
      + split; [left; reflexivity|]. intros j t t2 info [H _]. congruence.
    - destruct HI as [HI1 HI2]. destruct (bbox_hit b ray (inv_dir ray)) eqn:HB.
      + destruct (dir_is_neg ray ax).
        * destruct (IH2 best HI2) as [A1 A2]. destruct (IH1 (visit prims ray c2 best) HI1) as [B1 B2].
          split; [eapply improves_trans; eassumption|].
          intros j t t2 info [_ [R|R]] Ht Hit; [eapply B2; eassumption|].
          eapply not_lt_trans; [eapply A2; eassumption|]. eapply improves_t2; eassumption.
        * destruct (IH1 best HI1) as [A1 A2]. destruct (IH2 (visit prims ray c1 best) HI2) as [B1 B2].
          split; [eapply improves_trans; eassumption|].
          intros j t t2 info [_ [R|R]] Ht Hit; [|eapply B2; eassumption].
          eapply not_lt_trans; [eapply A2; eassumption|]. eapply improves_t2; eassumption.
      + split; [left; reflexivity|]. intros j t t2 info [H _]. congruence.
  Qed.

  (** shadow traversal: sound, and complete for the primitives that are reached *)
  Lemma existsb_slice d2 first n : existsb (blocks ray d2) (slice prims first n) = true <->
    exists j t, first <= j < first + n /\ nth_error prims j = Some t /\ blocks ray d2 t = true.
  Proof.
    rewrite existsb_exists. split.
    - intros (t & Hin & Hb). apply In_nth_error in Hin as [k Hk].
      assert (k < n).
      { assert (k < length (slice prims first n)) by (apply nth_error_Some; congruence).
        unfold slice in *. rewrite firstn_length in *. lia. }
      rewrite slice_nth in Hk by assumption. exists (first + k), t. repeat split; try lia; assumption.
    - intros (j & t & Hj & Ht & Hb). exists t. split; [|assumption].
      apply nth_error_In with (n := j - first). rewrite slice_nth by lia. rewrite <- Ht. f_equal. lia.
  Qed.

  Lemma svisit_spec d2 nd :
    svisit prims ray d2 nd = true <->
    exists j t, reached nd j /\ nth_error prims j = Some t /\ blocks ray d2 t = true.
  Proof.
    induction nd as [b first n|b ax c1 IH1 c2 IH2]; cbn [svisit reached].
    - rewrite Bool.andb_true_iff, existsb_slice. split.
      + intros [HB (j & t & Hj & Ht & Hb)]. exists j, t. auto.
      + intros (j & t & [HB Hj] & Ht & Hb). split; [assumption|]. exists j, t. auto.
    - rewrite Bool.andb_true_iff, Bool.orb_true_iff, IH1, IH2. split.
      + intros [HB [(j & t & R & Ht & Hb)|(j & t & R & Ht & Hb)]]; exists j, t; auto.
      + intros (j & t & [HB [R|R]] & Ht & Hb); split; try assumption; [left|right]; exists j, t; auto.
  Qed.
End Order.

(** ** Whole queries on a freshly built accelerator *)
Section Query.
  Context {N : Num} {E : Ext}.

  (** the tree a build produced *)
  Definition built (fuel : nat) (scene : Arrays) (root : Node) (nodes : list FlatNode) (scene' : Arrays) : Prop :=
    aligned scene /\ a_tri scene <> [] /\
    recursive_build fuel scene (infos_of (a_tri scene)) empty_arrays = Ret (root, scene') /\
    nodes = snd (flatten_node root []).

  Lemma built_facts (HP : perm_sorts E) fuel scene root nodes scene' m :
    built fuel scene root nodes scene' ->
    leaves_le m root -> (Z.of_nat m < 2 ^ 15)%Z -> (Z.of_nat (length (a_tri scene)) <= 2 ^ 30)%Z ->
    length (a_tri scene') = length (a_tri scene) /\ covers 0 (length (a_tri scene)) root /\
    layout nodes 0 root /\ in_prims (a_tri scene') root /\ (Z.of_nat (length nodes) < 2 ^ 31)%Z /\
    length nodes = nsize root /\ nodes <> [] /\ 0 < length (a_tri scene).
  Proof.
    intros (Ha & Hne & HB & ->) Hm H15 H30.
    assert (Ha0 : aligned empty_arrays) by (repeat split).
    destruct (build_spec HP _ _ _ _ _ _ Ha0 HB) as (Ha' & HL & Hc & _).
    rewrite infos_of_length in HL, Hc. cbn [a_tri empty_arrays length Nat.add] in HL, Hc.
    rewrite flatten_flat. cbn [snd length app].
    pose proof (covers_nsize _ _ _ Hc) as Hns.
    assert (Hf : fits root) by (eapply covers_fits; try eassumption; cbn; lia).
    assert (Hlay : layout (flat 0 root) 0 root).
    { pose proof (flat_layout root [] [] Hf) as G. cbn [length app] in G. rewrite app_nil_r in G. apply G. lia. }
    split; [assumption|]. split; [assumption|]. split; [assumption|].
    split; [eapply covers_in_prims; [eassumption|lia]|].
    rewrite flat_length. split; [lia|]. split; [reflexivity|].
    split; [intros D; apply (f_equal (@length _)) in D; rewrite flat_length in D; pose proof (nsize_pos root); cbn in D; lia|].
    destruct (a_tri scene); [congruence|cbn; lia].
  Qed.

  (** valid hit: beyond the minimum distance and within the finite range *)
  Definition valid_hit (prims : list Triangle) (ray : Ray3D) (j : nat) (t2 : F) (info : IntersectionInfo) : Prop :=
    exists t, nth_error prims j = Some t /\ tri_hit ray t t2 info /\ fltb t2 FMAX = true.

  Definition hit_ray (r : Ray) (t2 : F) (info : IntersectionInfo) : Ray :=
    set_interaction r (mkInter (project (r_geometry r) (fsqrt t2)) (vscale (direction (r_geometry r)) (fneg f1)) info).

  Theorem intersect_generic (HO : strict_order N) (HP : perm_sorts E) bfuel scene root nodes scene' m :
    built bfuel scene root nodes scene' ->
    leaves_le m root -> (Z.of_nat m < 2 ^ 15)%Z -> (Z.of_nat (length (a_tri scene)) <= 2 ^ 30)%Z ->
    forall fuel r aux, length nodes <= fuel ->
    (exists j t2 info,
        intersect fuel nodes (a_tri scene') r aux = Ret (Some (Z.of_nat j), hit_ray r t2 info, []) /\
        valid_hit (a_tri scene') (r_geometry r) j t2 info /\
        forall j' t2' info', reached (r_geometry r) root j' -> valid_hit (a_tri scene') (r_geometry r) j' t2' info' ->
                             fltb t2' t2 = false) \/
    (intersect fuel nodes (a_tri scene') r aux = Ret (None, r, []) /\
     forall j' t2' info', reached (r_geometry r) root j' -> ~ valid_hit (a_tri scene') (r_geometry r) j' t2' info').
  Proof.
    intros HB Hm H15 H30 fuel r aux Hfuel.
    destruct (built_facts HP _ _ _ _ _ _ HB Hm H15 H30) as (HL & Hc & Hlay & Hin & Hsm & Hlen & Hne & Hpos).
    destruct (isect_visit (a_tri scene') ltac:(lia) nodes ltac:(lia) (r_geometry r) root 0 Hlay Hin) as (k & Hk & Q).
    specialize (Q (fuel - k) [] (mkBest None FMAX None)).
    replace (k + (fuel - k)) with fuel in Q by lia. cbn [Z.of_nat] in Q.
    destruct (visit_spec HO (a_tri scene') (r_geometry r) root (mkBest None FMAX None) Hin) as [I C].
    unfold intersect. destruct nodes as [|n0 nodes']; [congruence|].
    unfold truncate0. cbn [firstn]. rewrite Q. cbn [obind].
    destruct I as [I|(i & t & t2 & info & D & T & I & L)].
    - right. rewrite I. cbn [b_index]. split; [reflexivity|].
      intros j' t2' info' R (t & Ht & Hit & Hlt). specialize (C _ _ _ _ R Ht Hit).
      rewrite I in C. cbn [b_t2] in C. congruence.
    - left. unfold nthZ in D.
      destruct ((0 <=? i)%Z && (i <? Z.of_nat (length (a_tri scene')))%Z)%bool eqn:Bi; [|discriminate].
      apply andb_prop in Bi as [B1 B2]. apply Z.leb_le in B1. apply Z.ltb_lt in B2.
      exists (Z.to_nat i), t2, info. rewrite I. cbn [b_index b_info b_t2].
      rewrite Z2Nat.id by assumption. split; [reflexivity|]. split.
      + exists t. auto.
      + intros j' t2' info' R (t' & Ht & Hit & Hlt). specialize (C _ _ _ _ R Ht Hit). rewrite I in C. assumption.
  Qed.

  Theorem shadow_generic (HP : perm_sorts E) bfuel scene root nodes scene' m :
    built bfuel scene root nodes scene' ->
    leaves_le m root -> (Z.of_nat m < 2 ^ 15)%Z -> (Z.of_nat (length (a_tri scene)) <= 2 ^ 30)%Z ->
    forall fuel ray d2 aux, length nodes <= fuel ->
    exists b st, unobstructed_distance fuel nodes (a_tri scene') ray d2 aux = Ret (b, st) /\
      (b = false <-> exists j t, reached ray root j /\ nth_error (a_tri scene') j = Some t /\ blocks ray d2 t = true).
  Proof.
    intros HB Hm H15 H30 fuel ray d2 aux Hfuel.
    destruct (built_facts HP _ _ _ _ _ _ HB Hm H15 H30) as (HL & Hc & Hlay & Hin & Hsm & Hlen & Hne & Hpos).
    destruct (shadow_visit (a_tri scene') ltac:(lia) nodes ltac:(lia) ray d2 root 0 Hlay Hin) as (k & Hk & Q & R).
    unfold unobstructed_distance. destruct nodes as [|n0 nodes']; [congruence|].
    unfold truncate0. cbn [firstn]. replace fuel with (k + (fuel - k)) by lia.
    destruct (svisit (a_tri scene') ray d2 root) eqn:S.
    - destruct (R eq_refl (fuel - k) []) as [st Hst]. exists false, st. split; [assumption|].
      split; [intros _; apply svisit_spec; assumption|reflexivity].
    - exists true, []. split; [apply (Q eq_refl)|]. split; [discriminate|].
      intros H. apply svisit_spec in H. congruence.
  Qed.
End Query.
