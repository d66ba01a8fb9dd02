(** * Ray queries against the built accelerator (real arithmetic) *)
From Coq Require Import Permutation Sorted.
From Verif Require Import NumR Geometry Triangle SpecGeom TriangleProofs Ray Bvh BvhProofs BvhOrder BvhReal BvhReal2 SpecBvh.
Open Scope R_scope.

Lemma centre_box t ax : centre t ax = box_centre ax t.
Proof.
  unfold centre, box_centre, mid, world_bounds.
  destruct (comp_union_point ax (box_union_point (box_point (ta t)) (tb t)) (tc t)) as [-> ->].
  destruct (comp_union_point ax (box_point (ta t)) (tb t)) as [-> ->]. cbn [box_point bmin bmax].
  assert (Gm : forall a b : R, @fminb NumR a b = Rmin a b).
  { intros a b. unfold fminb, Rmin. rsimp. destruct (Rltb_spec b a), (Rle_dec a b); lra. }
  assert (GM : forall a b : R, @fmaxb NumR a b = Rmax a b).
  { intros a b. unfold fmaxb, Rmax. rsimp. destruct (Rltb_spec a b), (Rle_dec a b); lra. }
  unfold Rmin3, Rmax3. rewrite <- !Gm, <- !GM. reflexivity.
Qed.

Lemma skipn_plus {A} (a b : nat) : forall l : list A, skipn a (skipn b l) = skipn (b + a) l.
Proof. induction b as [|b IH]; intros [|x l]; cbn; try reflexivity; [apply skipn_nil|apply IH]. Qed.
Lemma slice_split (l : list TriR) first n : Permutation l (slice l first n ++ (firstn first l ++ skipn (first + n) l)).
Proof.
  unfold slice. rewrite <- (firstn_skipn first l) at 1. rewrite <- (firstn_skipn n (skipn first l)) at 1.
  rewrite skipn_plus. rewrite Permutation_app_swap_app. reflexivity.
Qed.

Definition LEAF : nat := Z.to_nat 32767.
Lemma tight_leaves_le prims nd : in_prims prims nd -> tight_leaves prims nd -> uncrowded prims -> leaves_le LEAF nd.
Proof.
  intros HI HT HU. induction nd as [b first n|b ax c1 IH1 c2 IH2]; cbn [in_prims tight_leaves leaves_le] in *; [|tauto].
  unfold LEAF. destruct HT as [HT|HT]; [lia|].
  assert (HL : length (slice prims first n) = n) by (unfold slice; rewrite firstn_length, skipn_length; lia).
  assert (G : (Z.of_nat (length (slice prims first n)) < 2 ^ 15)%Z); [|lia]. apply (HU _ _ (slice_split prims first n)).
  assert (Hin : forall t, In t (slice prims first n) -> exists j, (first <= j < first + n)%nat /\ nth_error prims j = Some t).
  { intros t Ht. apply In_nth_error in Ht as [k Hk].
    assert (k < n)%nat by (rewrite <- HL; apply nth_error_Some; congruence).
    rewrite slice_nth in Hk by assumption. exists (first + k)%nat. split; [lia|assumption]. }
  intros t t' ax Ht Ht'. destruct (Hin t Ht) as (j & Hj & Ej), (Hin t' Ht') as (j' & Hj' & Ej').
  rewrite <- !centre_box. exact (HT j j' t t' Hj Hj' Ej Ej' ax).
Qed.

Lemma uncrowded_perm ts ts' : Permutation ts ts' -> uncrowded ts -> uncrowded ts'.
Proof. intros H HU c o Hc. apply HU with o. rewrite H. assumption. Qed.
Lemma uncrowded_few ts : (Z.of_nat (length ts) < 2 ^ 15)%Z -> uncrowded ts.
Proof.
  intros H c o Hc _. apply Permutation_length in Hc. rewrite app_length in Hc. lia.
Qed.

Section Reach.
  Context {E : @Ext NumR}.
  Hypothesis HB : box_test_complete E.

  Lemma reach ray prims s nd : forall st n j t, 0 < s -> covers st n nd -> encl prims nd ->
    (st <= j < st + n)%nat -> nth_error prims j = Some t -> in_box (world_bounds t) (along ray s) ->
    reached ray nd j /\ in_box (node_bounds nd) (along ray s).
  Proof.
    induction nd as [b first k|b ax c1 IH1 c2 IH2]; intros st n j t Hs Hc He Hj Ht Hb; cbn [covers encl reached node_bounds] in *.
    - destruct Hc as (-> & -> & _). assert (in_box b (along ray s)) by (eapply He; eassumption).
      split; [split; [eapply HB; eassumption|assumption]|assumption].
    - destruct Hc as (n1 & n2 & -> & _ & _ & C1 & C2 & _). destruct He as (E1 & E2 & E3 & E4).
      destruct (Nat.lt_ge_cases j (st + n1)) as [L|L].
      + destruct (IH1 st n1 j t Hs C1 E1 ltac:(lia) Ht Hb) as [R B].
        split; [split; [eapply HB; [exact Hs|apply E3, B]|left; exact R]|apply E3, B].
      + destruct (IH2 (st + n1)%nat n2 j t Hs C2 E2 ltac:(lia) Ht Hb) as [R B].
        split; [split; [eapply HB; [exact Hs|apply E4, B]|right; exact R]|apply E4, B].
  Qed.
End Reach.

Lemma FMAX_val : @FMAX NumR = float_max.
Proof.
  unfold FMAX, float_max. cbn [flit NumR]. rewrite mult_IZR, minus_IZR.
  change (2 ^ 53)%Z with (2 ^ Z.of_nat 53)%Z. change (2 ^ 971)%Z with (2 ^ Z.of_nat 971)%Z.
  rewrite <- !pow_IZR. unfold Rdiv. rewrite Rinv_1, Rmult_1_r. reflexivity.
Qed.

Lemma crosses_hit ray t s : crosses ray t s -> exists info, triangle_intersect t ray = Some info /\ i_p info = along ray s.
Proof.
  intros ((u & v & Hu & Hv & Huv & Ep) & HV & Hs).
  assert (He : 0 < epsilon) by (rewrite <- EPS_val; apply EPS_pos).
  unfold triangle_intersect. rewrite (bary_complete_gen ray t s u v) by (try assumption; lra).
  eexists. split; [reflexivity|]. unfold new_info. cbv zeta. destruct (get_side _ _). reflexivity.
Qed.
Lemma hit_touches ray t info : @triangle_intersect NumR t ray = Some info -> exists s, touches ray t s /\ i_p info = along ray s.
Proof.
  intros H. apply triangle_intersect_info in H as [H _].
  destruct (bary_sound _ _ _ _ _ H) as (s & H1 & H2 & H3 & H0 & H4 & H5 & H6 & H7). exists s. split; [|assumption].
  split; [assumption|]. split; [assumption|]. exists (i_u info), (i_v info). rewrite <- H2. tauto.
Qed.
Lemma reach2_vlen2 ray s : @vlen2 NumR (vsub (along ray s) (origin ray)) = reach2 ray s.
Proof. reflexivity. Qed.
Lemma reach2_unit ray s : unit (direction ray) -> reach2 ray s = s * s.
Proof.
  intros H. unfold reach2, unit in *. transitivity (s * s * dot (direction ray) (direction ray)); [|rewrite H; ring].
  clear. dvec. vunf. ring.
Qed.
Lemma crosses_in_box ray t s : crosses ray t s -> in_box (world_bounds t) (along ray s).
Proof. intros (H & _). apply on_triangle_in_bounds, H. Qed.

Lemma list_eq_nil_dec {A} (l : list A) : {l = []} + {l <> []}.
Proof. destruct l; [left; reflexivity|right; discriminate]. Qed.

Lemma encl_all prims nd : forall st n j t, covers st n nd -> encl prims nd -> (st <= j < st + n)%nat ->
  nth_error prims j = Some t -> forall p, in_box (world_bounds t) p -> in_box (node_bounds nd) p.
Proof.
  induction nd as [b first k|b ax c1 IH1 c2 IH2]; intros st n j t Hc He Hj Ht p Hp; cbn [covers encl node_bounds] in *.
  - destruct Hc as (-> & -> & _). eapply He; eassumption.
  - destruct Hc as (n1 & n2 & -> & _ & _ & C1 & C2 & _). destruct He as (E1 & E2 & E3 & E4).
    destruct (Nat.lt_ge_cases j (st + n1)) as [L|L].
    + apply E3. eapply IH1; try eassumption. lia.
    + apply E4. eapply IH2; try eassumption. lia.
Qed.
Lemma encl_encloses prims nd st n : covers st n nd -> encl prims nd -> encloses (node_bounds nd) prims st (st + n).
Proof.
  intros Hc He j t Hj Ht. pose proof (encl_all _ _ _ _ _ _ Hc He Hj Ht) as G.
  destruct (world_bounds_vertices t) as (A & B & C). auto.
Qed.

Lemma flat_well_formed prims nd : forall pre post st n, fits nd -> covers st n nd -> encl prims nd ->
  (st + n <= length prims)%nat -> (Z.of_nat (length pre + nsize nd) < 2 ^ 31)%Z ->
  well_formed (pre ++ flat (length pre) nd ++ post) prims (length pre) (length pre + nsize nd) st (st + n).
Proof.
  induction nd as [b first k|b ax c1 IH1 c2 IH2]; intros pre post st n Hf Hc He Hle Hs.
  - pose proof (encl_encloses _ _ _ _ Hc He) as Hen.
    cbn [flat fits nsize covers node_bounds] in *. destruct Hc as (-> & -> & Hpos). rewrite Nat.add_1_r.
    eapply wf_leaf with (n := mkFlat b (as_signed 16 (Z.of_nat n)) AX (as_signed 32 (Z.of_nat st))).
    + rewrite nth_error_app2 by lia. rewrite Nat.sub_diag. reflexivity.
    + lia.
    + cbn [f_nprims]. rewrite as_signed_id by lia. lia.
    + cbn [f_next]. rewrite as_signed_id by lia. reflexivity.
    + exact Hen.
  - pose proof (encl_encloses _ _ _ _ Hc He) as Hen.
    cbn [flat fits nsize covers encl node_bounds] in *.
    destruct Hf as [Hf1 Hf2], Hc as (n1 & n2 & -> & P1 & P2 & C1 & C2 & _), He as (E1 & E2 & _).
    set (n0 := mkFlat b 0 ax (as_signed 32 (Z.of_nat (length pre + 1 + nsize c1)))).
    eapply wf_inner with (j := (length pre + 1 + nsize c1)%nat) (m := (st + n1)%nat) (n := n0).
    + rewrite nth_error_app2 by lia. rewrite Nat.sub_diag. reflexivity.
    + reflexivity.
    + cbn [n0 f_next]. rewrite as_signed_id by lia. reflexivity.
    + exact Hen.
    + specialize (IH1 (pre ++ [n0]) (flat (length pre + 1 + nsize c1) c2 ++ post) st n1 Hf1 C1 E1).
      rewrite app_length in IH1. cbn [length] in IH1. rewrite <- app_assoc in IH1. cbn [app] in IH1.
      cbn [app]. rewrite <- app_assoc, <- (Nat.add_1_r (length pre)). apply IH1; lia.
    + specialize (IH2 (pre ++ [n0] ++ flat (length pre + 1) c1) post (st + n1)%nat n2 Hf2 C2 E2).
      rewrite !app_length in IH2. cbn [length] in IH2. rewrite flat_length in IH2.
      replace (length pre + (1 + nsize c1))%nat with (length pre + 1 + nsize c1)%nat in IH2 by lia.
      rewrite <- !app_assoc in IH2. cbn [app] in IH2. cbn [app]. rewrite <- app_assoc.
      replace (length pre + (1 + nsize c1 + nsize c2))%nat with (length pre + 1 + nsize c1 + nsize c2)%nat by lia.
      replace (st + (n1 + n2))%nat with (st + n1 + n2)%nat by lia. apply IH2; lia.
Qed.

Section Queries.
  Context {E : @Ext NumR}.
  Hypothesis HP : perm_sorts E.
  Hypothesis HS : sorts_by_centroid E.
  Hypothesis HM : max_extent_ok E.
  Hypothesis HB : box_test_complete E.
  Variable scene : @Arrays NumR.
  Hypothesis Ha : aligned scene.
  Hypothesis Hn : (Z.of_nat (length (a_tri scene)) <= 2 ^ 30)%Z.
  Hypothesis HU : uncrowded (a_tri scene).

  Lemma perm_tris scene' : aligned scene' -> Permutation (records scene') (records scene) ->
    Permutation (a_tri scene') (a_tri scene).
  Proof. intros H1 H2. rewrite <- (tri_of_records _ H1), <- (tri_of_records _ Ha). apply Permutation_map, H2. Qed.

  (** everything the query proofs need about a build *)
  Lemma build_all fuel : (length (a_tri scene) <= fuel)%nat -> a_tri scene <> [] ->
    exists root nodes scene', built fuel scene root nodes scene' /\ bvh_new fuel scene = Ret (nodes, scene') /\
      aligned scene' /\ Permutation (a_tri scene') (a_tri scene) /\
      leaves_le LEAF root /\ encl (a_tri scene') root /\ covers 0 (length (a_tri scene)) root /\
      (length nodes < 2 * length (a_tri scene))%nat.
  Proof.
    intros Hf Hne.
    destruct (build_total HP HS scene Ha fuel (infos_of (a_tri scene)) empty_arrays) as (root & scene' & HR).
    { intros D. apply Hne. apply (f_equal (@length _)) in D. rewrite infos_of_length in D. destruct (a_tri scene); [reflexivity|discriminate]. }
    { rewrite infos_of_length. assumption. }
    { apply infos_of_describe. }
    assert (Hb : bvh_new fuel scene = Ret (snd (flatten_node root []), scene')).
    { unfold bvh_new. destruct (Nat.eqb_spec (length (a_tri scene)) 0) as [D|D]; [destruct (a_tri scene); [congruence|discriminate]|].
      rewrite HR. reflexivity. }
    exists root, (snd (flatten_node root [])), scene'.
    destruct (build_permutation HP _ _ _ _ Ha Hb) as [Ha' Hp].
    pose proof (perm_tris _ Ha' Hp) as Hpt.
    assert (Ha0 : aligned (@empty_arrays NumR)) by (repeat split).
    destruct (build_spec HP _ _ _ _ _ _ Ha0 HR) as (_ & HL & Hc & _). rewrite infos_of_length in HL, Hc. cbn [empty_arrays a_tri length Nat.add] in HL, Hc.
    destruct (build_boxes HP HM scene _ _ _ _ _ Ha0 (infos_of_describe scene) HR) as [He Ht].
    assert (Hleaf : leaves_le LEAF root).
    { eapply tight_leaves_le; [|exact Ht|eapply uncrowded_perm; [symmetry; exact Hpt|exact HU]].
      eapply covers_in_prims; [exact Hc|lia]. }
    split; [split; [exact Ha|split; [exact Hne|split; [exact HR|reflexivity]]]|].
    split; [exact Hb|]. split; [exact Ha'|]. split; [exact Hpt|]. split; [exact Hleaf|]. split; [exact He|]. split; [exact Hc|].
    pose proof (covers_nsize _ _ _ Hc). rewrite flatten_flat. cbn [snd length app]. rewrite flat_length. lia.
  Qed.

  Lemma in_nth {A} (l : list A) x : In x l -> exists j, nth_error l j = Some x /\ (j < length l)%nat.
  Proof.
    intros H. apply In_nth_error in H as [j Hj]. exists j. split; [assumption|]. apply nth_error_Some. congruence.
  Qed.

  (** closest hit *)
  Theorem closest_hit bfuel : (length (a_tri scene) <= bfuel)%nat ->
    exists nodes scene', bvh_new bfuel scene = Ret (nodes, scene') /\
    forall fuel (r : @Ray NumR) aux, (2 * length (a_tri scene) <= fuel)%nat ->
    let ray := r_geometry r in
    (exists j t s x aux',
       intersect fuel nodes (a_tri scene') r aux = Ret (Some (Z.of_nat j), set_interaction r x, aux') /\
       nth_error (a_tri scene') j = Some t /\ In t (a_tri scene) /\
       touches ray t s /\ in_sight ray s /\ i_p (x_shading x) = along ray s /\ triangle_intersect t ray = Some (x_shading x) /\
       (unit (direction ray) -> x_point x = along ray s) /\ x_wo x = times (-1) (direction ray) /\
       forall t' s', In t' (a_tri scene) -> crosses ray t' s' -> in_sight ray s' -> reach2 ray s <= reach2 ray s') \/
    (exists aux', intersect fuel nodes (a_tri scene') r aux = Ret (None, r, aux') /\
       forall t' s', In t' (a_tri scene) -> ~ (crosses ray t' s' /\ in_sight ray s')).
  Proof.
    intros Hbf. destruct (list_eq_nil_dec (a_tri scene)) as [Hnil|Hne].
    { exists [], scene. split; [unfold bvh_new; rewrite Hnil; reflexivity|].
      intros fuel r aux _. right. exists aux. split; [reflexivity|]. rewrite Hnil. intros t' s' []. }
    destruct (build_all bfuel Hbf Hne) as (root & nodes & scene' & HBt & Hb & Ha' & Hpt & Hl & He & Hc & Hlen).
    exists nodes, scene'. split; [exact Hb|]. intros fuel r aux Hf ray.
    assert (Hreach : forall t' s', In t' (a_tri scene) -> crosses ray t' s' -> in_sight ray s' ->
              exists j' info', reached ray root j' /\ valid_hit (a_tri scene') ray j' (reach2 ray s') info').
    { intros t' s' Hin Hcr Hsi.
      assert (Hin' : In t' (a_tri scene')) by (eapply Permutation_in; [symmetry; exact Hpt|exact Hin]).
      destruct (in_nth _ _ Hin') as (j' & Hj' & Hjl). rewrite (Permutation_length Hpt) in Hjl.
      destruct (crosses_hit _ _ _ Hcr) as (info' & Hi & Hip).
      exists j', info'. split.
      - eapply (reach HB); [|exact Hc|exact He| |exact Hj'|apply crosses_in_box; exact Hcr]; [|lia].
        destruct Hcr as (_ & _ & Hcr). lra.
      - exists t'. split; [exact Hj'|]. destruct Hsi as [Hs1 Hs2]. split.
        + split; [exact Hi|]. split; [rewrite Hip; reflexivity|]. apply Rltb_true. unfold MIN_T7. rsimp. assumption.
        + apply Rltb_true. rewrite FMAX_val. assumption. }
    destruct (intersect_generic strict_order_R HP bfuel scene root nodes scene' LEAF HBt Hl ltac:(unfold LEAF; lia) Hn fuel r aux ltac:(lia))
      as [(j & t2 & info & HI & Hv & Hmin)|(HI & Hmin)].
    - left. destruct Hv as (t & Hjt & (Hti & Ht2 & Hm) & HM2).
      destruct (hit_touches _ _ _ Hti) as (s & Hto & Hip).
      assert (E2 : t2 = reach2 ray s) by (rewrite Ht2, Hip; apply reach2_vlen2).
      exists j, t, s, (mkInter (project ray (fsqrt t2)) (vscale (direction ray) (fneg f1)) info), [].
      split; [exact HI|]. split; [exact Hjt|].
      split; [eapply Permutation_in; [exact Hpt|eapply nth_error_In; exact Hjt]|].
      split; [exact Hto|]. split.
      { apply Rltb_true in Hm, HM2. rewrite FMAX_val in HM2. unfold MIN_T7 in Hm. rsimp. rewrite E2 in Hm, HM2. split; assumption. }
      split; [exact Hip|]. split; [exact Hti|]. split.
      { intros Hu. cbn [x_point]. rewrite project_along, E2, (reach2_unit _ _ Hu). cbn [fsqrt NumR].
        rewrite sqrt_square; [reflexivity|]. destruct Hto as (_ & Hto & _). lra. }
      split. { cbn [x_wo]. rewrite vscale_times. unfold f1. cbn [fneg flit NumR]. replace (- (1 / 1)) with (-1) by field. reflexivity. }
      intros t' s' Hin Hcr Hsi. destruct (Hreach t' s' Hin Hcr Hsi) as (j' & info' & Hr & Hvh).
      specialize (Hmin _ _ _ Hr Hvh). apply Rltb_false in Hmin. rewrite E2 in Hmin. exact Hmin.
    - right. exists []. split; [exact HI|]. intros t' s' Hin [Hcr Hsi].
      destruct (Hreach t' s' Hin Hcr Hsi) as (j' & info' & Hr & Hvh). exact (Hmin _ _ _ Hr Hvh).
  Qed.

  (** shadow query *)
  Theorem shadow bfuel : (length (a_tri scene) <= bfuel)%nat ->
    exists nodes scene', bvh_new bfuel scene = Ret (nodes, scene') /\
    forall fuel ray d2 aux, (2 * length (a_tri scene) <= fuel)%nat ->
    exists clear aux', unobstructed_distance fuel nodes (a_tri scene') ray d2 aux = Ret (clear, aux') /\
      ((exists t s, In t (a_tri scene) /\ crosses ray t s /\ in_the_way ray d2 s) -> clear = false) /\
      (clear = false -> exists t s, In t (a_tri scene) /\ touches ray t s /\ in_the_way ray d2 s).
  Proof.
    intros Hbf. destruct (list_eq_nil_dec (a_tri scene)) as [Hnil|Hne].
    { exists [], scene. split; [unfold bvh_new; rewrite Hnil; reflexivity|].
      intros fuel ray d2 aux _. exists true, aux. split; [reflexivity|]. rewrite Hnil. split; [intros (t & s & [] & _)|discriminate]. }
    destruct (build_all bfuel Hbf Hne) as (root & nodes & scene' & HBt & Hb & Ha' & Hpt & Hl & He & Hc & Hlen).
    exists nodes, scene'. split; [exact Hb|]. intros fuel ray d2 aux Hf.
    destruct (shadow_generic HP bfuel scene root nodes scene' LEAF HBt Hl ltac:(unfold LEAF; lia) Hn fuel ray d2 aux ltac:(lia)) as (b & st & HQ & Hiff).
    exists b, st. split; [exact HQ|].
    assert (Simple : forall t, simple_triangle_intersect t ray = option_map i_p (triangle_intersect t ray)).
    { intros t. unfold simple_triangle_intersect, triangle_intersect.
      destruct (baricentric_coordinates ray t) as [[[p u] v]|]; [|reflexivity]. cbn [option_map].
      unfold new_info. cbv zeta. destruct (get_side _ _). reflexivity. }
    split.
    - intros (t & s & Hin & Hcr & Hw). apply Hiff.
      assert (Hin' : In t (a_tri scene')) by (eapply Permutation_in; [symmetry; exact Hpt|exact Hin]).
      destruct (in_nth _ _ Hin') as (j & Hj & Hjl). rewrite (Permutation_length Hpt) in Hjl.
      destruct (crosses_hit _ _ _ Hcr) as (info & Hi & Hip).
      exists j, t. split.
      { eapply (reach HB); [|exact Hc|exact He| |exact Hj|apply crosses_in_box; exact Hcr]; [|lia].
        destruct Hcr as (_ & _ & Hcr). lra. }
      split; [exact Hj|]. unfold blocks. rewrite Simple, Hi. cbn [option_map]. rewrite Hip. cbv zeta.
      rewrite reach2_vlen2. destruct Hw as (W1 & W2 & W3). unfold MIN_T6. rsimp.
      rewrite !Rltb_is_true by assumption. reflexivity.
    - intros Hb0. apply Hiff in Hb0 as (j & t & _ & Hj & Hbl). unfold blocks in Hbl. rewrite Simple in Hbl.
      destruct (triangle_intersect t ray) as [info|] eqn:Hi; [|discriminate]. cbn [option_map] in Hbl. cbv zeta in Hbl.
      destruct (hit_touches _ _ _ Hi) as (s & Hto & Hip). rewrite Hip, reach2_vlen2 in Hbl. unfold MIN_T6 in Hbl.
      apply andb_prop in Hbl as [Hbl W3]. apply andb_prop in Hbl as [W1 W2]. rsimp.
      rewrite Rltb_true in W1, W2, W3.
      exists t, s. split; [eapply Permutation_in; [exact Hpt|eapply nth_error_In; exact Hj]|]. split; [exact Hto|].
      repeat split; assumption.
  Qed.

  Theorem build_well_formed fuel : (length (a_tri scene) <= fuel)%nat -> a_tri scene <> [] ->
    exists nodes scene', bvh_new fuel scene = Ret (nodes, scene') /\
      well_formed nodes (a_tri scene') 0 (length nodes) 0 (length (a_tri scene)).
  Proof.
    intros Hf Hne. destruct (build_all fuel Hf Hne) as (root & nodes & scene' & HBt & Hb & Ha' & Hpt & Hl & He & Hc & Hlen).
    exists nodes, scene'. split; [exact Hb|].
    destruct HBt as (_ & _ & _ & ->). rewrite flatten_flat in *. cbn [snd length app] in *. rewrite flat_length in *.
    pose proof (flat_well_formed (a_tri scene') root [] [] 0 (length (a_tri scene))) as G.
    cbn [length app Nat.add] in G. rewrite app_nil_r in G. apply G; try assumption.
    - eapply covers_fits; [exact Hc|exact Hl|unfold LEAF; lia|cbn; lia].
    - rewrite (Permutation_length Hpt). lia.
    - lia.
  Qed.
End Queries.
