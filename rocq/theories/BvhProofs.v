(** * Structural proofs about the accelerator, valid for every arithmetic. *)
From Coq Require Import Permutation.
From Verif Require Import Num Geometry Triangle Ray Bvh.
Open Scope nat_scope.

(** the triangles with everything attached to them *)
Definition records {N : Num} (a : Arrays) : list (Triangle * nat * nat * (Vec * Vec * Vec)) :=
  combine (combine (combine (a_tri a) (a_front a)) (a_back a)) (a_norm a).
(** the four arrays have one entry per triangle *)
Definition aligned {N : Num} (a : Arrays) : Prop :=
  length (a_front a) = length (a_tri a) /\ length (a_back a) = length (a_tri a) /\ length (a_norm a) = length (a_tri a).

(** contract of the standard library's sorting routines *)
Definition perm_sorts {N : Num} (E : Ext) : Prop :=
  (forall c l, Permutation (sort_by c l) l) /\ (forall k c l, Permutation (select_by k c l) l).

Lemma combine_app {A B} (l1 l2 : list A) (m1 m2 : list B) :
  length l1 = length m1 -> combine (l1 ++ l2) (m1 ++ m2) = combine l1 m1 ++ combine l2 m2.
Proof.
  revert m1. induction l1 as [|a l1 IH]; intros [|b m1]; cbn; try discriminate; [reflexivity|].
  intros H. injection H as H. rewrite IH by assumption. reflexivity.
Qed.

Lemma records_length {N : Num} (a : Arrays) : aligned a -> length (records a) = length (a_tri a).
Proof. intros (H1 & H2 & H3). unfold records. rewrite !combine_length. lia. Qed.

Lemma nth_error_combine {A B} (l : list A) (m : list B) i :
  nth_error (combine l m) i =
  match nth_error l i, nth_error m i with Some a, Some b => Some (a, b) | _, _ => None end.
Proof.
  revert m i. induction l as [|a l IH]; intros [|b m] [|i]; cbn; try reflexivity.
  - destruct (nth_error l i); reflexivity.
  - apply IH.
Qed.

Lemma nth_error_records {N : Num} (a : Arrays) i :
  nth_error (records a) i =
  match nth_error (a_tri a) i, nth_error (a_front a) i, nth_error (a_back a) i, nth_error (a_norm a) i with
  | Some t, Some f, Some b, Some n => Some (t, f, b, n)
  | _, _, _, _ => None
  end.
Proof.
  unfold records. rewrite !nth_error_combine.
  destruct (nth_error (a_tri a) i), (nth_error (a_front a) i), (nth_error (a_back a) i), (nth_error (a_norm a) i); reflexivity.
Qed.

Section Build.
  Context {N : Num} {E : Ext}.

  Lemma push_one_spec scene i ord ord' : aligned ord -> push_one scene i ord = Some ord' ->
    aligned ord' /\ length (a_tri ord') = S (length (a_tri ord)) /\
    exists r, nth_error (records scene) i = Some r /\ records ord' = records ord ++ [r].
  Proof.
    intros (H1 & H2 & H3) H. unfold push_one in H. rewrite nth_error_records.
    destruct (nth_error (a_tri scene) i) as [t|]; [|discriminate].
    destruct (nth_error (a_back scene) i) as [b|]; [|discriminate].
    destruct (nth_error (a_front scene) i) as [f|]; [|discriminate].
    destruct (nth_error (a_norm scene) i) as [n|]; [|discriminate].
    injection H as <-. repeat split; cbn; rewrite ?app_length; cbn; try lia.
    exists (t, f, b, n). split; [reflexivity|]. unfold records. cbn.
    rewrite combine_app by lia. cbn. rewrite combine_app by (rewrite combine_length; lia). cbn.
    rewrite combine_app by (rewrite !combine_length; lia). reflexivity.
  Qed.

  (** the records selected by a list of infos *)
  Definition picks (scene : Arrays) (infos : list ObjectInfo) (rs : list _) : Prop :=
    Forall2 (fun i r => nth_error (records scene) (oi_index i) = Some r) infos rs.

  Lemma push_all_spec scene infos : forall ord ord', aligned ord -> push_all scene infos ord = Some ord' ->
    aligned ord' /\ length (a_tri ord') = length (a_tri ord) + length infos /\
    exists rs, picks scene infos rs /\ records ord' = records ord ++ rs.
  Proof.
    induction infos as [|i infos IH]; intros ord ord' Ha H; cbn in H.
    - injection H as <-. split; [assumption|]. split; [cbn; lia|].
      exists []. split; [constructor|]. rewrite app_nil_r. reflexivity.
    - destruct (push_one scene (oi_index i) ord) as [o1|] eqn:E1; [|discriminate].
      destruct (push_one_spec _ _ _ _ Ha E1) as (Ha1 & HL1 & r & Hr & Hrec).
      destruct (IH _ _ Ha1 H) as (Ha2 & HL2 & rs & Hp & Hrec2).
      split; [assumption|]. split; [cbn; lia|].
      exists (r :: rs). split; [constructor; assumption|].
      rewrite Hrec2, Hrec, <- app_assoc. reflexivity.
  Qed.

  Lemma decide_perm (HP : perm_sorts E) i rest ax l mid :
    decide i rest = Some (Split ax l mid) -> Permutation l (i :: rest).
  Proof.
    unfold decide. destruct (Nat.eqb _ 1); [discriminate|]. cbv zeta.
    destruct (fltb _ _); [discriminate|].
    destruct (Nat.leb _ 4).
    - intros H; injection H as <- <- <-. apply HP.
    - destruct (min_cost_loop _ _ _ _) as [[c b]|]; [|discriminate].
      destruct (_ || _)%bool; [|discriminate].
      destruct (Nat.eqb _ 0); [discriminate|].
      intros H; injection H as <- <- <-. apply HP.
  Qed.

  (** the tree covers exactly the consecutive range [start, start+n) of primitives, every leaf being non-empty *)
  Fixpoint covers (start n : nat) (nd : Node) : Prop :=
    match nd with
    | Leaf _ first k => first = start /\ k = n /\ 0 < n
    | Inner b _ c1 c2 => exists n1 n2, n = n1 + n2 /\ 0 < n1 /\ 0 < n2 /\
        covers start n1 c1 /\ covers (start + n1) n2 c2 /\ b = box_union (node_bounds c1) (node_bounds c2)
    end.

  Theorem build_spec (HP : perm_sorts E) : forall fuel scene infos ord nd ord',
    aligned ord -> recursive_build fuel scene infos ord = Ret (nd, ord') ->
    aligned ord' /\ length (a_tri ord') = length (a_tri ord) + length infos /\
    covers (length (a_tri ord)) (length infos) nd /\
    exists infos' rs, Permutation infos' infos /\ picks scene infos' rs /\ records ord' = records ord ++ rs.
  Proof.
    induction fuel as [|k IH]; intros scene infos ord nd ord' Ha H; [discriminate|].
    cbn [recursive_build] in H. destruct infos as [|i rest]; [discriminate|].
    destruct (decide i rest) as [[|ax l mid]|] eqn:D; [| |discriminate].
    - destruct (push_all scene (i :: rest) ord) as [o1|] eqn:Ep; [|discriminate].
      cbn [ret_opt obind] in H. injection H as <- <-.
      destruct (push_all_spec _ _ _ _ Ha Ep) as (Ha1 & HL & rs & Hp & Hr).
      repeat split; try assumption; try apply Ha1; cbn [length]; try lia.
      exists (i :: rest), rs. auto.
    - pose proof (decide_perm HP _ _ _ _ _ D) as Hperm.
      destruct (recursive_build k scene (firstn mid l) ord) as [[c1 o1]| |] eqn:E1; try discriminate.
      cbn [obind] in H.
      destruct (recursive_build k scene (skipn mid l) o1) as [[c2 o2]| |] eqn:E2; try discriminate.
      cbn [obind] in H. injection H as <- <-.
      destruct (IH _ _ _ _ _ Ha E1) as (Ha1 & HL1 & Hc1 & i1 & r1 & P1 & K1 & R1).
      destruct (IH _ _ _ _ _ Ha1 E2) as (Ha2 & HL2 & Hc2 & i2 & r2 & P2 & K2 & R2).
      pose proof (Permutation_length Hperm) as HLl.
      assert (HL12 : length (firstn mid l) + length (skipn mid l) = length l).
      { rewrite <- app_length, firstn_skipn. reflexivity. }
      split; [assumption|]. split; [lia|].
      assert (Hne : forall f ll o c o', recursive_build f scene ll o = Ret (c, o') -> 0 < length ll).
      { intros [|f] [|x ll] o c o'; cbn; try discriminate; intros; lia. }
      split.
      + cbn [new_interior covers]. exists (length (firstn mid l)), (length (skipn mid l)).
        rewrite HL1 in Hc2. repeat split; try assumption; try lia; eapply Hne; eassumption.
      + exists (i1 ++ i2), (r1 ++ r2). split.
        * rewrite <- Hperm, <- (firstn_skipn mid l). apply Permutation_app; assumption.
        * split; [apply Forall2_app; assumption|]. rewrite R2, R1, <- app_assoc. reflexivity.
  Qed.

  Lemma infos_of_length ts : length (infos_of ts) = length ts.
  Proof. unfold infos_of. rewrite map_length, combine_length, seq_length. lia. Qed.

  Lemma infos_of_indices ts : map oi_index (infos_of ts) = seq 0 (length ts).
  Proof.
    unfold infos_of. rewrite map_map. cbn [oi_index object_info].
    generalize 0. induction ts as [|t ts IH]; intros s; [reflexivity|].
    cbn [length seq combine map fst]. f_equal. apply IH.
  Qed.

  Lemma picks_map scene infos rs : picks scene infos rs ->
    map Some rs = map (nth_error (records scene)) (map oi_index infos).
  Proof. intros H. induction H as [|i r infos rs H1 H2 IH]; cbn; [reflexivity|]. rewrite H1, IH. reflexivity. Qed.

  Lemma map_Some_nth {A} (l : list A) : map (nth_error l) (seq 0 (length l)) = map Some l.
  Proof.
    induction l as [|a l IH]; [reflexivity|].
    cbn [length seq map nth_error]. f_equal. rewrite <- IH, <- seq_shift, map_map. reflexivity.
  Qed.

  Lemma map_Some_inj {A} (l l' : list A) : Permutation (map Some l) (map Some l') -> Permutation l l'.
  Proof.
    intros H.
    assert (G : forall m : list (option A), forall m', Permutation m m' ->
              Permutation (flat_map (fun o => match o with Some a => [a] | None => [] end) m)
                          (flat_map (fun o => match o with Some a => [a] | None => [] end) m')).
    { intros m m' HH. apply Permutation_flat_map. assumption. }
    specialize (G _ _ H). rewrite !flat_map_concat_map, !map_map in G.
    assert (K : forall l0 : list A, concat (map (fun x => [x]) l0) = l0).
    { induction l0 as [|a l0 IH]; [reflexivity|]. cbn. f_equal. assumption. }
    rewrite !K in G. assumption.
  Qed.

  (** C01 *)
  Theorem build_permutation (HP : perm_sorts E) fuel scene nodes scene' :
    aligned scene -> bvh_new fuel scene = Ret (nodes, scene') ->
    aligned scene' /\ Permutation (records scene') (records scene).
  Proof.
    intros Ha H. unfold bvh_new in H. destruct (Nat.eqb_spec (length (a_tri scene)) 0) as [H0|H0].
    - injection H as <- <-. split; [assumption|reflexivity].
    - destruct (recursive_build _ _ _ _) as [[nd o]| |] eqn:B; try discriminate.
      cbn [obind] in H. injection H as <- <-.
      assert (Ha0 : aligned empty_arrays) by (repeat split).
      destruct (build_spec HP _ _ _ _ _ _ Ha0 B) as (Ha' & HL & Hc & i' & rs & P & K & R).
      split; [assumption|].
      cbn in R. rewrite R. apply map_Some_inj. rewrite (picks_map _ _ _ K).
      rewrite <- (map_Some_nth (records scene)). rewrite records_length by assumption.
      apply Permutation_map. rewrite <- infos_of_indices. apply Permutation_map. assumption.
  Qed.

  (** ** Flattening *)
  Fixpoint nsize (nd : Node) : nat :=
    match nd with Leaf _ _ _ => 1 | Inner _ _ c1 c2 => 1 + nsize c1 + nsize c2 end.

  (** the flattened tree written as a pure function of its starting offset *)
  Fixpoint flat (off : nat) (nd : Node) : list FlatNode :=
    match nd with
    | Leaf b first n => [mkFlat b (as_signed 16 (Z.of_nat n)) AX (as_signed 32 (Z.of_nat first))]
    | Inner b ax c1 c2 =>
        mkFlat b 0 ax (as_signed 32 (Z.of_nat (off + 1 + nsize c1))) :: flat (off + 1) c1 ++ flat (off + 1 + nsize c1) c2
    end.

  Lemma flat_length nd : forall off, length (flat off nd) = nsize nd.
  Proof. induction nd as [|b ax c1 IH1 c2 IH2]; intros off; cbn; [reflexivity|]. rewrite app_length, IH1, IH2. lia. Qed.

  Lemma set_next_app nodes x z l :
    set_next (length nodes) z (nodes ++ x :: l) = nodes ++ mkFlat (f_bounds x) (f_nprims x) (f_axis x) z :: l.
  Proof.
    unfold set_next. rewrite nth_error_app2 by lia. rewrite Nat.sub_diag. cbn [nth_error].
    rewrite firstn_app, Nat.sub_diag, firstn_all. cbn [firstn]. rewrite app_nil_r. f_equal. f_equal.
    change (x :: l) with ([x] ++ l). rewrite app_assoc.
    rewrite skipn_app, app_length. cbn [length].
    rewrite skipn_all2 by (rewrite app_length; cbn; lia).
    replace (S (length nodes) - (length nodes + 1)) with 0 by lia. reflexivity.
  Qed.

  Lemma flatten_flat nd : forall nodes, flatten_node nd nodes = (length nodes, nodes ++ flat (length nodes) nd).
  Proof.
    induction nd as [|b ax c1 IH1 c2 IH2]; intros nodes; [reflexivity|].
    cbn [flatten_node]. rewrite IH1. rewrite IH2.
    rewrite !app_length. cbn [length]. rewrite flat_length.
    f_equal. rewrite <- !app_assoc. cbn [app]. rewrite set_next_app. cbn [f_bounds f_nprims f_axis flat]. 
    reflexivity.
  Qed.

  Lemma as_signed_id bits z : (0 < bits)%Z -> (0 <= z < 2 ^ (bits - 1))%Z -> as_signed bits z = z.
  Proof.
    intros Hb Hz. unfold as_signed.
    assert (2 ^ bits = 2 * 2 ^ (bits - 1))%Z by (rewrite <- Z.pow_succ_r by lia; f_equal; lia).
    rewrite Z.mod_small by lia. lia.
  Qed.
  Lemma as_usize_id z : (0 <= z < 2 ^ 64)%Z -> as_usize z = z.
  Proof. intros H. unfold as_usize. apply Z.mod_small. assumption. Qed.

  (** every leaf fits the i16 counter, every offset the i32 field *)
  Fixpoint fits (nd : Node) : Prop :=
    match nd with
    | Leaf _ first n => 0 < n /\ (Z.of_nat n < 2 ^ 15)%Z /\ (Z.of_nat first < 2 ^ 31)%Z
    | Inner _ _ c1 c2 => fits c1 /\ fits c2
    end.

  (** the flat array [nodes] represents tree [nd] at offset [off]: the layout the traversal relies on *)
  Fixpoint layout (nodes : list FlatNode) (off : nat) (nd : Node) : Prop :=
    match nd with
    | Leaf b first n => exists ax, nth_error nodes off = Some (mkFlat b (Z.of_nat n) ax (Z.of_nat first))
    | Inner b ax c1 c2 => exists off2, nth_error nodes off = Some (mkFlat b 0 ax (Z.of_nat off2)) /\
         off2 < length nodes /\ layout nodes (off + 1) c1 /\ layout nodes off2 c2
    end.

  Lemma flat_layout nd : forall pre post, fits nd -> (Z.of_nat (length pre + nsize nd) < 2 ^ 31)%Z ->
    layout (pre ++ flat (length pre) nd ++ post) (length pre) nd.
  Proof.
    induction nd as [b first n|b ax c1 IH1 c2 IH2]; intros pre post Hf Hs; cbn [flat layout fits nsize] in *.
    - exists AX. rewrite nth_error_app2 by lia. rewrite Nat.sub_diag. cbn.
      rewrite !as_signed_id by lia. reflexivity.
    - destruct Hf as [Hf1 Hf2]. exists (length pre + 1 + nsize c1).
      split; [rewrite nth_error_app2 by lia; rewrite Nat.sub_diag; cbn; rewrite as_signed_id by lia; reflexivity|].
      assert (0 < nsize c2) by (destruct c2; cbn; lia).
      split; [rewrite !app_length; cbn [length]; rewrite app_length, !flat_length; lia|].
      split.
      + specialize (IH1 (pre ++ [mkFlat b 0 ax (as_signed 32 (Z.of_nat (length pre + 1 + nsize c1)))])
                        (flat (length pre + 1 + nsize c1) c2 ++ post) Hf1).
        rewrite app_length in IH1. cbn [length] in IH1. rewrite <- app_assoc in IH1. cbn [app] in IH1.
        cbn [app]. rewrite <- app_assoc. apply IH1. lia.
      + specialize (IH2 (pre ++ [mkFlat b 0 ax (as_signed 32 (Z.of_nat (length pre + 1 + nsize c1)))] ++ flat (length pre + 1) c1)
                        post Hf2).
        rewrite !app_length in IH2. cbn [length] in IH2. rewrite flat_length in IH2.
        replace (length pre + (1 + nsize c1)) with (length pre + 1 + nsize c1) in IH2 by lia.
        rewrite <- !app_assoc in IH2. cbn [app] in IH2. cbn [app]. rewrite <- app_assoc. apply IH2. lia.
  Qed.

  Lemma covers_nsize nd : forall s n, covers s n nd -> nsize nd + 1 <= 2 * n.
  Proof.
    induction nd as [b first k|b ax c1 IH1 c2 IH2]; intros s n; cbn.
    - lia.
    - intros (n1 & n2 & -> & H1 & H2 & C1 & C2 & _). specialize (IH1 _ _ C1). specialize (IH2 _ _ C2). lia.
  Qed.
  Lemma covers_pos nd s n : covers s n nd -> 0 < n.
  Proof. destruct nd; cbn; [lia|]. intros (n1 & n2 & -> & H). lia. Qed.

  (** leaves hold at most [m] primitives *)
  Fixpoint leaves_le (m : nat) (nd : Node) : Prop :=
    match nd with Leaf _ _ n => n <= m | Inner _ _ c1 c2 => leaves_le m c1 /\ leaves_le m c2 end.

  Lemma covers_fits nd : forall s n m, covers s n nd -> leaves_le m nd -> (Z.of_nat m < 2 ^ 15)%Z ->
    (Z.of_nat (s + n) <= 2 ^ 31)%Z -> fits nd.
  Proof.
    induction nd as [b first k|b ax c1 IH1 c2 IH2]; intros s n m; cbn.
    - intros (-> & -> & H) Hm H15 H31. repeat split; lia.
    - intros (n1 & n2 & -> & H1 & H2 & C1 & C2 & _) (L1 & L2) H15 H31.
      split; [eapply IH1; try eassumption; lia|]. eapply IH2; try eassumption. lia.
  Qed.

  (** ** Traversal *)
  Variable prims : list Triangle.

  Definition slice (first n : nat) : list Triangle := firstn n (skipn first prims).

  (** closest-hit traversal on the tree itself *)
  Fixpoint visit (ray : Ray3D) (nd : Node) (best : Best) : Best :=
    match nd with
    | Leaf b first n =>
        if bbox_hit b ray (inv_dir ray) then leaf_loop ray (Z.of_nat first) (slice first n) best else best
    | Inner b ax c1 c2 =>
        if bbox_hit b ray (inv_dir ray) then
          if dir_is_neg ray ax then visit ray c1 (visit ray c2 best) else visit ray c2 (visit ray c1 best)
        else best
    end.

  Lemma sliceZ_slice first n : first + n <= length prims ->
    sliceZ prims (Z.of_nat first) (Z.of_nat first + Z.of_nat n) = Some (slice first n).
  Proof.
    intros H. unfold sliceZ.
    replace ((0 <=? Z.of_nat first)%Z) with true by (symmetry; apply Z.leb_le; lia).
    replace ((Z.of_nat first <=? Z.of_nat first + Z.of_nat n)%Z) with true by (symmetry; apply Z.leb_le; lia).
    replace ((Z.of_nat first + Z.of_nat n <=? Z.of_nat (length prims))%Z) with true by (symmetry; apply Z.leb_le; lia).
    cbn [andb]. unfold slice. rewrite Nat2Z.id. do 2 f_equal. lia.
  Qed.

  Lemma nthZ_nat {A} (l : list A) i x : nth_error l i = Some x -> nthZ l (Z.of_nat i) = Some x.
  Proof.
    intros H. assert (i < length l) by (apply nth_error_Some; congruence). unfold nthZ.
    replace ((0 <=? Z.of_nat i)%Z) with true by (symmetry; apply Z.leb_le; lia).
    replace ((Z.of_nat i <? Z.of_nat (length l))%Z) with true by (symmetry; apply Z.ltb_lt; lia).
    cbn [andb]. rewrite Nat2Z.id. assumption.
  Qed.

  (** all leaves lie inside the primitive array *)
  Fixpoint in_prims (nd : Node) : Prop :=
    match nd with Leaf _ first n => 0 < n /\ first + n <= length prims | Inner _ _ c1 c2 => in_prims c1 /\ in_prims c2 end.

  Lemma covers_in_prims nd : forall s n, covers s n nd -> s + n <= length prims -> in_prims nd.
  Proof.
    induction nd as [b first k|b ax c1 IH1 c2 IH2]; intros s n; cbn.
    - intros (-> & -> & H); lia.
    - intros (n1 & n2 & -> & H1 & H2 & C1 & C2 & _) H. split; [eapply IH1; [eassumption|lia]|eapply IH2; [eassumption|lia]].
  Qed.

  Lemma nsize_pos nd : 0 < nsize nd.
  Proof. destruct nd; cbn; lia. Qed.

  Hypothesis prims_small : (Z.of_nat (length prims) < 2 ^ 63)%Z.

  (** running the loop on an offset where [nd] is laid out processes exactly [nd] and then pops the stack *)
  Lemma isect_visit nodes (Hsmall : (Z.of_nat (length nodes) < 2 ^ 63)%Z) ray nd : forall off, layout nodes off nd -> in_prims nd ->
    exists k, 1 <= k <= nsize nd /\
      forall fuel stack best,
        isect_loop (k + fuel) nodes prims ray (Z.of_nat off) stack best =
        match stack with
        | i :: st => isect_loop fuel nodes prims ray i st (visit ray nd best)
        | [] => Ret (visit ray nd best, [])
        end.
  Proof.
    induction nd as [b first n|b ax c1 IH1 c2 IH2]; intros off HL HI; cbn [layout in_prims nsize visit] in *.
    - exists 1. split; [lia|]. intros fuel stack best. cbn [Nat.add isect_loop].
      destruct HL as [ax HL]. rewrite (nthZ_nat _ _ _ HL). cbn [f_bounds].
      destruct (bbox_hit b ray (inv_dir ray)); [|reflexivity].
      unfold is_leaf. cbn [f_nprims f_next].
      replace ((0 <? Z.of_nat n)%Z) with true by (symmetry; apply Z.ltb_lt; lia).
      rewrite !as_usize_id by lia. rewrite sliceZ_slice by lia. reflexivity.
    - destruct HL as (off2 & HL & Hoff2 & HL1 & HL2). destruct HI as [HI1 HI2].
      destruct (IH1 _ HL1 HI1) as (k1 & Hk1 & Q1). destruct (IH2 _ HL2 HI2) as (k2 & Hk2 & Q2).
      assert (HN : nthZ nodes (Z.of_nat off) = Some (mkFlat b 0 ax (Z.of_nat off2))) by (apply nthZ_nat; assumption).
      assert (HU : as_usize (Z.of_nat off2) = Z.of_nat off2) by (apply as_usize_id; lia).
      assert (HC : (Z.of_nat off + 1 = Z.of_nat (off + 1))%Z) by lia.
      destruct (bbox_hit b ray (inv_dir ray)) eqn:HB.
      + exists (1 + (k1 + k2)). split; [lia|]. intros fuel stack best.
        replace (1 + (k1 + k2) + fuel) with (S (k1 + (k2 + fuel))) by lia.
        cbn [isect_loop]. rewrite HN. cbn [f_bounds f_axis f_next]. rewrite HB.
        unfold is_leaf; cbn [f_nprims]. cbn [Z.ltb Z.compare]. rewrite HU, HC.
        destruct (dir_is_neg ray ax).
        * replace (k1 + (k2 + fuel)) with (k2 + (k1 + fuel)) by lia. rewrite Q2, Q1. reflexivity.
        * rewrite Q1, Q2. reflexivity.
      + exists 1. split; [lia|]. intros fuel stack best. cbn [Nat.add isect_loop]. rewrite HN. cbn [f_bounds]. rewrite HB.
        reflexivity.
  Qed.

  (** shadow traversal on the tree *)
  Fixpoint svisit (ray : Ray3D) (d2 : F) (nd : Node) : bool :=
    match nd with
    | Leaf b first n => bbox_hit b ray (inv_dir ray) && existsb (blocks ray d2) (slice first n)
    | Inner b ax c1 c2 => bbox_hit b ray (inv_dir ray) && (svisit ray d2 c1 || svisit ray d2 c2)
    end.

  Lemma shadow_visit nodes (Hsmall : (Z.of_nat (length nodes) < 2 ^ 63)%Z) ray d2 nd : forall off, layout nodes off nd -> in_prims nd ->
    exists k, 1 <= k <= nsize nd /\
      (svisit ray d2 nd = false -> forall fuel stack,
        shadow_loop (k + fuel) nodes prims ray d2 (Z.of_nat off) stack =
        match stack with
        | i :: st => shadow_loop fuel nodes prims ray d2 i st
        | [] => Ret (true, [])
        end) /\
      (svisit ray d2 nd = true -> forall fuel stack,
        exists st, shadow_loop (k + fuel) nodes prims ray d2 (Z.of_nat off) stack = Ret (false, st)).
  Proof.
    induction nd as [b first n|b ax c1 IH1 c2 IH2]; intros off HL HI; cbn [layout in_prims nsize svisit] in *.
    - exists 1. split; [lia|]. destruct HL as [ax HL].
      split; intros HS fuel stack; cbn [Nat.add shadow_loop]; rewrite (nthZ_nat _ _ _ HL); cbn [f_bounds];
        destruct (bbox_hit b ray (inv_dir ray)); try discriminate; try reflexivity;
        unfold is_leaf; cbn [f_nprims f_next];
        replace ((0 <? Z.of_nat n)%Z) with true by (symmetry; apply Z.ltb_lt; lia);
        rewrite !as_usize_id by lia; rewrite sliceZ_slice by lia; cbn [andb] in HS; rewrite HS; eauto.
    - destruct HL as (off2 & HL & Hoff2 & HL1 & HL2). destruct HI as [HI1 HI2].
      destruct (IH1 _ HL1 HI1) as (k1 & Hk1 & Q1 & R1). destruct (IH2 _ HL2 HI2) as (k2 & Hk2 & Q2 & R2).
      assert (HN : nthZ nodes (Z.of_nat off) = Some (mkFlat b 0 ax (Z.of_nat off2))) by (apply nthZ_nat; assumption).
      assert (HU : as_usize (Z.of_nat off2) = Z.of_nat off2) by (apply as_usize_id; lia).
      assert (HC : (Z.of_nat off + 1 = Z.of_nat (off + 1))%Z) by lia.
      destruct (bbox_hit b ray (inv_dir ray)) eqn:HB; cbn [andb].
      + exists (1 + (k1 + k2)). split; [lia|].
        assert (STEP : forall fuel stack,
          shadow_loop (1 + (k1 + k2) + fuel) nodes prims ray d2 (Z.of_nat off) stack =
          if dir_is_neg ray ax
          then shadow_loop (k2 + (k1 + fuel)) nodes prims ray d2 (Z.of_nat off2) (Z.of_nat (off + 1) :: stack)
          else shadow_loop (k1 + (k2 + fuel)) nodes prims ray d2 (Z.of_nat (off + 1)) (Z.of_nat off2 :: stack)).
        { intros fuel stack. replace (1 + (k1 + k2) + fuel) with (S (k1 + (k2 + fuel))) by lia.
          cbn [shadow_loop]. rewrite HN. cbn [f_bounds f_axis f_next]. rewrite HB.
          unfold is_leaf; cbn [f_nprims]. cbn [Z.ltb Z.compare]. rewrite HU, HC.
          replace (k2 + (k1 + fuel)) with (k1 + (k2 + fuel)) by lia. reflexivity. }
        split.
        * intros HS fuel stack. apply Bool.orb_false_elim in HS as [S1 S2]. rewrite STEP.
          destruct (dir_is_neg ray ax); [rewrite (Q2 S2), (Q1 S1)|rewrite (Q1 S1), (Q2 S2)]; reflexivity.
        * intros HS fuel stack. rewrite STEP.
          destruct (dir_is_neg ray ax).
          -- destruct (svisit ray d2 c2) eqn:S2; [apply R2; reflexivity|].
             rewrite (Q2 eq_refl). rewrite Bool.orb_false_r in HS. apply R1; assumption.
          -- destruct (svisit ray d2 c1) eqn:S1; [apply R1; reflexivity|].
             rewrite (Q1 eq_refl). apply R2; assumption.
      + exists 1. split; [lia|]. split; [|discriminate].
        intros _ fuel stack. cbn [Nat.add shadow_loop]. rewrite HN. cbn [f_bounds]. rewrite HB. reflexivity.
  Qed.
End Build.
