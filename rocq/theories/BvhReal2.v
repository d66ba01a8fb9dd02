(** * Totality of the build, enclosure, leaf sizes (real arithmetic) *)
From Coq Require Import Permutation Sorted.
From Verif Require Import NumR Geometry Triangle SpecGeom TriangleProofs Ray Bvh BvhProofs BvhOrder BvhReal.
Open Scope R_scope.

Definition tri_of {N : Num} (r : Triangle * nat * nat * (Vec * Vec * Vec)) : Triangle := fst (fst (fst r)).
Lemma map_fst_combine {A B} (l : list A) (m : list B) : (length l <= length m)%nat -> map fst (combine l m) = l.
Proof. revert m. induction l as [|a l IH]; intros [|b m] H; cbn in *; try lia; try reflexivity. rewrite IH by lia. reflexivity. Qed.
Lemma tri_of_records {N : Num} (a : Arrays) : aligned a -> map tri_of (records a) = a_tri a.
Proof.
  intros (H1 & H2 & H3). unfold records, tri_of.
  rewrite <- (map_map (fun r => fst r) (fun r => fst (fst r))). rewrite map_fst_combine by (rewrite !combine_length; lia).
  rewrite <- (map_map (fun r => fst r) (fun r => fst r)). rewrite map_fst_combine by (rewrite !combine_length; lia).
  apply map_fst_combine. lia.
Qed.

Section Real.
  Context {E : @Ext NumR}.
  Hypothesis HP : perm_sorts E.
  Implicit Types (scene ord : @Arrays NumR) (infos : list (@ObjectInfo NumR)).

  (** an info describes the triangle it points to *)
  Definition describes scene (x : @ObjectInfo NumR) : Prop :=
    exists t, nth_error (a_tri scene) (oi_index x) = Some t /\ x = object_info (oi_index x) t.

  Lemma infos_of_describe scene : Forall (describes scene) (infos_of (a_tri scene)).
  Proof.
    apply Forall_forall. intros x Hx. unfold infos_of in Hx. apply in_map_iff in Hx as ([j t] & <- & Hin).
    exists t. cbn [fst snd oi_index object_info]. split; [|reflexivity].
    apply In_nth_error in Hin as [k Hk]. rewrite nth_error_combine in Hk.
    destruct (nth_error (seq 0 (length (a_tri scene))) k) as [j'|] eqn:Hs; [|discriminate].
    destruct (nth_error (a_tri scene) k) as [t'|] eqn:Ht; [|discriminate]. injection Hk as -> ->.
    assert (k < length (a_tri scene))%nat by (apply nth_error_Some; congruence).
    assert (Hj : nth_error (seq 0 (length (a_tri scene))) k = Some (0 + k)%nat).
    { rewrite (nth_error_nth' _ 0%nat) by (rewrite seq_length; assumption). rewrite seq_nth by assumption. reflexivity. }
    rewrite Hj in Hs. injection Hs as <-. assumption.
  Qed.

  Lemma push_all_total scene infos : aligned scene -> Forall (describes scene) infos ->
    forall ord, exists ord', push_all scene infos ord = Some ord'.
  Proof.
    intros (A1 & A2 & A3) H. induction H as [|x infos Hx H IH]; intros ord; cbn [push_all]; [eauto|].
    destruct Hx as (t & Ht & _).
    assert (HL : (oi_index x < length (a_tri scene))%nat) by (apply nth_error_Some; congruence).
    unfold push_one. rewrite Ht.
    destruct (nth_error (a_back scene) (oi_index x)) eqn:EB; [|apply nth_error_None in EB; lia].
    destruct (nth_error (a_front scene) (oi_index x)) eqn:EF; [|apply nth_error_None in EF; lia].
    destruct (nth_error (a_norm scene) (oi_index x)) eqn:EN; [|apply nth_error_None in EN; lia].
    apply IH.
  Qed.

  Lemma build_total (HS : sorts_by_centroid E) scene : aligned scene ->
    forall fuel infos ord, infos <> [] -> (length infos <= fuel)%nat -> Forall (describes scene) infos ->
    exists nd ord', recursive_build fuel scene infos ord = Ret (nd, ord').
  Proof.
    intros Ha. induction fuel as [|k IH]; intros infos ord Hne HL HF.
    { destruct infos; [congruence|cbn in HL; lia]. }
    cbn [recursive_build]. destruct infos as [|i rest]; [congruence|].
    destruct (decide_total HP HS i rest) as [->|(ax & l & mid & D & Hm)].
    - destruct (push_all_total scene (i :: rest) Ha HF ord) as [o Ho]. rewrite Ho. cbn. eauto.
    - rewrite D. pose proof (decide_perm HP _ _ _ _ _ D) as Pl. pose proof (Permutation_length Pl) as HLl.
      assert (HFl : Forall (describes scene) l).
      { apply Forall_forall. intros x Hx. rewrite Forall_forall in HF. apply HF. eapply Permutation_in; eassumption. }
      rewrite <- (firstn_skipn mid l) in HFl. apply Forall_app in HFl as [F1 F2].
      destruct (IH (firstn mid l) ord) as (c1 & o1 & E1).
      { intros D'. apply (f_equal (@length _)) in D'. rewrite firstn_length in D'. cbn in *. lia. }
      { rewrite firstn_length. cbn in *. lia. }
      { assumption. }
      destruct (IH (skipn mid l) o1) as (c2 & o2 & E2).
      { intros D'. apply (f_equal (@length _)) in D'. rewrite skipn_length in D'. cbn in *. lia. }
      { rewrite skipn_length. cbn in *. lia. }
      { assumption. }
      rewrite E1. cbn [obind]. rewrite E2. cbn [obind]. eauto.
  Qed.

  (** ** every leaf's content, in terms of the infos it was made from *)
  Fixpoint encl (prims : list TriR) (nd : Node) : Prop :=
    match nd with
    | Leaf b first n => forall j t, (first <= j < first + n)%nat -> nth_error prims j = Some t ->
                        forall p, in_box (world_bounds t) p -> in_box b p
    | Inner b _ c1 c2 => encl prims c1 /\ encl prims c2 /\
        (forall p, in_box (node_bounds c1) p -> in_box b p) /\ (forall p, in_box (node_bounds c2) p -> in_box b p)
    end.
  Definition centre (t : TriR) (ax : Axis) : R := (comp ax (bmin (world_bounds t)) + comp ax (bmax (world_bounds t))) / 2.
  Definition close (t t' : TriR) : Prop := forall ax, Rabs (centre t ax - centre t' ax) < 1 / 100000000.
  Fixpoint tight_leaves (prims : list TriR) (nd : Node) : Prop :=
    match nd with
    | Leaf b first n => (n <= 24)%nat \/
        forall j j' t t', (first <= j < first + n)%nat -> (first <= j' < first + n)%nat ->
          nth_error prims j = Some t -> nth_error prims j' = Some t' -> close t t'
    | Inner b _ c1 c2 => tight_leaves prims c1 /\ tight_leaves prims c2
    end.

  Lemma encl_ext prims extra nd : in_prims prims nd -> encl prims nd -> encl (prims ++ extra) nd.
  Proof.
    induction nd as [b first n|b ax c1 IH1 c2 IH2]; cbn [in_prims encl].
    - intros HI H j t Hj Ht. rewrite nth_error_app1 in Ht by lia. eauto.
    - intros [I1 I2] (H1 & H2 & H3 & H4). auto.
  Qed.
  Lemma tight_ext prims extra nd : in_prims prims nd -> tight_leaves prims nd -> tight_leaves (prims ++ extra) nd.
  Proof.
    induction nd as [b first n|b ax c1 IH1 c2 IH2]; cbn [in_prims tight_leaves].
    - intros HI [H|H]; [left; assumption|right]. intros j j' t t' Hj Hj' Ht Ht'.
      rewrite nth_error_app1 in Ht by lia. rewrite nth_error_app1 in Ht' by lia. eauto.
    - intros [I1 I2] (H1 & H2). auto.
  Qed.

  Lemma union_fold_in (rest : list (@ObjectInfo NumR)) : forall b p,
    (in_box b p -> in_box (fold_left (fun b x => box_union b (oi_bounds x)) rest b) p) /\
    (forall x, In x rest -> in_box (oi_bounds x) p -> in_box (fold_left (fun b x => box_union b (oi_bounds x)) rest b) p).
  Proof.
    induction rest as [|y rest IH]; intros b p; cbn [fold_left].
    - split; [auto|intros x []].
    - destruct (IH (box_union b (oi_bounds y)) p) as [I1 I2]. split.
      + intros H. apply I1, in_box_union_l, H.
      + intros x [<-|Hx] H; [apply I1, in_box_union_r, H|eapply I2; eassumption].
  Qed.
  Lemma bounds_of_in i rest x p : In x (i :: rest) -> in_box (oi_bounds x) p -> in_box (bounds_of i rest) p.
  Proof.
    unfold bounds_of. destruct (union_fold_in rest (oi_bounds i) p) as [I1 I2].
    intros [<-|Hx] H; [apply I1, H|eapply I2; eassumption].
  Qed.

  Lemma centre_key t j ax : key ax (object_info j t) = centre t ax.
  Proof. unfold key, centre, object_info. cbn [oi_centroid]. destruct ax; unfold vscale, vadd; cbn [comp vx vy vz]; rsimp; field. Qed.

  Lemma decide_leaf (HM : max_extent_ok E) i rest : decide i rest = Some MakeLeaf ->
    (length (i :: rest) <= 24)%nat \/
    forall x y ax, In x (i :: rest) -> In y (i :: rest) -> Rabs (key ax x - key ax y) < 1 / 100000000.
  Proof.
    unfold decide. cbv zeta.
    destruct (Nat.eqb_spec (length (i :: rest)) 1) as [H1|H1]; [left; lia|].
    set (cb := centroid_bounds i rest). set (ax := max_extent cb).
    destruct (fltb _ (flit 1 100000000)) eqn:L.
    - intros _. right. intros x y a Hx Hy. apply Rltb_true in L. rsimp.
      destruct (centroid_bounds_spec a i rest) as (C1 & _). fold cb in C1.
      pose proof (C1 x Hx) as Kx. pose proof (C1 y Hy) as Ky. pose proof (HM cb a) as M. fold ax in M.
      apply Rabs_def1; rsimp; lra.
    - destruct (Nat.leb _ 4) eqn:L4; [discriminate|].
      destruct (min_cost_loop _ _ _ _) as [[c k]|]; [|discriminate].
      destruct (Nat.ltb_spec 24 (length (i :: rest))); cbn [orb]; [|left; lia].
      destruct (Nat.eqb _ 0); discriminate.
  Qed.

  (** the triangles appended by a leaf are the ones its infos describe *)
  Lemma push_tri scene infos : forall ord ord', Forall (describes scene) infos -> push_all scene infos ord = Some ord' ->
    exists ts, a_tri ord' = a_tri ord ++ ts /\ Forall2 (fun x t => x = object_info (oi_index x) t) infos ts.
  Proof.
    induction infos as [|x infos IH]; intros ord ord' HF H; cbn [push_all] in H.
    - injection H as <-. exists []. rewrite app_nil_r. split; [reflexivity|constructor].
    - inversion HF as [|? ? (t & Ht & Hx) HF']; subst.
      destruct (push_one scene (oi_index x) ord) as [o|] eqn:P; [|discriminate].
      assert (Ho : a_tri o = a_tri ord ++ [t]).
      { unfold push_one in P. rewrite Ht in P.
        destruct (nth_error (a_back scene) (oi_index x)); [|discriminate].
        destruct (nth_error (a_front scene) (oi_index x)); [|discriminate].
        destruct (nth_error (a_norm scene) (oi_index x)); [|discriminate].
        injection P as <-. reflexivity. }
      destruct (IH _ _ HF' H) as (ts & E1 & E2). exists (t :: ts). split; [|constructor; assumption].
      rewrite E1, Ho, <- app_assoc. reflexivity.
  Qed.

  Lemma build_grows scene : forall fuel infos ord nd ord', aligned ord ->
    recursive_build fuel scene infos ord = Ret (nd, ord') -> exists ts, a_tri ord' = a_tri ord ++ ts.
  Proof.
    intros fuel infos ord nd ord' Ha H. destruct (build_spec HP _ _ _ _ _ _ Ha H) as (Ha' & _ & _ & i' & rs & _ & _ & R).
    exists (map tri_of rs). rewrite <- (tri_of_records _ Ha'), <- (tri_of_records _ Ha), R, map_app. reflexivity.
  Qed.

  Lemma Forall2_nth {A B} (P : A -> B -> Prop) l m : Forall2 P l m ->
    forall k b, nth_error m k = Some b -> exists a, nth_error l k = Some a /\ P a b.
  Proof.
    intros H. induction H as [|a b l m Hab H IH]; intros [|k] y Hy; cbn in *; try discriminate.
    - injection Hy as <-. eauto.
    - apply IH, Hy.
  Qed.

  Theorem build_boxes (HM : max_extent_ok E) scene : forall fuel infos ord nd ord',
    aligned ord -> Forall (describes scene) infos ->
    recursive_build fuel scene infos ord = Ret (nd, ord') ->
    encl (a_tri ord') nd /\ tight_leaves (a_tri ord') nd.
  Proof.
    induction fuel as [|k IH]; intros infos ord nd ord' Ha HF H; [discriminate|].
    pose proof H as H0.
    cbn [recursive_build] in H. destruct infos as [|i rest]; [discriminate|].
    destruct (decide i rest) as [[|ax l mid]|] eqn:D; [| |discriminate].
    - destruct (push_all scene (i :: rest) ord) as [o1|] eqn:Ep; [|discriminate].
      cbn [ret_opt obind] in H. injection H as <- <-.
      destruct (push_tri _ _ _ _ HF Ep) as (ts & Ets & F2).
      assert (Hat : forall j t, (length (a_tri ord) <= j < length (a_tri ord) + length (i :: rest))%nat ->
                 nth_error (a_tri o1) j = Some t -> exists x, In x (i :: rest) /\ x = object_info (oi_index x) t).
      { intros j t Hj Ht. rewrite Ets, nth_error_app2 in Ht by lia.
        destruct (Forall2_nth _ _ _ F2 _ _ Ht) as (x & Hx & Ex). exists x. split; [eapply nth_error_In; eassumption|assumption]. }
      split; cbn [encl tight_leaves].
      + intros j t Hj Ht p Hp. destruct (Hat j t Hj Ht) as (x & Hx & Ex).
        apply bounds_of_in with x; [assumption|]. rewrite Ex. exact Hp.
      + destruct (decide_leaf HM _ _ D) as [L|L]; [left; assumption|right].
        intros j j' t t' Hj Hj' Ht Ht' a.
        destruct (Hat j t Hj Ht) as (x & Hx & Ex), (Hat j' t' Hj' Ht') as (y & Hy & Ey).
        rewrite <- (centre_key t (oi_index x)), <- (centre_key t' (oi_index y)), <- Ex, <- Ey. apply L; assumption.
    - pose proof (decide_perm HP _ _ _ _ _ D) as Pl.
      assert (HFl : Forall (describes scene) l).
      { apply Forall_forall. intros x Hx. rewrite Forall_forall in HF. apply HF. eapply Permutation_in; eassumption. }
      rewrite <- (firstn_skipn mid l) in HFl. apply Forall_app in HFl as [F1 F2].
      destruct (recursive_build k scene (firstn mid l) ord) as [[c1 o1]| |] eqn:E1; try discriminate.
      cbn [obind] in H.
      destruct (recursive_build k scene (skipn mid l) o1) as [[c2 o2]| |] eqn:E2; try discriminate.
      cbn [obind] in H. injection H as <- <-.
      destruct (build_spec HP _ _ _ _ _ _ Ha E1) as (Ha1 & HL1 & Hc1 & _).
      destruct (IH _ _ _ _ Ha F1 E1) as [X1 Y1]. destruct (IH _ _ _ _ Ha1 F2 E2) as [X2 Y2].
      destruct (build_grows _ _ _ _ _ _ Ha1 E2) as [ts Ets].
      assert (I1 : in_prims (a_tri o1) c1) by (eapply covers_in_prims; [exact Hc1|lia]).
      cbn [new_interior encl tight_leaves]. rewrite Ets.
      split; [|split; [apply tight_ext; assumption|rewrite <- Ets; assumption]].
      split; [apply encl_ext; assumption|]. split; [rewrite <- Ets; assumption|].
      split; intros p Hp; [apply in_box_union_l|apply in_box_union_r]; assumption.
  Qed.
End Real.
