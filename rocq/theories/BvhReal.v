(** * The accelerator build in real arithmetic: it always succeeds, and every box encloses what is below it *)
From Coq Require Import Permutation Sorted.
From Verif Require Import NumR Geometry Triangle SpecGeom TriangleProofs Ray Bvh BvhProofs BvhOrder.
Open Scope R_scope.

Lemma strict_order_R : strict_order NumR.
Proof.
  split.
  - intros x. apply Rltb_false. lra.
  - intros x y z H1 H2. cbn in *. rewrite Rltb_true in *. lra.
Qed.

(** ** Contracts of the external routines (geometry3d and the standard library) *)
Definition sorts_by_centroid (E : @Ext NumR) : Prop :=
  forall ax l, StronglySorted (fun a b => cmp_centroids ax a b <> Gt) (sort_by (cmp_centroids ax) l).
Definition box_test_complete (E : @Ext NumR) : Prop :=
  forall (b : BoxR) (r : RayR) s, 0 < s -> in_box b (along r s) -> bbox_hit b r (inv_dir r) = true.
Definition max_extent_ok (E : @Ext NumR) : Prop :=
  forall (b : BoxR) ax, comp ax (bmax b) - comp ax (bmin b) <= comp (max_extent b) (bmax b) - comp (max_extent b) (bmin b).

Definition key (ax : Axis) (i : @ObjectInfo NumR) : R := comp ax (oi_centroid i).

Lemma cmp_le ax a b : cmp_centroids ax a b <> Gt -> key ax a <= key ax b.
Proof.
  unfold cmp_centroids, cmp_float, key. intros H. rsimp.
  destruct (Rltb_spec (comp ax (oi_centroid a)) (comp ax (oi_centroid b))); [lra|].
  destruct (Rltb_spec (comp ax (oi_centroid b)) (comp ax (oi_centroid a))); [congruence|lra].
Qed.

(** ** centroid bounds *)
Lemma comp_union_point ax (b : BoxR) p :
  comp ax (bmin (box_union_point b p)) = fminb (comp ax (bmin b)) (comp ax p) /\
  comp ax (bmax (box_union_point b p)) = fmaxb (comp ax (bmax b)) (comp ax p).
Proof. destruct ax; split; reflexivity. Qed.

Lemma fold_bounds ax (rest : list (@ObjectInfo NumR)) : forall b : BoxR,
  let cb := fold_left (fun b x => box_union_point b (oi_centroid x)) rest b in
  (forall x, In x rest -> comp ax (bmin cb) <= key ax x <= comp ax (bmax cb)) /\
  comp ax (bmin cb) <= comp ax (bmin b) /\ comp ax (bmax b) <= comp ax (bmax cb) /\
  (comp ax (bmin cb) = comp ax (bmin b) \/ exists x, In x rest /\ key ax x = comp ax (bmin cb)) /\
  (comp ax (bmax cb) = comp ax (bmax b) \/ exists x, In x rest /\ key ax x = comp ax (bmax cb)).
Proof.
  induction rest as [|y rest IH]; intros b; cbn [fold_left].
  - cbv zeta. split; [intros x []|]. rsimp. repeat split; try lra; left; reflexivity.
  - specialize (IH (box_union_point b (oi_centroid y))). cbv zeta in *.
    destruct (comp_union_point ax b (oi_centroid y)) as [Em EM]. rewrite Em, EM in IH.
    set (cb := fold_left _ rest _) in *. clearbody cb.
    pose proof (fminb_le (comp ax (bmin b)) (comp ax (oi_centroid y))) as M1.
    pose proof (fmaxb_ge (comp ax (bmax b)) (comp ax (oi_centroid y))) as M2.
    destruct IH as (I1 & I2 & I3 & I4 & I5). unfold key in *. rsimp.
    split; [intros x [<-|Hx]; [lra|apply I1; assumption]|]. split; [lra|]. split; [lra|]. split.
    + destruct I4 as [I4|(x & Hx & I4)].
      * unfold fminb in I4. rsimp. destruct (Rltb_spec (comp ax (oi_centroid y)) (comp ax (bmin b))).
        -- right. exists y. split; [left; reflexivity|]. symmetry; assumption.
        -- left. assumption.
      * right. exists x. split; [right; assumption|assumption].
    + destruct I5 as [I5|(x & Hx & I5)].
      * unfold fmaxb in I5. rsimp. destruct (Rltb_spec (comp ax (bmax b)) (comp ax (oi_centroid y))).
        -- right. exists y. split; [left; reflexivity|]. symmetry; assumption.
        -- left. assumption.
      * right. exists x. split; [right; assumption|assumption].
Qed.

Lemma centroid_bounds_spec ax i rest :
  let cb := @centroid_bounds NumR i rest in
  (forall x, In x (i :: rest) -> comp ax (bmin cb) <= key ax x <= comp ax (bmax cb)) /\
  (exists x, In x (i :: rest) /\ key ax x = comp ax (bmin cb)) /\
  (exists x, In x (i :: rest) /\ key ax x = comp ax (bmax cb)).
Proof.
  cbv zeta. unfold centroid_bounds.
  destruct (fold_bounds ax rest (box_point (oi_centroid i))) as (I1 & I2 & I3 & I4 & I5).
  set (cb := fold_left _ rest _) in *. clearbody cb. cbn [box_point bmin bmax] in *. unfold key in *. rsimp.
  split; [intros x [<-|Hx]; [lra|apply I1; assumption]|]. split.
  - destruct I4 as [I4|(x & Hx & I4)]; [exists i; split; [left; reflexivity|symmetry; assumption]|exists x; split; [right; assumption|assumption]].
  - destruct I5 as [I5|(x & Hx & I5)]; [exists i; split; [left; reflexivity|symmetry; assumption]|exists x; split; [right; assumption|assumption]].
Qed.

Lemma plus_minus_id (a b : R) : b = a + (b - a). Proof. ring. Qed.
(** ** buckets *)
Lemma Int_part_mono x y : x <= y -> (Int_part x <= Int_part y)%Z.
Proof.
  intros H. destruct (base_Int_part x) as [A1 A2], (base_Int_part y) as [B1 B2].
  apply Z.lt_succ_r. apply lt_IZR. rewrite succ_IZR. lra.
Qed.
Lemma Int_part_IZR z : Int_part (IZR z) = z.
Proof.
  destruct (base_Int_part (IZR z)) as [A1 A2].
  apply le_IZR in A1. assert (z - 1 < Int_part (IZR z))%Z by (apply lt_IZR; rewrite minus_IZR; lra). lia.
Qed.

Lemma Rtrunc_nonneg lo hi x : 0 <= x -> Rtrunc lo hi x = Z.max lo (Z.min hi (Int_part x)).
Proof. intros H. unfold Rtrunc. destruct (Rle_dec 0 x); [reflexivity|contradiction]. Qed.

Definition slot (minc len k : R) : R := (k - minc) * 12 / len.
Lemma bucket_as_slot c len ax minc : @get_bucket_index NumR c len ax minc =
  let z := Rtrunc 0 USIZE_MAX (slot (comp ax minc) len (comp ax c)) in if (12 <=? z)%Z then 11%nat else Z.to_nat z.
Proof. unfold get_bucket_index, slot, N_BUCKETS. rsimp. cbn [Z.of_nat Pos.of_succ_nat Pos.succ Nat.sub]. reflexivity. Qed.

Section Buckets.
  Variables (len minc : R) (ax : Axis) (mv : VecR).
  Hypothesis Hlen : 0 < len.
  Hypothesis Hmv : comp ax mv = minc.
  Let B (c : VecR) : nat := @get_bucket_index NumR c len ax mv.

  Lemma slot_nonneg k : minc <= k -> 0 <= slot minc len k.
  Proof. intros H. unfold slot, Rdiv. apply Rmult_le_pos; [|left; apply Rinv_0_lt_compat; assumption]. lra. Qed.

  Lemma bucket_lt c : (B c < 12)%nat.
  Proof.
    unfold B. rewrite bucket_as_slot. cbv zeta. destruct (Z.leb_spec 12 (Rtrunc 0 USIZE_MAX (slot (comp ax mv) len (comp ax c)))); [lia|].
    unfold Rtrunc in *. lia.
  Qed.
  Lemma bucket_mono a b : minc <= comp ax a -> comp ax a <= comp ax b -> (B a <= B b)%nat.
  Proof.
    intros H1 H2. unfold B. rewrite !bucket_as_slot, Hmv. cbv zeta.
    assert (Hs : slot minc len (comp ax a) <= slot minc len (comp ax b)).
    { unfold slot, Rdiv. apply Rmult_le_compat_r; [left; apply Rinv_0_lt_compat; assumption|]. rsimp. lra. }
    rewrite !Rtrunc_nonneg by (apply slot_nonneg; rsimp; lra).
    pose proof (Int_part_mono _ _ Hs).
    repeat match goal with |- context [(12 <=? ?z)%Z] => destruct (Z.leb_spec 12 z) end; lia.
  Qed.
  Lemma bucket_first c : comp ax c = minc -> B c = 0%nat.
  Proof.
    intros H. unfold B. rewrite bucket_as_slot, Hmv, H. cbv zeta.
    replace (slot minc len minc) with (IZR 0) by (unfold slot, Rdiv; ring).
    rewrite Rtrunc_nonneg by lra. rewrite Int_part_IZR. reflexivity.
  Qed.
  Lemma bucket_last c : comp ax c = minc + len -> B c = 11%nat.
  Proof.
    intros H. unfold B. rewrite bucket_as_slot, Hmv, H. cbv zeta.
    replace (slot minc len (minc + len)) with (IZR 12) by (unfold slot; field; lra).
    rewrite Rtrunc_nonneg by lra. rewrite Int_part_IZR. reflexivity.
  Qed.
End Buckets.

Lemma nth_firstn_cons {A} (l : list A) i x d j : (i < length l)%nat ->
  nth j (firstn i l ++ x :: skipn (S i) l) d = if Nat.eqb j i then x else nth j l d.
Proof.
  revert i j. induction l as [|y l IH]; intros [|i] [|j] H; cbn in *; try lia; try reflexivity.
  rewrite IH by lia. reflexivity.
Qed.

Lemma register_length bi c (bs : list (@Bucket NumR)) : length (register bi c bs) = length bs.
Proof.
  unfold register. destruct (nth_error bs bi) as [[n ob]|] eqn:E; [|reflexivity].
  assert (bi < length bs)%nat by (apply nth_error_Some; congruence).
  rewrite app_length, firstn_length. cbn [length]. rewrite skipn_length. lia.
Qed.
Lemma register_keep bi c (bs : list (@Bucket NumR)) j :
  snd (nth j bs bucket0) <> None -> snd (nth j (register bi c bs) bucket0) <> None.
Proof.
  intros H. unfold register. destruct (nth_error bs bi) as [[n ob]|] eqn:E; [|assumption].
  assert (bi < length bs)%nat by (apply nth_error_Some; congruence).
  rewrite nth_firstn_cons by assumption. destruct (Nat.eqb j bi); [discriminate|assumption].
Qed.
Lemma register_set bi c (bs : list (@Bucket NumR)) :
  (bi < length bs)%nat -> snd (nth bi (register bi c bs) bucket0) <> None.
Proof.
  intros H. unfold register. destruct (nth_error bs bi) as [[n ob]|] eqn:E; [|apply nth_error_None in E; lia].
  rewrite nth_firstn_cons by assumption. rewrite Nat.eqb_refl. discriminate.
Qed.

Lemma fill_spec (f : @ObjectInfo NumR -> nat) infos : forall bs : list (@Bucket NumR), length bs = 12%nat ->
  (forall x, (f x < 12)%nat) ->
  let r := fold_left (fun bs i => register (f i) (oi_centroid i) bs) infos bs in
  (forall j, snd (nth j bs bucket0) <> None -> snd (nth j r bucket0) <> None) /\
  (forall x, In x infos -> snd (nth (f x) r bucket0) <> None).
Proof.
  induction infos as [|y infos IH]; intros bs HL Hf; cbn [fold_left].
  - cbv zeta. split; [auto|intros x []].
  - destruct (IH (register (f y) (oi_centroid y) bs)) as [I1 I2]; [rewrite register_length; assumption|assumption|].
    cbv zeta. split.
    + intros j H. apply I1, register_keep, H.
    + intros x [<-|Hx]; [apply I1, register_set; rewrite HL; apply Hf|apply I2, Hx].
Qed.

Lemma merge_some (init : @Bucket NumR) l : snd init <> None -> merge_buckets init l <> None.
Proof. unfold merge_buckets. destruct (snd init); [discriminate|congruence]. Qed.

Section Decide.
  Context {E : @Ext NumR}.

  Lemma split_cost_some bs b i : snd (nth 0 bs bucket0) <> None -> snd (nth 11 bs bucket0) <> None ->
    exists c, @split_cost NumR E bs b i = Some c.
  Proof.
    intros H0 H11. unfold split_cost, N_BUCKETS. cbn [Nat.sub].
    pose proof (merge_some _ (skipn 1 (firstn (i + 1) bs)) H0) as M0.
    pose proof (merge_some _ (skipn (i + 1) (firstn 11 bs)) H11) as M1.
    destruct (merge_buckets _ _) as [[nb bb]|]; [|congruence].
    destruct (merge_buckets _ _) as [[na ba]|]; [|congruence]. eauto.
  Qed.

  Lemma min_cost_some bs b idx : (forall i, exists c, @split_cost NumR E bs b i = Some c) -> forall best,
    exists c k, @min_cost_loop NumR E bs b idx best = Some (c, k) /\ (k = snd best \/ In k idx).
  Proof.
    intros H. induction idx as [|i idx IH]; intros best; cbn [min_cost_loop].
    - destruct best as [c k]. exists c, k. auto.
    - destruct (H i) as [c Hc]. rewrite Hc.
      destruct (IH (if fltb c (fst best) then (c, i) else best)) as (c' & k & E1 & E2).
      exists c', k. split; [assumption|]. destruct E2 as [E2|E2]; [|right; right; assumption].
      destruct (fltb c (fst best)); cbn in E2; [right; left; congruence|left; assumption].
  Qed.

  Lemma leading_all p l : leading p l = length l -> forall x : @ObjectInfo NumR, In x l -> p x = true.
  Proof.
    induction l as [|y l IH]; cbn [leading length]; intros H x [].
    - subst. destruct (p x); [reflexivity|discriminate].
    - destruct (p y); [|discriminate]. apply IH; [lia|assumption].
  Qed.
  Lemma leading_le p (l : list (@ObjectInfo NumR)) : (leading p l <= length l)%nat.
  Proof. induction l as [|y l IH]; cbn; [lia|]. destruct (p y); lia. Qed.

  (** every split is proper and nothing panics *)
  Lemma decide_total (HP : perm_sorts E) (HS : sorts_by_centroid E) i rest :
    decide i rest = Some MakeLeaf \/
    exists ax l mid, decide i rest = Some (Split ax l mid) /\ (0 < mid < length (i :: rest))%nat.
  Proof.
    unfold decide. cbv zeta. set (n := length (i :: rest)).
    destruct (Nat.eqb_spec n 1) as [|Hn1]; [left; reflexivity|].
    set (cb := centroid_bounds i rest). set (ax := max_extent cb).
    set (len := fsub (comp ax (bmax cb)) (comp ax (bmin cb))).
    destruct (fltb len (flit 1 100000000)) eqn:L; [left; reflexivity|].
    assert (Hlen : 0 < len).
    { apply Rltb_false in L. refine (Rlt_le_trans _ _ _ _ L). rsimp. lra. }
    assert (Hn : (1 <= n)%nat) by (unfold n; cbn; lia).
    destruct (Nat.leb_spec n 4) as [H4|H4].
    { right. exists ax, (select_by (Nat.div2 n) (cmp_centroids ax) (i :: rest)), (Nat.div2 n). split; [reflexivity|].
      clearbody n. clear - H4 Hn Hn1. do 5 (destruct n as [|n]; cbn; try lia). }
    destruct (centroid_bounds_spec ax i rest) as (C1 & (xm & Im & Em) & (xM & IM & EM)). fold cb in C1, Em, EM.
    set (bidx := fun x : @ObjectInfo NumR => get_bucket_index (oi_centroid x) len ax (bmin cb)).
    assert (Bm : bidx xm = 0%nat) by (apply bucket_first with (minc := comp ax (bmin cb)); [reflexivity|exact Em]).
    assert (BM : bidx xM = 11%nat).
    { apply bucket_last with (minc := comp ax (bmin cb)); [assumption|reflexivity|].
      unfold key in EM. rewrite EM. unfold len. exact (plus_minus_id _ _). }
    assert (Blt : forall x, (bidx x < 12)%nat) by (intros x; apply bucket_lt).
    set (bs := fill_buckets len ax (bmin cb) (i :: rest)).
    destruct (fill_spec bidx (i :: rest) (repeat (0%nat, None) 12) eq_refl Blt) as [_ F2].
    change (fold_left _ (i :: rest) _) with bs in F2.
    destruct (min_cost_some bs (bounds_of i rest) (seq 0 (N_BUCKETS - 1))
                (fun j => split_cost_some bs (bounds_of i rest) j
                   ltac:(rewrite <- Bm; apply F2, Im) ltac:(rewrite <- BM; apply F2, IM)) (FMAX, 0%nat))
      as (c & k & Hk & Hk2).
    rewrite Hk.
    assert (Hk10 : (k <= 10)%nat).
    { destruct Hk2 as [->|Hin]; [cbn; lia|]. apply in_seq in Hin. unfold N_BUCKETS in Hin. lia. }
    destruct (Nat.ltb 24 n || fltb c (fofZ (Z.of_nat n)))%bool; [|left; reflexivity].
    right. pose proof (HS ax (i :: rest)) as Sx. pose proof (proj1 HP (cmp_centroids ax) (i :: rest)) as Px.
    set (sorted := sort_by (cmp_centroids ax) (i :: rest)) in *.
    change (fun x : ObjectInfo => Nat.leb (get_bucket_index (oi_centroid x) len ax (bmin cb)) k)
      with (fun x : ObjectInfo => Nat.leb (bidx x) k).
    set (p := fun x : ObjectInfo => Nat.leb (bidx x) k).
    assert (Hpos : (0 < leading p sorted)%nat).
    { destruct sorted as [|h tl] eqn:Es; [apply Permutation_nil in Px; discriminate|].
      assert (Hh : bidx h = 0%nat).
      { apply bucket_first with (minc := comp ax (bmin cb)); [reflexivity|].
        assert (Hin : In xm (h :: tl)) by (eapply Permutation_in; [symmetry; exact Px|exact Im]).
        assert (Hin' : In h (i :: rest)) by (eapply Permutation_in; [exact Px|left; reflexivity]).
        pose proof (C1 h Hin') as Ch.
        assert (Hle : key ax h <= key ax xm).
        { destruct Hin as [->|Hin]; [lra|]. apply cmp_le. inversion Sx as [|? ? ? FA]; subst.
          rewrite Forall_forall in FA. apply FA, Hin. }
        unfold key in *. rsimp. lra. }
      cbn [leading]. unfold p at 1. rewrite Hh. cbn [Nat.leb]. lia. }
    assert (Hlt : (leading p sorted < n)%nat).
    { assert (HLs : length sorted = n) by (apply Permutation_length; exact Px).
      pose proof (leading_le p sorted). destruct (Nat.eq_dec (leading p sorted) n) as [D|D]; [|lia].
      exfalso. assert (Hp : p xM = true).
      { eapply leading_all; [rewrite D; symmetry; exact HLs|]. eapply Permutation_in; [symmetry; exact Px|exact IM]. }
      unfold p in Hp. rewrite BM in Hp. apply Nat.leb_le in Hp. lia. }
    destruct (Nat.eqb_spec (leading p sorted) 0) as [D|D]; [lia|].
    exists ax, sorted, (leading p sorted). split; [reflexivity|lia].
  Qed.
End Decide.
