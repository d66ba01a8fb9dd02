(** * BvhFloat: building the accelerator in binary64.

    A generic lemma about one split (every arithmetic), and what it needs from binary64, through Flocq's correctness theorems:
    the smallest centroid falls into the first bucket and the largest into the last one, rounding errors included. *)
From Coq Require Import Permutation Sorted SpecFloat Reals Lra.
From Flocq Require Import Core BinarySingleNaN Relative.
From Verif Require Import Num NumSF SFBridge FloatOps Geometry Triangle Ray Bvh BvhProofs BvhOrder.
Open Scope nat_scope.

(** ** one split, in any arithmetic *)
Section AnyDecide.
  Context {N : Num} {E : Ext}.

  Lemma any_nth_firstn_cons {A} (l : list A) i x d j : (i < length l)%nat ->
    nth j (firstn i l ++ x :: skipn (S i) l) d = if Nat.eqb j i then x else nth j l d.
  Proof.
    revert i j. induction l as [|y l IH]; intros [|i] [|j] H; cbn in *; try lia; try reflexivity.
    rewrite IH by lia. reflexivity.
  Qed.
  Lemma any_register_length bi c (bs : list Bucket) : length (register bi c bs) = length bs.
  Proof.
    unfold register. destruct (nth_error bs bi) as [[n ob]|] eqn:Q; [|reflexivity].
    assert (bi < length bs)%nat by (apply nth_error_Some; congruence).
    rewrite app_length, firstn_length. cbn [length]. rewrite skipn_length. lia.
  Qed.
  Lemma any_register_keep bi c (bs : list Bucket) j : snd (nth j bs bucket0) <> None -> snd (nth j (register bi c bs) bucket0) <> None.
  Proof.
    intros H. unfold register. destruct (nth_error bs bi) as [[n ob]|] eqn:Q; [|assumption].
    assert (bi < length bs)%nat by (apply nth_error_Some; congruence).
    rewrite any_nth_firstn_cons by assumption. destruct (Nat.eqb j bi); [discriminate|assumption].
  Qed.
  Lemma any_register_set bi c (bs : list Bucket) : (bi < length bs)%nat -> snd (nth bi (register bi c bs) bucket0) <> None.
  Proof.
    intros H. unfold register. destruct (nth_error bs bi) as [[n ob]|] eqn:Q; [|apply nth_error_None in Q; lia].
    rewrite any_nth_firstn_cons by assumption. rewrite Nat.eqb_refl. discriminate.
  Qed.
  Lemma any_fill_spec (f : ObjectInfo -> nat) infos : forall bs : list Bucket, length bs = 12%nat -> (forall x, (f x < 12)%nat) ->
    let r := fold_left (fun bs i => register (f i) (oi_centroid i) bs) infos bs in
    (forall j, snd (nth j bs bucket0) <> None -> snd (nth j r bucket0) <> None) /\
    (forall x, In x infos -> snd (nth (f x) r bucket0) <> None).
  Proof.
    induction infos as [|y infos IH]; intros bs HL Hf; cbn [fold_left].
    - cbv zeta. split; [auto|intros x []].
    - destruct (IH (register (f y) (oi_centroid y) bs)) as [I1 I2]; [rewrite any_register_length; assumption|assumption|].
      cbv zeta. split.
      + intros j H. apply I1, any_register_keep, H.
      + intros x [<-|Hx]; [apply I1, any_register_set; rewrite HL; apply Hf|apply I2, Hx].
  Qed.
  Lemma any_merge_some (init : Bucket) l : snd init <> None -> merge_buckets init l <> None.
  Proof. unfold merge_buckets. destruct (snd init); [discriminate|congruence]. Qed.
  Lemma any_split_cost_some bs b i : snd (nth 0 bs bucket0) <> None -> snd (nth 11 bs bucket0) <> None -> exists c, split_cost bs b i = Some c.
  Proof.
    intros H0 H11. unfold split_cost, N_BUCKETS. cbn [Nat.sub].
    pose proof (any_merge_some _ (skipn 1 (firstn (i + 1) bs)) H0) as M0.
    pose proof (any_merge_some _ (skipn (i + 1) (firstn 11 bs)) H11) as M1.
    destruct (merge_buckets _ _) as [[nb bb]|]; [|congruence].
    destruct (merge_buckets _ _) as [[na ba]|]; [|congruence]. eauto.
  Qed.
  Lemma any_min_cost_some bs b idx : (forall i, exists c, split_cost bs b i = Some c) -> forall best,
    exists c k, min_cost_loop bs b idx best = Some (c, k) /\ (k = snd best \/ In k idx).
  Proof.
    intros H. induction idx as [|i idx IH]; intros best; cbn [min_cost_loop].
    - destruct best as [c k]. exists c, k. auto.
    - destruct (H i) as [c Hc]. rewrite Hc.
      destruct (IH (if fltb c (fst best) then (c, i) else best)) as (c' & k & E1 & E2).
      exists c', k. split; [assumption|]. destruct E2 as [E2|E2]; [|right; right; assumption].
      destruct (fltb c (fst best)); cbn in E2; [right; left; congruence|left; assumption].
  Qed.
  Lemma any_leading_all p l : leading p l = length l -> forall x : ObjectInfo, In x l -> p x = true.
  Proof.
    induction l as [|y l IH]; cbn [leading length]; intros H x [].
    - subst. destruct (p x); [reflexivity|discriminate].
    - destruct (p y); [|discriminate]. apply IH; [lia|assumption].
  Qed.
  Lemma any_leading_le p (l : list ObjectInfo) : (leading p l <= length l)%nat.
  Proof. induction l as [|y l IH]; cbn; [lia|]. destruct (p y); lia. Qed.
  Lemma any_bucket_lt c len ax mv : (get_bucket_index c len ax mv < 12)%nat.
  Proof. unfold get_bucket_index, N_BUCKETS. cbv zeta. destruct (Z.leb_spec (Z.of_nat 12) (ftrunc 0 USIZE_MAX (fdiv (fmul (fsub (comp ax c) (comp ax mv)) (fofZ (Z.of_nat 12))) len))); lia. Qed.

  (** what a bucket split relies on *)
  Definition buckets_ok (i : ObjectInfo) (rest : list ObjectInfo) : Prop :=
    let cb := centroid_bounds i rest in
    let ax := max_extent cb in
    let len := fsub (comp ax (bmax cb)) (comp ax (bmin cb)) in
    let bidx x := get_bucket_index (oi_centroid x) len ax (bmin cb) in
    fltb len (flit 1 100000000) = false ->
    (exists x, In x (i :: rest) /\ bidx x = 0%nat) /\ (exists x, In x (i :: rest) /\ bidx x = 11%nat) /\
    forall h tl, sort_by (cmp_centroids ax) (i :: rest) = h :: tl -> bidx h = 0%nat.

  Lemma any_decide_total (HP : perm_sorts E) i rest : buckets_ok i rest ->
    decide i rest = Some MakeLeaf \/
    exists ax l mid, decide i rest = Some (Split ax l mid) /\ (0 < mid < length (i :: rest))%nat.
  Proof.
    intros HB. unfold decide. cbv zeta. unfold buckets_ok in HB. cbv zeta in HB. set (n := length (i :: rest)).
    destruct (Nat.eqb_spec n 1) as [|Hn1]; [left; reflexivity|].
    set (cb := centroid_bounds i rest) in *. set (ax := max_extent cb) in *.
    set (len := fsub (comp ax (bmax cb)) (comp ax (bmin cb))) in *.
    destruct (fltb len (flit 1 100000000)) eqn:L; [left; reflexivity|].
    assert (Hn : (1 <= n)%nat) by (unfold n; cbn; lia).
    destruct (Nat.leb_spec n 4) as [H4|H4].
    { right. exists ax, (select_by (Nat.div2 n) (cmp_centroids ax) (i :: rest)), (Nat.div2 n). split; [reflexivity|].
      clearbody n. clear - H4 Hn Hn1. do 5 (destruct n as [|n]; cbn; try lia). }
    destruct (HB eq_refl) as ((xm & Im & Bm) & (xM & IM & BM) & Hh).
    set (bidx := fun x : ObjectInfo => get_bucket_index (oi_centroid x) len ax (bmin cb)).
    change (bidx xm = 0%nat) in Bm. change (bidx xM = 11%nat) in BM.
    assert (Blt : forall x, (bidx x < 12)%nat) by (intros x; apply any_bucket_lt).
    set (bs := fill_buckets len ax (bmin cb) (i :: rest)).
    destruct (any_fill_spec bidx (i :: rest) (repeat (0%nat, None) 12) eq_refl Blt) as [_ F2].
    change (fold_left _ (i :: rest) _) with bs in F2.
    destruct (any_min_cost_some bs (bounds_of i rest) (seq 0 (N_BUCKETS - 1))
                (fun j => any_split_cost_some bs (bounds_of i rest) j
                   ltac:(rewrite <- Bm; apply F2, Im) ltac:(rewrite <- BM; apply F2, IM)) (FMAX, 0%nat))
      as (c & k & Hk & Hk2).
    rewrite Hk.
    assert (Hk10 : (k <= 10)%nat).
    { destruct Hk2 as [->|Hin]; [cbn; lia|]. apply in_seq in Hin. unfold N_BUCKETS in Hin. lia. }
    destruct (Nat.ltb 24 n || fltb c (fofZ (Z.of_nat n)))%bool; [|left; reflexivity].
    right. pose proof (proj1 HP (cmp_centroids ax) (i :: rest)) as Px.
    set (sorted := sort_by (cmp_centroids ax) (i :: rest)) in *.
    change (fun x : ObjectInfo => Nat.leb (get_bucket_index (oi_centroid x) len ax (bmin cb)) k)
      with (fun x : ObjectInfo => Nat.leb (bidx x) k).
    set (p := fun x : ObjectInfo => Nat.leb (bidx x) k).
    assert (Hpos : (0 < leading p sorted)%nat).
    { destruct sorted as [|h tl] eqn:Es; [apply Permutation_nil in Px; discriminate|].
      specialize (Hh h tl eq_refl). change (bidx h = 0%nat) in Hh.
      cbn [leading]. unfold p at 1. rewrite Hh. cbn [Nat.leb]. lia. }
    assert (Hlt : (leading p sorted < n)%nat).
    { assert (HLs : length sorted = n) by (apply Permutation_length; exact Px).
      pose proof (any_leading_le p sorted). destruct (Nat.eq_dec (leading p sorted) n) as [D|D]; [|lia].
      exfalso. assert (Hp : p xM = true).
      { eapply any_leading_all; [rewrite D; symmetry; exact HLs|]. eapply Permutation_in; [symmetry; exact Px|exact IM]. }
      unfold p in Hp. rewrite BM in Hp. apply Nat.leb_le in Hp. lia. }
    destruct (Nat.eqb_spec (leading p sorted) 0) as [D|D]; [lia|].
    exists ax, sorted, (leading p sorted). split; [reflexivity|lia].
  Qed.
End AnyDecide.

(** ** the whole build, in any arithmetic *)
Section AnyBuild.
  Context {N : Num} {E : Ext}.
  Hypothesis HP : perm_sorts E.

  Definition any_describes (scene : Arrays) (x : ObjectInfo) : Prop :=
    exists t, nth_error (a_tri scene) (oi_index x) = Some t /\ x = object_info (oi_index x) t.
  Lemma any_infos_describe scene : Forall (any_describes scene) (infos_of (a_tri scene)).
  Proof.
    apply Forall_forall. intros x Hx. unfold infos_of in Hx. apply in_map_iff in Hx as ([j t] & <- & Hin).
    exists t. cbn [fst snd oi_index object_info]. split; [|reflexivity].
    apply In_nth_error in Hin as [k Hk]. rewrite nth_error_combine in Hk.
    destruct (nth_error (seq 0 (length (a_tri scene))) k) as [j'|] eqn:Hs; [|discriminate].
    destruct (nth_error (a_tri scene) k) as [t'|] eqn:Ht; [|discriminate]. injection Hk as -> ->.
    assert (k < length (a_tri scene))%nat by (apply nth_error_Some; congruence).
    assert (Hj : nth_error (seq 0 (length (a_tri scene))) k = Some (0 + k)%nat).
    { rewrite (nth_error_nth' _ 0%nat) by (rewrite seq_length; assumption). rewrite seq_nth by assumption. reflexivity. }
    rewrite Hj in Hs. injection Hs as <-. assumption.
  Qed.
  Lemma any_push_all_total scene infos : aligned scene -> Forall (any_describes scene) infos ->
    forall ord, exists ord', push_all scene infos ord = Some ord'.
  Proof.
    intros (A1 & A2 & A3) H. induction H as [|x infos Hx H IH]; intros ord; cbn [push_all]; [eauto|].
    destruct Hx as (t & Ht & _).
    assert (HL : (oi_index x < length (a_tri scene))%nat) by (apply nth_error_Some; congruence).
    unfold push_one. rewrite Ht.
    destruct (nth_error (a_back scene) (oi_index x)) eqn:EB; [|apply nth_error_None in EB; lia].
    destruct (nth_error (a_front scene) (oi_index x)) eqn:EF; [|apply nth_error_None in EF; lia].
    destruct (nth_error (a_norm scene) (oi_index x)) eqn:EN; [|apply nth_error_None in EN; lia].
    apply IH.
  Qed.
  Lemma any_build_total scene (P : ObjectInfo -> Prop) : aligned scene ->
    (forall i rest, Forall P (i :: rest) -> buckets_ok i rest) ->
    forall fuel infos ord, infos <> [] -> (length infos <= fuel)%nat -> Forall (any_describes scene) infos -> Forall P infos ->
    exists nd ord', recursive_build fuel scene infos ord = Ret (nd, ord').
  Proof.
    intros Ha HB. induction fuel as [|k IH]; intros infos ord Hne HL HF HQ.
    { destruct infos; [congruence|cbn in HL; lia]. }
    cbn [recursive_build]. destruct infos as [|i rest]; [congruence|].
    destruct (any_decide_total HP i rest (HB _ _ HQ)) as [->|(ax & l & mid & D & Hm)].
    - destruct (any_push_all_total scene (i :: rest) Ha HF ord) as [o Ho]. rewrite Ho. cbn. eauto.
    - rewrite D. pose proof (decide_perm HP _ _ _ _ _ D) as Pl. pose proof (Permutation_length Pl) as HLl.
      assert (FP : forall Q : ObjectInfo -> Prop, Forall Q (i :: rest) -> Forall Q (firstn mid l) /\ Forall Q (skipn mid l)).
      { intros Q HQ'. apply Forall_app. rewrite firstn_skipn. apply Forall_forall. intros x Hx. rewrite Forall_forall in HQ'. apply HQ'. eapply Permutation_in; eassumption. }
      destruct (FP _ HF) as [F1 F2], (FP _ HQ) as [Q1 Q2].
      destruct (IH (firstn mid l) ord) as (c1 & o1 & E1).
      { intros D'. apply (f_equal (@length _)) in D'. rewrite firstn_length in D'. cbn in *. lia. }
      { rewrite firstn_length. cbn in *. lia. }
      { assumption. } { assumption. }
      destruct (IH (skipn mid l) o1) as (c2 & o2 & E2).
      { intros D'. apply (f_equal (@length _)) in D'. rewrite skipn_length in D'. cbn in *. lia. }
      { rewrite skipn_length. cbn in *. lia. }
      { assumption. } { assumption. }
      rewrite E1. cbn [obind]. rewrite E2. cbn [obind]. eauto.
  Qed.
End AnyBuild.


(** ** binary64 *)
#[local] Existing Instance Hprec.
#[local] Existing Instance Hmax.
Open Scope R_scope.
Notation big k := (bpow radix2 k).

Definition fkey (ax : Axis) (i : @ObjectInfo NumSF) : spec_float := comp ax (oi_centroid i).
(** centroids a bucket split can handle: finite, and small enough for differences not to overflow *)
Definition tame (i : @ObjectInfo NumSF) : Prop := forall ax, finite_upto (big 1000) (fkey ax i).

Lemma cmp_val ax a b : tame a -> tame b -> cmp_centroids ax a b <> Gt -> val (fkey ax a) <= val (fkey ax b).
Proof.
  intros Ta Tb H. unfold cmp_centroids, cmp_float in H. fold (fkey ax a) (fkey ax b) in H.
  rewrite (ltb_val _ _ _ (Ta ax) (Tb ax)), (ltb_val _ _ _ (Tb ax) (Ta ax)) in H.
  destruct (Rlt_bool_spec (val (fkey ax a)) (val (fkey ax b))); [lra|].
  destruct (Rlt_bool_spec (val (fkey ax b)) (val (fkey ax a))); [congruence|lra].
Qed.

Lemma comp_union_point_any ax (b : @BBox NumSF) p :
  comp ax (bmin (box_union_point b p)) = fminb (comp ax (bmin b)) (comp ax p) /\
  comp ax (bmax (box_union_point b p)) = fmaxb (comp ax (bmax b)) (comp ax p).
Proof. destruct ax; split; reflexivity. Qed.

Lemma fold_bounds64 ax (rest : list (@ObjectInfo NumSF)) : Forall tame rest -> forall b : @BBox NumSF,
  finite_upto (big 1000) (comp ax (bmin b)) -> finite_upto (big 1000) (comp ax (bmax b)) ->
  let cb := fold_left (fun b x => box_union_point b (oi_centroid x)) rest b in
  (forall x, In x rest -> val (comp ax (bmin cb)) <= val (fkey ax x) <= val (comp ax (bmax cb))) /\
  val (comp ax (bmin cb)) <= val (comp ax (bmin b)) /\ val (comp ax (bmax b)) <= val (comp ax (bmax cb)) /\
  (comp ax (bmin cb) = comp ax (bmin b) \/ exists x, In x rest /\ fkey ax x = comp ax (bmin cb)) /\
  (comp ax (bmax cb) = comp ax (bmax b) \/ exists x, In x rest /\ fkey ax x = comp ax (bmax cb)).
Proof.
  induction 1 as [|y rest Ty HT IH]; intros b Fm FM; cbn [fold_left].
  - cbv zeta. split; [intros x []|]. repeat split; try lra; left; reflexivity.
  - specialize (IH (box_union_point b (oi_centroid y))). cbv zeta in *.
    destruct (comp_union_point_any ax b (oi_centroid y)) as [Em EM]. rewrite Em, EM in IH. fold (fkey ax y) in *.
    set (cb := fold_left _ rest _) in *. clearbody cb. specialize (Ty ax).
    unfold fminb, fmaxb in IH. rewrite (ltb_val _ _ _ Ty Fm), (ltb_val _ _ _ FM Ty) in IH.
    destruct (Rlt_bool_spec (val (fkey ax y)) (val (comp ax (bmin b)))) as [L1|L1];
    destruct (Rlt_bool_spec (val (comp ax (bmax b))) (val (fkey ax y))) as [L2|L2];
    (destruct IH as (I1 & I2 & I3 & I4 & I5); [assumption|assumption|]);
    (split; [intros x [<-|Hx]; [lra|apply I1; assumption]|]); (split; [lra|]); (split; [lra|]);
    (split; [destruct I4 as [I4|(x & Hx & I4)]; [first [left; assumption|right; exists y; split; [left; reflexivity|congruence]]|right; exists x; split; [right; assumption|assumption]]
            |destruct I5 as [I5|(x & Hx & I5)]; [first [left; assumption|right; exists y; split; [left; reflexivity|congruence]]|right; exists x; split; [right; assumption|assumption]]]).
Qed.
Lemma centroid_bounds64 ax i rest : Forall tame (i :: rest) ->
  let cb := @centroid_bounds NumSF i rest in
  (forall x, In x (i :: rest) -> val (comp ax (bmin cb)) <= val (fkey ax x) <= val (comp ax (bmax cb))) /\
  (exists x, In x (i :: rest) /\ fkey ax x = comp ax (bmin cb)) /\
  (exists x, In x (i :: rest) /\ fkey ax x = comp ax (bmax cb)).
Proof.
  intros HT. inversion_clear HT as [|? ? Ti Tr]. cbv zeta. unfold centroid_bounds.
  destruct (fold_bounds64 ax rest Tr (box_point (oi_centroid i)) (Ti ax) (Ti ax)) as (I1 & I2 & I3 & I4 & I5).
  set (cb := fold_left _ rest _) in *. clearbody cb. cbn [box_point bmin bmax] in *. fold (fkey ax i) in *.
  split; [intros x [<-|Hx]; [lra|apply I1; assumption]|]. split.
  - destruct I4 as [I4|(x & Hx & I4)]; [exists i; split; [left; reflexivity|symmetry; assumption]|exists x; split; [right; assumption|assumption]].
  - destruct I5 as [I5|(x & Hx & I5)]; [exists i; split; [left; reflexivity|symmetry; assumption]|exists x; split; [right; assumption|assumption]].
Qed.

Lemma twelve : finite_upto (big 4) (@fofZ NumSF (Z.of_nat N_BUCKETS)) /\ val (@fofZ NumSF (Z.of_nat N_BUCKETS)) = 12.
Proof.
  change (@fofZ NumSF (Z.of_nat N_BUCKETS)) with (sf_ofZ 12). destruct (ofZ_exact 12 ltac:(lia)) as (b & -> & V & HF).
  split; [apply of_b64; [exact HF|]|rewrite val_B2SF; exact V]. rewrite V, Rabs_pos_eq by lra. cbn. lra.
Qed.
Section Bucket64.
  Variables (len mv c : spec_float).
  Hypothesis Fc : finite_upto (big 1000) c.
  Hypothesis Fmv : finite_upto (big 1000) mv.
  Hypothesis Fl : finite_upto (big 1001) len.
  Hypothesis Pl : 0 < val len.
  Let slot : spec_float := @fdiv NumSF (@fmul NumSF (@fsub NumSF c mv) (@fofZ NumSF (Z.of_nat N_BUCKETS))) len.

  Lemma slot_first : val c = val mv -> @ftrunc NumSF 0 USIZE_MAX slot = 0%Z.
  Proof.
    intros H. destruct (sub_val 0 ltac:(lia) _ _ _ Fc Fmv) as [V FS].
    { rewrite H. unfold Rminus. rewrite Rplus_opp_r, Rabs_R0. apply bpow_ge_0. }
    rewrite H in V. unfold Rminus in V. rewrite Rplus_opp_r, round_0 in V by apply valid_rnd_N.
    destruct (val_zero _ _ FS V) as [s Hs]. unfold slot. rewrite Hs.
    destruct len as [s'|s'| |s' m e]; [| | |reflexivity].
    - exfalso. cbn in Pl. lra.
    - destruct Fl as (_ & D & _). discriminate.
    - destruct Fl as (_ & D & _). discriminate.
  Qed.
  Lemma slot_last : len = @fsub NumSF c mv -> 1 / 1000000000 <= val len -> (12 <=? @ftrunc NumSF 0 USIZE_MAX slot)%Z = true \/ @ftrunc NumSF 0 USIZE_MAX slot = 11%Z.
  Proof.
    intros HL Hbig. unfold slot. rewrite <- HL. destruct twelve as [F12 V12]. set (t := fofZ (Z.of_nat N_BUCKETS)) in *. clearbody t.
    set (L := val len) in *.
    assert (L1 : big (-1022) <= Rabs (L * 12)).
    { apply Rle_trans with (big (-30)); [apply bpow_le; lia|]. rewrite Rabs_pos_eq by lra. cbn. lra. }
    pose proof (relative_error_N_FLT radix2 (3 - 1024 - 53) 53 ltac:(lia) (fun x => negb (Z.even x)) (L * 12) L1) as RE.
    change (FLT_exp (3 - 1024 - 53) 53) with fexp64 in RE. change (Znearest (fun x => negb (Z.even x))) with ZnearestE in RE.
    rewrite (Rabs_pos_eq (L * 12)) in RE by lra.
    assert (TE : / 2 * big (- 53 + 1) <= 1 / 100) by (cbn; lra).
    assert (RE' : Rabs (rnd64 (L * 12) - L * 12) <= 1 / 100 * (L * 12)).
    { eapply Rle_trans; [exact RE|]. apply Rmult_le_compat_r; [lra|exact TE]. }
    apply Rabs_le_inv in RE'.
    destruct (Rle_or_lt (big 1024) (Rabs (rnd64 (L * 12)))) as [OV|NO].
    - left. rewrite (mul_overflow _ _ _ _ Fl F12); [|exact Pl|lra|rewrite V12; exact OV].
      destruct len as [s'|s'| |s' m e].
      + exfalso. unfold L in *. cbn in Pl. lra.
      + destruct Fl as (_ & D & _). discriminate.
      + destruct Fl as (_ & D & _). discriminate.
      + destruct s'; [|reflexivity]. exfalso. unfold L, val, SF2R in Pl. assert (F2R (Float radix2 (cond_Zopp true (Zpos m)) e) < 0) by (apply F2R_lt_0; reflexivity). cbn [cond_Zopp] in *. lra.
    - destruct (as_b64 _ _ Fl) as (bl & El & FL & VL), (as_b64 _ _ F12) as (bt & Et & FT & VT).
      assert (M : exists bm : b64, @fmul NumSF len t = B2SF bm /\ is_finite bm = true /\ B2R bm = rnd64 (L * 12)).
      { rewrite El, Et. change (@fmul NumSF (B2SF bl) (B2SF bt)) with (SFmul 53 1024 (B2SF bl) (B2SF bt)). rewrite mul_equiv.
        exists (Bmult mode_NE bl bt). split; [reflexivity|].
        pose proof (Bmult_correct 53 1024 Hprec Hmax mode_NE bl bt) as C. cbn [round_mode] in C. rewrite VL, VT, V12 in C. fold L in C.
        rewrite Rlt_bool_true in C by exact NO. destruct C as (C1 & C2 & _). rewrite FL, FT in C2. split; assumption. }
      destruct M as (bm & Em & Fm & Vm). rewrite Em, El.
      change (@fdiv NumSF (B2SF bm) (B2SF bl)) with (SFdiv 53 1024 (B2SF bm) (B2SF bl)). rewrite div_equiv.
      assert (L0 : B2R bl <> 0) by (rewrite VL; fold L; lra).
      pose proof (Bdiv_correct 53 1024 Hprec Hmax mode_NE bm bl L0) as C. cbn [round_mode] in C. rewrite Vm, VL in C. fold L in C.
      set (q := rnd64 (L * 12) / L) in *.
      assert (Q : 11 <= q <= 13).
      { unfold q. split; [apply Rmult_le_reg_r with L|apply Rmult_le_reg_r with L]; try exact Pl; unfold Rdiv; rewrite Rmult_assoc, Rinv_l by lra; lra. }
      assert (G11 : 11 <= rnd64 q). { apply round_ge_generic; [exact valid64|apply valid_rnd_N|apply (small_format 11); lia|lra]. }
      assert (G13 : rnd64 q <= 13). { apply round_le_generic; [exact valid64|apply valid_rnd_N|apply (small_format 13); lia|lra]. }
      rewrite Rlt_bool_true in C.
      2:{ rewrite Rabs_pos_eq by lra. apply Rle_lt_trans with 13; [exact G13|]. apply Rlt_le_trans with (big 4); [cbn; lra|apply bpow_le; lia]. }
      destruct C as (C1 & C2 & _). rewrite Fm in C2.
      change (@ftrunc NumSF 0 USIZE_MAX (B2SF (Bdiv mode_NE bm bl))) with (sf_trunc 0 USIZE_MAX (B2SF (Bdiv mode_NE bm bl))).
      rewrite trunc_floor; [|unfold USIZE_MAX; lia|exact C2|rewrite C1; lra]. rewrite C1.
      assert (Z11 : (11 <= Zfloor (rnd64 q))%Z) by (apply Zfloor_lub; exact G11).
      destruct (Z.leb_spec 12 (Z.min USIZE_MAX (Zfloor (rnd64 q)))) as [Z|Z]; [left; reflexivity|right]. unfold USIZE_MAX in *. lia.
  Qed.
End Bucket64.

(** the sorting routine sorts lists of finite keys *)
Definition sorts_finite (E : @Ext NumSF) : Prop := forall ax l, Forall tame l ->
  StronglySorted (fun a b => cmp_centroids ax a b <> Gt) (sort_by (cmp_centroids ax) l).

Lemma flit_small : finite_upto (big 1001) (@flit NumSF 1 100000000) /\ 1 / 1000000000 <= val (@flit NumSF 1 100000000).
Proof.
  assert (Q : @flit NumSF 1 100000000 = S754_finite false 6044629098073146 (-79)) by (vm_compute; reflexivity). rewrite Q.
  assert (V : val (S754_finite false 6044629098073146 (-79)) = 6044629098073146 * big (-79)) by reflexivity.
  rewrite V. split; [|cbn; lra]. split; [reflexivity|]. split; [reflexivity|]. rewrite V.
  apply Rle_trans with (big 4); [|apply bpow_le; lia]. rewrite Rabs_pos_eq; cbn; lra.
Qed.

Section Build64.
  Context {E : @Ext NumSF}.
  Hypothesis HP : perm_sorts E.
  Hypothesis HS : sorts_finite E.

  Lemma buckets_ok64 i rest : Forall tame (i :: rest) -> @buckets_ok NumSF E i rest.
  Proof.
    intros HT. unfold buckets_ok. cbv zeta. set (cb := centroid_bounds i rest). set (ax := max_extent cb).
    destruct (centroid_bounds64 ax i rest HT) as (C1 & (xm & Im & Em) & (xM & IM & EM)). fold cb in C1, Em, EM.
    pose proof HT as HT'. rewrite Forall_forall in HT'.
    assert (Fm : finite_upto (big 1000) (comp ax (bmin cb))) by (rewrite <- Em; apply HT', Im).
    assert (FM : finite_upto (big 1000) (comp ax (bmax cb))) by (rewrite <- EM; apply HT', IM).
    set (len := fsub (comp ax (bmax cb)) (comp ax (bmin cb))). intros L.
    destruct (sub_val 1001 ltac:(lia) _ _ _ FM Fm) as [VL FL].
    { destruct Fm as (_ & _ & B1), FM as (_ & _ & B2). eapply Rle_trans; [apply Rabs_triang|]. rewrite Rabs_Ropp.
      change 1001%Z with (1000 + 1)%Z. rewrite bpow_plus_1. change (IZR radix2) with 2. lra. }
    fold len in VL, FL. destruct flit_small as [F8 V8]. rewrite (ltb_val _ _ _ FL F8) in L.
    assert (PL : 1 / 1000000000 <= val len). { destruct (Rlt_bool_spec (val len) (val (@flit NumSF 1 100000000))); [discriminate|lra]. }
    assert (First : forall x, In x (i :: rest) -> val (fkey ax x) = val (comp ax (bmin cb)) -> get_bucket_index (oi_centroid x) len ax (bmin cb) = 0%nat).
    { intros x Hx Vx. unfold get_bucket_index. cbv zeta. fold (fkey ax x). rewrite slot_first; [reflexivity|apply HT', Hx|exact Fm|exact FL|lra|exact Vx]. }
    split; [exists xm; split; [exact Im|]; apply First; [exact Im|rewrite Em; reflexivity]|].
    split.
    - exists xM. split; [exact IM|]. unfold get_bucket_index. cbv zeta. fold (fkey ax xM).
      destruct (slot_last len (comp ax (bmin cb)) (fkey ax xM)) as [Q|Q]; try (first [apply HT', IM|exact Fm|exact FL|lra]).
      + rewrite EM. reflexivity.
      + change (Z.of_nat N_BUCKETS) with 12%Z in *. rewrite Q. reflexivity.
      + rewrite Q. reflexivity.
    - intros h tl Hs. pose proof (HS ax (i :: rest) HT) as Sx. pose proof (proj1 HP (cmp_centroids ax) (i :: rest)) as Px. rewrite Hs in Sx, Px.
      assert (Hin : In xm (h :: tl)) by (eapply Permutation_in; [symmetry; exact Px|exact Im]).
      assert (Hh : In h (i :: rest)) by (eapply Permutation_in; [exact Px|left; reflexivity]).
      apply First; [exact Hh|]. pose proof (C1 h Hh) as Ch.
      assert (Hle : val (fkey ax h) <= val (fkey ax xm)).
      { destruct Hin as [->|Hin]; [lra|]. apply cmp_val; [apply HT', Hh|apply HT', Im|]. inversion Sx as [|? ? ? FA]; subst.
        rewrite Forall_forall in FA. apply FA, Hin. }
      rewrite Em in Hle. lra.
  Qed.
End Build64.
