(** * Property C104: where the accelerator splits

    A node of more than four primitives is cut into twelve slices along the axis on which the centres are most spread out;
    of the eleven cuts between slices the build takes one whose surface-area cost is least, and it cuts at all only if
    that cost beats the cost of a leaf, or the node holds more than 24 primitives.  Exact arithmetic. *)
From Coq Require Import Reals Lra Lia Psatz List Permutation Sorted Bool.
From Verif Require Import NumR Geometry Triangle SpecGeom TriangleProofs Ray Bvh BvhProofs BvhOrder BvhReal BvhExamples.
Import ListNotations.
Open Scope R_scope.
Notation Obj := (@ObjectInfo NumR).

(** ** specification *)
(** [b] is the smallest box around the boxes from [lo x] to [hi x], x in [l] *)
Definition smallest (lo hi : Obj -> VecR) (b : BoxR) (l : list Obj) : Prop := forall ax,
  (forall x, In x l -> comp ax (bmin b) <= comp ax (lo x) /\ comp ax (hi x) <= comp ax (bmax b)) /\
  (exists x, In x l /\ comp ax (lo x) = comp ax (bmin b)) /\ (exists x, In x l /\ comp ax (hi x) = comp ax (bmax b)).
(** .. around their centres; .. around the objects *)
Definition around_centres : BoxR -> list Obj -> Prop := smallest oi_centroid oi_centroid.
Definition around_objects : BoxR -> list Obj -> Prop := smallest (fun x => bmin (oi_bounds x)) (fun x => bmax (oi_bounds x)).
(** the slice, 0 to 11, in which a centre lies; the last slice is closed *)
Definition slice (cb : BoxR) (ax : Axis) (x : Obj) : Z :=
  Z.min 11 (Int_part ((comp ax (oi_centroid x) - comp ax (bmin cb)) * 12 / (comp ax (bmax cb) - comp ax (bmin cb)))).
Definition lower (cb : BoxR) (ax : Axis) (k : Z) (l : list Obj) : list Obj := filter (fun x => (slice cb ax x <=? k)%Z) l.
Definition upper (cb : BoxR) (ax : Axis) (k : Z) (l : list Obj) : list Obj := filter (fun x => (k <? slice cb ax x)%Z) l.
(** the cost of cutting after slice [k]: 10, plus the number of primitives on each side weighted by the area of the box around their centres,
    over the area of the box around everything *)
Definition cut_cost (E : @Ext NumR) (cb : BoxR) (ax : Axis) (l : list Obj) (k : Z) (c : R) : Prop :=
  exists b a w, around_centres b (lower cb ax k l) /\ around_centres a (upper cb ax k l) /\ around_objects w l /\
    c = 10 + (INR (length (lower cb ax k l)) * @surface_area NumR E b + INR (length (upper cb ax k l)) * @surface_area NumR E a) / @surface_area NumR E w.

(** ** smallest boxes *)
Section Smallest.
  Variables lo hi : Obj -> VecR.
  Lemma smallest_one x : smallest lo hi (mkBox (lo x) (hi x)) [x].
  Proof.
    intros ax. cbn [bmin bmax]. split; [intros y [<-|[]]; split; apply Rle_refl|].
    split; exists x; (split; [left; reflexivity|reflexivity]).
  Qed.
  Lemma comp_union ax (a b : BoxR) : comp ax (bmin (box_union a b)) = fminb (comp ax (bmin a)) (comp ax (bmin b)) /\
    comp ax (bmax (box_union a b)) = fmaxb (comp ax (bmax a)) (comp ax (bmax b)).
  Proof. destruct ax; split; reflexivity. Qed.
  Lemma smallest_app a b l m : smallest lo hi a l -> smallest lo hi b m -> smallest lo hi (box_union a b) (l ++ m).
  Proof.
    intros H1 H2 ax. destruct (H1 ax) as (A1 & (xa & Ia & Ea) & (ya & Ja & Fa)), (H2 ax) as (B1 & (xb & Ib & Eb) & (yb & Jb & Fb)).
    destruct (comp_union ax a b) as [Em EM]. rewrite Em, EM. clear Em EM.
    pose proof (fminb_le (comp ax (bmin a)) (comp ax (bmin b))) as M1. pose proof (fmaxb_ge (comp ax (bmax a)) (comp ax (bmax b))) as M2.
    split; [|split].
    - intros x Hx. apply in_app_or in Hx. rsimp. destruct Hx as [Hx|Hx]; [specialize (A1 x Hx)|specialize (B1 x Hx)]; lra.
    - unfold fminb. rsimp. destruct (Rltb_spec (comp ax (bmin b)) (comp ax (bmin a))); [exists xb|exists xa]; (split; [apply in_or_app; auto|assumption]).
    - unfold fmaxb. rsimp. destruct (Rltb_spec (comp ax (bmax a)) (comp ax (bmax b))); [exists yb|exists ya]; (split; [apply in_or_app; auto|assumption]).
  Qed.
  Lemma smallest_same b l m : (forall x, In x l <-> In x m) -> smallest lo hi b l -> smallest lo hi b m.
  Proof.
    intros H S ax. destruct (S ax) as (A1 & (xa & Ia & Ea) & (ya & Ja & Fa)). split; [intros x Hx; apply A1, H, Hx|].
    split; [exists xa|exists ya]; (split; [apply H|]; assumption).
  Qed.
  Lemma comp_ext (a b : VecR) : (forall ax, comp ax a = comp ax b) -> a = b.
  Proof. intros H. pose proof (H AX). pose proof (H AY). pose proof (H AZ). destruct a, b. cbn in *. congruence. Qed.
  Lemma smallest_unique a b l : smallest lo hi a l -> smallest lo hi b l -> a = b.
  Proof.
    intros H1 H2. assert (bmin a = bmin b /\ bmax a = bmax b) as [M1 M2]; [|destruct a, b; cbn in *; congruence].
    split; apply comp_ext; intros ax; destruct (H1 ax) as (A1 & (xa & Ia & Ea) & (ya & Ja & Fa)), (H2 ax) as (B1 & (xb & Ib & Eb) & (yb & Jb & Fb)).
    - pose proof (A1 _ Ib). pose proof (B1 _ Ia). rsimp. lra.
    - pose proof (A1 _ Jb). pose proof (B1 _ Ja). rsimp. lra.
  Qed.
  Lemma smallest_fold f (Hf : forall b x, f b x = box_union b (mkBox (lo x) (hi x))) rest : forall b l, smallest lo hi b l -> smallest lo hi (fold_left f rest b) (l ++ rest).
  Proof.
    induction rest as [|y rest IH]; intros b l H; cbn [fold_left]; [rewrite app_nil_r; exact H|].
    replace (l ++ y :: rest) with ((l ++ [y]) ++ rest) by (rewrite <- app_assoc; reflexivity).
    apply IH. rewrite Hf. apply smallest_app; [exact H|apply smallest_one].
  Qed.
End Smallest.
Lemma whole_ok i rest : around_objects (@bounds_of NumR i rest) (i :: rest).
Proof.
  unfold bounds_of, around_objects. apply (smallest_fold _ _ (fun b x => box_union b (oi_bounds x)) (fun b x => ltac:(destruct (oi_bounds x); reflexivity)) rest (oi_bounds i) [i]).
  pose proof (smallest_one (fun x => bmin (oi_bounds x)) (fun x => bmax (oi_bounds x)) i) as S. cbn beta in S. destruct (oi_bounds i) eqn:Q in S |- *. cbn in S.
  intros ax. specialize (S ax). exact S.
Qed.
Lemma centres_ok i rest : around_centres (@centroid_bounds NumR i rest) (i :: rest).
Proof.
  unfold centroid_bounds, around_centres. apply (smallest_fold _ _ (fun b x => box_union_point b (oi_centroid x)) (fun b x => eq_refl) rest (box_point (oi_centroid i)) [i]).
  apply smallest_one.
Qed.

(** ** lists *)
Lemma filter_two {A} (p q r : A -> bool) l : (forall x, r x = p x || q x) -> (forall x, p x && q x = false) -> Permutation (filter r l) (filter p l ++ filter q l).
Proof.
  intros H1 H2. induction l as [|x l IH]; cbn [filter]; [constructor|]. specialize (H1 x). specialize (H2 x). rewrite H1.
  destruct (p x), (q x); cbn in *; try discriminate; [constructor; exact IH|apply Permutation_cons_app; exact IH|exact IH].
Qed.
Lemma filter_nothing {A} (p : A -> bool) l : (forall x, p x = false) -> filter p l = [].
Proof. intros H. induction l as [|x l IH]; cbn [filter]; [reflexivity|]. rewrite H. exact IH. Qed.
Lemma slices_perm {A} (f : A -> nat) l n : forall s, Permutation (concat (map (fun j => filter (fun x => Nat.eqb (f x) j) l) (seq s n))) (filter (fun x => Nat.leb s (f x) && Nat.ltb (f x) (s + n)) l).
Proof.
  induction n as [|n IH]; intros s; cbn [seq map concat].
  - rewrite filter_nothing; [constructor|]. intros x. destruct (Nat.leb_spec s (f x)), (Nat.ltb_spec (f x) (s + 0)); try reflexivity; lia.
  - rewrite (IH (S s)). symmetry. apply filter_two; intros x;
      destruct (Nat.leb_spec s (f x)), (Nat.ltb_spec (f x) (s + S n)), (Nat.eqb_spec (f x) s), (Nat.leb_spec (S s) (f x)), (Nat.ltb_spec (f x) (S s + n)); try reflexivity; lia.
Qed.
Lemma filter_perm {A} (p : A -> bool) l m : Permutation l m -> Permutation (filter p l) (filter p m).
Proof.
  intros H. induction H as [| |x y l|]; cbn [filter]; [constructor|destruct (p x); [constructor|]; assumption| |etransitivity; eassumption].
  destruct (p x), (p y); try constructor; apply Permutation_refl.
Qed.
Lemma leading_filter (R : Obj -> Obj -> Prop) p l : StronglySorted R l -> (forall a b, In a l -> In b l -> R a b -> p b = true -> p a = true) -> firstn (leading p l) l = filter p l /\ skipn (leading p l) l = filter (fun x => negb (p x)) l.
Proof.
  intros S. induction S as [|x l S IH FA]; intros H; cbn [leading firstn skipn filter]; [split; reflexivity|].
  destruct (p x) eqn:P; cbn [firstn skipn filter negb].
  - destruct IH as [I1 I2]; [intros a b Ia Ib; apply H; right; assumption|]. rewrite I1, I2. split; reflexivity.
  - rewrite Forall_forall in FA. assert (N : forall y, In y l -> p y = false).
    { intros y Hy. destruct (p y) eqn:Q; [|reflexivity]. rewrite (H x y (or_introl eq_refl) (or_intror Hy) (FA y Hy) Q) in P. discriminate. }
    clear - N. assert (filter p l = [] /\ filter (fun x => negb (p x)) l = l) as [-> ->]; [|split; reflexivity].
    induction l as [|y l IH]; [split; reflexivity|]. cbn [filter]. rewrite (N y (or_introl eq_refl)). cbn [negb].
    destruct IH as [I1 I2]; [intros z Hz; apply N; right; exact Hz|]. rewrite I1, I2. split; reflexivity.
Qed.

(** ** the buckets hold what they should *)
Definition bucket_ok (k : @Bucket NumR) (l : list Obj) : Prop :=
  fst k = length l /\ match snd k with None => l = [] | Some b => around_centres b l end.
Lemma register_ok f pre x bs : length bs = 12%nat -> (f x < 12)%nat ->
  (forall j, (j < 12)%nat -> bucket_ok (nth j bs bucket0) (filter (fun y => Nat.eqb (f y) j) pre)) ->
  forall j, (j < 12)%nat -> bucket_ok (nth j (register (f x) (oi_centroid x) bs) bucket0) (filter (fun y => Nat.eqb (f y) j) (pre ++ [x])).
Proof.
  intros L Fx H j Hj. unfold register. destruct (nth_error bs (f x)) as [[n ob]|] eqn:Q; [|apply nth_error_None in Q; lia].
  rewrite nth_firstn_cons by lia. rewrite filter_app. cbn [filter]. rewrite (Nat.eqb_sym (f x) j). destruct (Nat.eqb_spec j (f x)) as [->|Ne].
  - specialize (H (f x) Fx). rewrite (nth_error_nth _ _ _ Q) in H. destruct H as [H1 H2]. cbn [fst snd] in H1, H2.
    split; cbn [fst snd]; [rewrite app_length, H1; cbn [length]; lia|]. destruct ob as [b|].
    + exact (smallest_app _ _ _ (box_point (oi_centroid x)) _ _ H2 (smallest_one oi_centroid oi_centroid x)).
    + rewrite H2. exact (smallest_one oi_centroid oi_centroid x).
  - rewrite app_nil_r. apply H, Hj.
Qed.
Lemma fill_ok (f : Obj -> nat) infos : (forall x, (f x < 12)%nat) -> forall pre bs, length bs = 12%nat ->
  (forall j, (j < 12)%nat -> bucket_ok (nth j bs bucket0) (filter (fun y => Nat.eqb (f y) j) pre)) ->
  let r := fold_left (fun bs i => register (f i) (oi_centroid i) bs) infos bs in
  length r = 12%nat /\ forall j, (j < 12)%nat -> bucket_ok (nth j r bucket0) (filter (fun y => Nat.eqb (f y) j) (pre ++ infos)).
Proof.
  intros Hf. induction infos as [|x infos IH]; intros pre bs L H; cbn [fold_left].
  - cbv zeta. rewrite app_nil_r. split; assumption.
  - replace (pre ++ x :: infos) with ((pre ++ [x]) ++ infos) by (rewrite <- app_assoc; reflexivity).
    apply IH; [rewrite register_length; exact L|]. apply register_ok; auto.
Qed.
Lemma merge_ok init l l0 ls : bucket_ok init l0 -> l0 <> [] -> Forall2 bucket_ok l ls ->
  exists n b, merge_buckets init l = Some (n, b) /\ n = length (l0 ++ concat ls) /\ around_centres b (l0 ++ concat ls).
Proof.
  intros [H1 H2] N F. unfold merge_buckets. destruct (snd init) as [b0|]; [|contradiction].
  rewrite H1. clear H1 init N. revert b0 l0 H2. induction F as [|[n ob] m l ls [K1 K2] F IH]; intros b0 l0 H2; cbn [fold_left concat].
  - exists (length l0), b0. rewrite app_nil_r. split; [reflexivity|]. split; [reflexivity|exact H2].
  - cbn [fst snd] in *. destruct ob as [b|].
    + rewrite app_assoc, K1. rewrite <- app_length. apply IH. apply smallest_app; assumption.
    + subst m. cbn [app]. apply IH, H2.
Qed.
Lemma nth_all {A} (d : A) l : l = map (fun j => nth j l d) (seq 0 (length l)).
Proof.
  induction l as [|x l IH]; [reflexivity|]. cbn [length seq map nth]. f_equal. rewrite <- seq_shift, map_map. exact IH.
Qed.
Lemma forall2_map {A B C} (R : B -> C -> Prop) (f : A -> B) (g : A -> C) l : (forall x, In x l -> R (f x) (g x)) -> Forall2 R (map f l) (map g l).
Proof. induction l as [|x l IH]; intros H; constructor; [apply H; left; reflexivity|apply IH; intros y Hy; apply H; right; exact Hy]. Qed.
Lemma slices_below k : (k <= 10)%nat -> skipn 1 (firstn (k + 1) (seq 0 12)) = seq 1 k.
Proof. intros H. do 11 (destruct k as [|k]; [reflexivity|]). lia. Qed.
Lemma slices_above k : (k <= 10)%nat -> skipn (k + 1) (firstn 11 (seq 0 12)) = seq (k + 1) (10 - k).
Proof. intros H. do 11 (destruct k as [|k]; [reflexivity|]). lia. Qed.

(** ** the costs *)
Section Costs.
  Context {E : @Ext NumR}.
  Variables (bs : list (@Bucket NumR)) (f : Obj -> nat) (l : list Obj) (w : BoxR).
  Hypothesis Hlen : length bs = 12%nat.
  Hypothesis Hbs : forall j, (j < 12)%nat -> bucket_ok (nth j bs bucket0) (filter (fun y => Nat.eqb (f y) j) l).
  Hypothesis Hf : forall x, (f x < 12)%nat.
  Hypothesis H0 : exists x, In x l /\ f x = 0%nat.
  Hypothesis H11 : exists x, In x l /\ f x = 11%nat.
  Lemma kept j : (exists x, In x l /\ f x = j) -> filter (fun y => Nat.eqb (f y) j) l <> [].
  Proof. intros (x & I & <-) Q. assert (In x []) as []. rewrite <- Q. apply filter_In. split; [exact I|apply Nat.eqb_refl]. Qed.
  Lemma cost_ok k : (k <= 10)%nat -> exists b a,
    around_centres b (filter (fun x => Nat.leb (f x) k) l) /\ around_centres a (filter (fun x => Nat.ltb k (f x)) l) /\
    split_cost bs w k = Some (10 + (INR (length (filter (fun x => Nat.leb (f x) k) l)) * surface_area b + INR (length (filter (fun x => Nat.ltb k (f x)) l)) * surface_area a) / surface_area w).
  Proof.
    intros Hk. unfold split_cost, N_BUCKETS. cbn [Nat.sub].
    assert (EB : skipn 1 (firstn (k + 1) bs) = map (fun j => nth j bs bucket0) (seq 1 k)).
    { rewrite (nth_all bucket0 bs) at 1. rewrite Hlen, firstn_map, skipn_map, slices_below by exact Hk. reflexivity. }
    assert (EA : skipn (k + 1) (firstn 11 bs) = map (fun j => nth j bs bucket0) (seq (k + 1) (10 - k))).
    { rewrite (nth_all bucket0 bs) at 1. rewrite Hlen, firstn_map, skipn_map, slices_above by exact Hk. reflexivity. }
    set (g := fun j => filter (fun x => Nat.eqb (f x) j) l) in *.
    assert (FB : Forall2 bucket_ok (map (fun j => nth j bs bucket0) (seq 1 k)) (map g (seq 1 k))). { apply forall2_map. intros j Hj. apply in_seq in Hj. apply Hbs. lia. }
    assert (FA : Forall2 bucket_ok (map (fun j => nth j bs bucket0) (seq (k + 1) (10 - k))) (map g (seq (k + 1) (10 - k)))). { apply forall2_map. intros j Hj. apply in_seq in Hj. apply Hbs. lia. }
    destruct (merge_ok (nth 0 bs bucket0) _ (g 0%nat) (map g (seq 1 k)) (Hbs 0 ltac:(lia)) (kept 0 H0) FB) as (nb & b & M1 & N1 & B1).
    destruct (merge_ok (nth 11 bs bucket0) _ (g 11%nat) (map g (seq (k + 1) (10 - k))) (Hbs 11 ltac:(lia)) (kept 11 H11) FA) as (na & a & M2 & N2 & B2).
    assert (P1 : Permutation (g 0%nat ++ concat (map g (seq 1 k))) (filter (fun x => Nat.leb (f x) k) l)).
    { change (g 0%nat ++ concat (map g (seq 1 k))) with (concat (map g (seq 0 (S k)))). unfold g. rewrite slices_perm. erewrite filter_ext; [reflexivity|].
      intros x. cbn beta. destruct (Nat.leb_spec 0 (f x)), (Nat.ltb_spec (f x) (0 + S k)), (Nat.leb_spec (f x) k); try reflexivity; lia. }
    assert (P2 : Permutation (g 11%nat ++ concat (map g (seq (k + 1) (10 - k)))) (filter (fun x => Nat.ltb k (f x)) l)).
    { unfold g. rewrite slices_perm. rewrite Permutation_app_comm. symmetry. apply filter_two; intros x; specialize (Hf x);
        destruct (Nat.ltb_spec k (f x)), (Nat.leb_spec (k + 1) (f x)), (Nat.ltb_spec (f x) (k + 1 + (10 - k))), (Nat.eqb_spec (f x) 11); try reflexivity; lia. }
    exists b, a. split; [exact (smallest_same _ _ _ _ _ (fun x => conj (Permutation_in x P1) (Permutation_in x (Permutation_sym P1))) B1)|].
    split; [exact (smallest_same _ _ _ _ _ (fun x => conj (Permutation_in x P2) (Permutation_in x (Permutation_sym P2))) B2)|].
    rewrite EB, EA, M1, M2, N1, N2, (Permutation_length P1), (Permutation_length P2). rsimp. rewrite <- !INR_IZR_INZ. f_equal. replace (10 / 1) with 10 by lra. reflexivity.
  Qed.
End Costs.
Lemma loop_min {E : @Ext NumR} bs w (cost : nat -> R) idx : (forall i, In i idx -> split_cost bs w i = Some (cost i)) -> forall best,
  exists c k, min_cost_loop bs w idx best = Some (c, k) /\ c <= fst best /\ (forall i, In i idx -> c <= cost i) /\ ((c, k) = best \/ (In k idx /\ c = cost k)).
Proof.
  induction idx as [|i idx IH]; intros H best; cbn [min_cost_loop].
  - exists (fst best), (snd best). destruct best as [c k]. cbn. split; [reflexivity|]. split; [lra|]. split; [intros i []|]. left; reflexivity.
  - rewrite (H i (or_introl eq_refl)). destruct (IH (fun j Hj => H j (or_intror Hj)) (if @fltb NumR (cost i) (fst best) then (cost i, i) else best)) as (c & k & L1 & L2 & L3 & L4).
    exists c, k. split; [exact L1|]. destruct (@fltb NumR (cost i) (fst best)) eqn:Q; rsimp.
    + apply Rltb_true in Q. cbn [fst] in L2. split; [lra|]. split; [intros j [<-|Hj]; [lra|apply L3, Hj]|].
      right. destruct L4 as [L4|[L4 L5]]; [injection L4 as -> ->; split; [left; reflexivity|reflexivity]|split; [right|]; assumption].
    + apply Rltb_false in Q. split; [exact L2|]. split; [intros j [<-|Hj]; [lra|apply L3, Hj]|].
      destruct L4 as [L4|[L4 L5]]; [left; exact L4|right; split; [right|]; assumption].
Qed.

(** ** the theorem *)
Lemma slice_index cb ax x len : len = comp ax (bmax cb) - comp ax (bmin cb) -> 0 < len -> comp ax (bmin cb) <= comp ax (oi_centroid x) ->
  Z.of_nat (@get_bucket_index NumR (oi_centroid x) len ax (bmin cb)) = slice cb ax x.
Proof.
  intros HL HP HX. rewrite bucket_as_slot. unfold slice. rewrite <- HL. cbv zeta. fold (slot (comp ax (bmin cb)) len (comp ax (oi_centroid x))).
  pose proof (slot_nonneg len (comp ax (bmin cb)) HP _ HX) as S0. rewrite Rtrunc_nonneg by exact S0.
  pose proof (Int_part_mono _ _ S0) as I0. change 0 with (IZR 0) in I0. rewrite Int_part_IZR in I0. set (z := Int_part _) in *. unfold USIZE_MAX.
  destruct (Z.leb_spec 12 (Z.max 0 (Z.min (2 ^ 64 - 1) z))); lia.
Qed.
Lemma fmax_big : 2 ^ 1000 < @FMAX NumR.
Proof.
  unfold FMAX. rsimp. replace ((2 ^ 53 - 1) * 2 ^ 971)%Z with (2 ^ 1000 + ((2 ^ 53 - 1) * 2 ^ 971 - 2 ^ 1000))%Z by ring.
  rewrite plus_IZR. replace (IZR (2 ^ 1000)) with (2 ^ 1000). 2:{ pose proof (pow_IZR 2 1000) as Q. change (Z.of_nat 1000) with 1000%Z in Q. exact Q. }
  assert (0 < IZR ((2 ^ 53 - 1) * 2 ^ 971 - 2 ^ 1000)) by (apply IZR_lt; reflexivity). lra.
Qed.
Lemma cut_unique E cb ax l k c c' : cut_cost E cb ax l k c -> cut_cost E cb ax l k c' -> c = c'.
Proof.
  intros (b & a & w & H1 & H2 & H3 & ->) (b' & a' & w' & H1' & H2' & H3' & ->).
  rewrite (smallest_unique _ _ _ _ _ H1 H1'), (smallest_unique _ _ _ _ _ H2 H2'), (smallest_unique _ _ _ _ _ H3 H3'). reflexivity.
Qed.

Theorem C104_split : forall E, perm_sorts E -> sorts_by_centroid E -> forall scene infos ord fuel (cb : BoxR),
  (4 < length infos)%nat -> around_centres cb infos ->
  let ax := @max_extent NumR E cb in 1 / 10 ^ 8 <= comp ax (bmax cb) - comp ax (bmin cb) ->
  (exists k c, (0 <= k <= 10)%Z /\ cut_cost E cb ax infos k c /\ c < 2 ^ 1000) ->
  exists k c, (0 <= k <= 10)%Z /\ cut_cost E cb ax infos k c /\
    (forall k' c', (0 <= k' <= 10)%Z -> cut_cost E cb ax infos k' c' -> c <= c') /\
    ((24 < length infos)%nat \/ c < INR (length infos) ->
       exists l1 l2, Permutation l1 (lower cb ax k infos) /\ Permutation l2 (upper cb ax k infos) /\ l1 <> [] /\ l2 <> [] /\
         @recursive_build NumR E (S fuel) scene infos ord =
           run (c1, ord1) <- recursive_build fuel scene l1 ord ;;
           run (c2, ord2) <- recursive_build fuel scene l2 ord1 ;;
           Ret (new_interior ax c1 c2, ord2)) /\
    ((length infos <= 24)%nat -> INR (length infos) <= c ->
       exists w, around_objects w infos /\
         @recursive_build NumR E (S fuel) scene infos ord =
           run ord' <- ret_opt (push_all scene infos ord) ;; Ret (Leaf w (length (a_tri ord)) (length infos), ord')).
Proof.
  intros E HP HS scene infos ord fuel cb0 HN HC ax0 HL0 (k0 & c0 & Hk0 & Hc0 & HM).
  destruct infos as [|i rest]; [cbn in HN; lia|].
  assert (cb0 = centroid_bounds i rest) as -> by exact (smallest_unique _ _ _ _ _ HC (centres_ok i rest)).
  cbn [recursive_build]. unfold decide. cbv zeta. set (infos := i :: rest) in *. set (n := length infos) in *.
  destruct (Nat.eqb_spec n 1) as [|_]; [lia|]. set (cb := centroid_bounds i rest) in *. change (max_extent cb) with ax0. set (ax := ax0) in *.
  set (len := fsub (comp ax (bmax cb)) (comp ax (bmin cb))) in *. change (1 / 10 ^ 8 <= len) in HL0.
  assert (Hlen : 0 < len) by (apply Rlt_le_trans with (1 / 10 ^ 8); [lra|exact HL0]).
  destruct (fltb len (flit 1 100000000)) eqn:L. { exfalso. apply Rltb_true in L. revert L. rsimp. lra. }
  destruct (Nat.leb_spec n 4) as [|_]; [lia|].
  destruct (HC ax) as (C1 & (xm & Im & Em) & (xM & IM & EM)). fold infos in C1, Im, IM.
  set (f := fun x : Obj => get_bucket_index (oi_centroid x) len ax (bmin cb)).
  assert (Flt : forall x, (f x < 12)%nat) by (intros x; apply bucket_lt).
  assert (Fs : forall x, In x infos -> Z.of_nat (f x) = slice cb ax x). { intros x Hx. apply slice_index; [reflexivity|exact Hlen|]. apply (C1 x Hx). }
  assert (F0 : f xm = 0%nat) by (apply bucket_first with (minc := comp ax (bmin cb)); [reflexivity|exact Em]).
  assert (F11 : f xM = 11%nat). { apply bucket_last with (minc := comp ax (bmin cb)); [exact Hlen|reflexivity|]. rewrite EM. exact (plus_minus_id _ _). }
  assert (FL : forall k : nat, filter (fun x => Nat.leb (f x) k) infos = lower cb ax (Z.of_nat k) infos).
  { intros k. unfold lower. apply filter_ext_in. intros x Hx. rewrite <- (Fs x Hx). destruct (Nat.leb_spec (f x) k), (Z.leb_spec (Z.of_nat (f x)) (Z.of_nat k)); try reflexivity; lia. }
  assert (FU : forall k : nat, filter (fun x => Nat.ltb k (f x)) infos = upper cb ax (Z.of_nat k) infos).
  { intros k. unfold upper. apply filter_ext_in. intros x Hx. rewrite <- (Fs x Hx). destruct (Nat.ltb_spec k (f x)), (Z.ltb_spec (Z.of_nat k) (Z.of_nat (f x))); try reflexivity; lia. }
  set (bs := fill_buckets len ax (bmin cb) infos).
  destruct (fill_ok f infos Flt [] (repeat (0%nat, None) 12) eq_refl) as [B1 B2].
  { intros j Hj. do 12 (destruct j as [|j]; [split; reflexivity|]). lia. }
  change (fold_left _ infos _) with bs in B1, B2. cbn [app] in B2.
  set (w := bounds_of i rest). pose proof (whole_ok i rest) as HW. fold infos w in HW.
  assert (CO : forall k : nat, (k <= 10)%nat -> exists c, split_cost bs w k = Some c /\ cut_cost E cb ax infos (Z.of_nat k) c).
  { intros k Hk. destruct (cost_ok bs f infos w B1 B2 Flt (ex_intro _ xm (conj Im F0)) (ex_intro _ xM (conj IM F11)) k Hk) as (b & a & K1 & K2 & K3).
    rewrite FL in *. rewrite FU in *. eexists. split; [exact K3|]. exists b, a, w. split; [exact K1|]. split; [exact K2|]. split; [exact HW|reflexivity]. }
  set (cost := fun k => match split_cost bs w k with Some c => c | None => 0 end).
  assert (CS : forall k, In k (seq 0 (N_BUCKETS - 1)) -> split_cost bs w k = Some (cost k)).
  { intros k Hk. apply in_seq in Hk. unfold N_BUCKETS in Hk. destruct (CO k ltac:(lia)) as (c & Q & _). unfold cost. rewrite Q. reflexivity. }
  destruct (loop_min bs w cost _ CS (FMAX, 0%nat)) as (c & k & M1 & M2 & M3 & M4).
  assert (CC : forall k', (0 <= k' <= 10)%Z -> cut_cost E cb ax infos k' (cost (Z.to_nat k')) /\ c <= cost (Z.to_nat k')).
  { intros k' Hk'. assert (In (Z.to_nat k') (seq 0 (N_BUCKETS - 1))) as I by (apply in_seq; unfold N_BUCKETS; lia). split; [|apply M3, I].
    destruct (CO (Z.to_nat k') ltac:(lia)) as (c' & Q1 & Q2). rewrite Z2Nat.id in Q2 by lia. unfold cost. rewrite Q1. exact Q2. }
  assert (MK : In k (seq 0 (N_BUCKETS - 1)) /\ c = cost k).
  { destruct M4 as [M4|M4]; [|exact M4]. exfalso. injection M4 as -> ->. destruct (CC k0 Hk0) as [G1 G2]. rewrite (cut_unique _ _ _ _ _ _ _ G1 Hc0) in G2.
    pose proof fmax_big. lra. }
  destruct MK as [Hk Ek]. apply in_seq in Hk. unfold N_BUCKETS in Hk. cbn [Nat.sub Nat.add] in Hk.
  exists (Z.of_nat k), c. split; [lia|]. split; [rewrite Ek; destruct (CC (Z.of_nat k) ltac:(lia)) as [G _]; rewrite Nat2Z.id in G; exact G|].
  split; [intros k' c' Hk' Hc'; destruct (CC k' Hk') as [G1 G2]; rewrite (cut_unique _ _ _ _ _ _ _ G1 Hc') in G2; exact G2|].
  change (fill_buckets len ax (bmin cb) infos) with bs. rewrite M1.
  assert (SP : (if (Nat.ltb 24 n || fltb c (fofZ (Z.of_nat n)))%bool then (24 < n)%nat \/ c < INR n else (n <= 24)%nat /\ INR n <= c)).
  { destruct (Nat.ltb_spec 24 n) as [A|A]; cbn [orb]; [left; exact A|]. destruct (fltb c (fofZ (Z.of_nat n))) eqn:Q.
    - apply Rltb_true in Q. right. rewrite INR_IZR_INZ. exact Q.
    - apply Rltb_false in Q. split; [exact A|]. rewrite INR_IZR_INZ. exact Q. }
  destruct (Nat.ltb 24 n || fltb c (fofZ (Z.of_nat n)))%bool; (split; [intros CASE|intros CASE1 CASE2]).
  - clear SP. pose proof (HS ax infos) as Sx. pose proof (proj1 HP (cmp_centroids ax) infos) as Px.
    set (sorted := sort_by (cmp_centroids ax) infos) in *.
    change (fun x : ObjectInfo => Nat.leb (get_bucket_index (oi_centroid x) len ax (bmin cb)) k) with (fun x : Obj => Nat.leb (f x) k).
    set (p := fun x : Obj => Nat.leb (f x) k).
    destruct (leading_filter _ p sorted Sx) as [LF LS].
    { intros a b Ia Ib RR Hb. unfold p in *. apply Nat.leb_le in Hb. apply Nat.leb_le. etransitivity; [|exact Hb]. unfold f.
      apply bucket_mono with (minc := comp ax (bmin cb)); [exact Hlen|reflexivity| |exact (cmp_le ax a b RR)].
      apply (C1 a (Permutation_in a Px Ia)). }
    assert (P1 : Permutation (firstn (leading p sorted) sorted) (lower cb ax (Z.of_nat k) infos)). { rewrite LF, <- FL. apply filter_perm, Px. }
    assert (P2 : Permutation (skipn (leading p sorted) sorted) (upper cb ax (Z.of_nat k) infos)).
    { rewrite LS, <- FU. erewrite filter_ext; [apply filter_perm, Px|]. intros x. unfold p. cbn beta. destruct (Nat.leb_spec (f x) k), (Nat.ltb_spec k (f x)); try reflexivity; lia. }
    assert (N1 : firstn (leading p sorted) sorted <> []).
    { intros Q. rewrite Q in P1. apply Permutation_nil in P1. assert (In xm []) as []. rewrite <- P1, <- FL. apply filter_In. split; [exact Im|]. rewrite F0. reflexivity. }
    assert (N2 : skipn (leading p sorted) sorted <> []).
    { intros Q. rewrite Q in P2. apply Permutation_nil in P2. assert (In xM []) as []. rewrite <- P2, <- FU. apply filter_In. split; [exact IM|]. rewrite F11. apply Nat.ltb_lt. lia. }
    destruct (Nat.eqb_spec (leading p sorted) 0) as [D|D]; [exfalso; apply N1; rewrite D; reflexivity|].
    exists (firstn (leading p sorted) sorted), (skipn (leading p sorted) sorted). repeat (split; [assumption|]). reflexivity.
  - exfalso. destruct SP; [lia|lra].
  - exfalso. destruct SP, CASE; [lia|lra].
  - exists w. split; [exact HW|reflexivity].
Qed.
Print Assumptions C104_split.

(** ** few primitives, or centres (almost) on one spot *)
Theorem C104_few : forall (N : Num) (E : Ext), perm_sorts E -> forall scene infos ord fuel,
  (2 <= length infos <= 4)%nat -> (forall i rest, infos = i :: rest -> let cb := centroid_bounds i rest in
     let ax := max_extent cb in fltb (fsub (comp ax (bmax cb)) (comp ax (bmin cb))) (flit 1 100000000) = false) ->
  exists ax l1 l2, Permutation (l1 ++ l2) infos /\ length l1 = Nat.div2 (length infos) /\
    recursive_build (S fuel) scene infos ord =
      run (c1, ord1) <- recursive_build fuel scene l1 ord ;; run (c2, ord2) <- recursive_build fuel scene l2 ord1 ;; Ret (new_interior ax c1 c2, ord2).
Proof.
  intros N E HP scene infos ord fuel HN HL. destruct infos as [|i rest]; [cbn in HN; lia|]. specialize (HL i rest eq_refl). cbv zeta in HL.
  cbn [recursive_build]. unfold decide. cbv zeta. rewrite HL. set (infos := i :: rest) in *. set (n := length infos) in *.
  destruct (Nat.eqb_spec n 1) as [|_]; [lia|]. destruct (Nat.leb_spec n 4) as [_|]; [|lia].
  set (ax := max_extent _). set (l := select_by _ _ infos). pose proof (proj2 HP (Nat.div2 n) (cmp_centroids ax) infos) as P. fold l in P.
  exists ax, (firstn (Nat.div2 n) l), (skipn (Nat.div2 n) l). split; [rewrite firstn_skipn; exact P|]. split; [|reflexivity].
  rewrite firstn_length, (Permutation_length P). fold n. pose proof (Nat.div2_decr n n ltac:(lia)). lia.
Qed.
Theorem C104_one_spot : forall (N : Num) (E : Ext) scene i rest ord fuel,
  (rest = [] \/ let cb := centroid_bounds i rest in let ax := max_extent cb in fltb (fsub (comp ax (bmax cb)) (comp ax (bmin cb))) (flit 1 100000000) = true) ->
  recursive_build (S fuel) scene (i :: rest) ord =
    run ord' <- ret_opt (push_all scene (i :: rest) ord) ;; Ret (Leaf (bounds_of i rest) (length (a_tri ord)) (S (length rest)), ord').
Proof.
  intros N E scene i rest ord fuel H. cbn [recursive_build]. unfold decide. cbv zeta in *. cbn [length].
  destruct H as [->|H]; [reflexivity|]. rewrite H. destruct (Nat.eqb _ 1); reflexivity.
Qed.

(** ** a case: twelve unit boxes in two groups ten apart *)
Definition unit_at (x y : R) : Obj := @mkOI NumR 0 (@mkBox NumR (@V3 NumR (x - 1/2) (y - 1/2) (y - 1/2)) (@V3 NumR (x + 1/2) (y + 1/2) (y + 1/2))) (@V3 NumR x y y).
Definition near_group : list Obj := map (unit_at 0) [0; 1; 2; 0; 1; 2].
Definition far_group : list Obj := map (unit_at 10) [0; 1; 2; 0; 1; 2].
Definition two_groups : list Obj := near_group ++ far_group.
Definition groups_box : BoxR := @mkBox NumR (@V3 NumR 0 0 0) (@V3 NumR 10 2 2).
Ltac in_groups := repeat (first [left; reflexivity|right]).
Lemma group_box x : around_centres (@mkBox NumR (@V3 NumR x 0 0) (@V3 NumR x 2 2)) (map (unit_at x) [0; 1; 2; 0; 1; 2]).
Proof.
  intros ax. split; [intros y Hy; cbn in Hy; decompose [or] Hy; try contradiction; subst y; destruct ax; cbn; lra|].
  split; [exists (unit_at x 0)|exists (unit_at x 2)]; (split; [cbn; tauto|destruct ax; reflexivity]).
Qed.
Lemma slice_group x y : x = 0 \/ x = 10 -> slice groups_box AX (unit_at x y) = if Req_EM_T x 0 then 0%Z else 11%Z.
Proof.
  intros H. unfold slice, groups_box, unit_at. cbn [comp oi_centroid bmin bmax vx]. rsimp. destruct H as [-> | ->].
  - replace ((0 - 0) * 12 / (10 - 0)) with (IZR 0) by lra. rewrite Int_part_IZR. destruct (Req_EM_T 0 0); [reflexivity|lra].
  - replace ((10 - 0) * 12 / (10 - 0)) with (IZR 12) by lra. rewrite Int_part_IZR. destruct (Req_EM_T 10 0); [lra|reflexivity].
Qed.
Lemma groups_sides k : (0 <= k <= 10)%Z -> lower groups_box AX k two_groups = near_group /\ upper groups_box AX k two_groups = far_group.
Proof.
  intros Hk. unfold lower, upper, two_groups, near_group, far_group. cbn [map app filter]. rewrite !slice_group by (first [left; reflexivity|right; reflexivity]).
  destruct (Req_EM_T 0 0) as [_|]; [|lra]. destruct (Req_EM_T 10 0) as [|_]; [lra|].
  destruct (Z.leb_spec 0 k), (Z.ltb_spec k 0), (Z.leb_spec 11 k), (Z.ltb_spec k 11); try lia. split; reflexivity.
Qed.
Example C104_case : (length two_groups = 12)%nat /\ around_centres groups_box two_groups /\ @max_extent NumR ext_example groups_box = AX /\
  forall k, (0 <= k <= 10)%Z -> cut_cost ext_example groups_box AX two_groups k (10 + 96 / 150).
Proof.
  split; [reflexivity|]. split; [|split].
  - intros ax. split; [intros y Hy; apply in_app_or in Hy; cbn in Hy; decompose [or] Hy; try contradiction; subst y; destruct ax; cbn; lra|].
    split; [exists (unit_at 0 0)|exists (unit_at 10 2)]; (split; [apply in_or_app; cbn; tauto|destruct ax; reflexivity]).
  - cbn [max_extent ext_example]. unfold extent, groups_box. cbn [comp bmin bmax vx vy vz]. rsimp.
    destruct (Rltb_spec (10 - 0) (2 - 0)); [lra|]. destruct (Rltb_spec (10 - 0) (2 - 0)); [lra|reflexivity].
  - intros k Hk. unfold cut_cost. destruct (groups_sides k Hk) as [-> ->].
    exists (@mkBox NumR (@V3 NumR 0 0 0) (@V3 NumR 0 2 2)), (@mkBox NumR (@V3 NumR 10 0 0) (@V3 NumR 10 2 2)), (@mkBox NumR (@V3 NumR (0 - 1/2) (0 - 1/2) (0 - 1/2)) (@V3 NumR (10 + 1/2) (2 + 1/2) (2 + 1/2))).
    split; [apply group_box|]. split; [apply group_box|]. split.
    + intros ax. split; [intros y Hy; apply in_app_or in Hy; cbn in Hy; decompose [or] Hy; try contradiction; subst y; destruct ax; cbn; lra|].
      split; [exists (unit_at 0 0)|exists (unit_at 10 2)]; (split; [apply in_or_app; cbn; tauto|destruct ax; reflexivity]).
    + cbn [surface_area ext_example]. unfold extent. cbn [comp bmin bmax vx vy vz]. rsimp. unfold near_group, far_group. rewrite !map_length. cbn [length]. rewrite !INR_IZR_INZ. cbn [Z.of_nat Pos.of_succ_nat Pos.succ]. field.
Qed.
