(** * A concrete instance of the external routines (so the contracts are satisfiable), the order of binary64,
      coincident triangles, and sequences of queries *)
From Coq Require Import Permutation Sorted SpecFloat.
From Verif Require Import NumR NumSF Geometry Triangle SpecGeom TriangleProofs Ray Bvh BvhProofs BvhOrder BvhReal BvhReal2 SpecBvh BvhQuery.
Open Scope R_scope.

(** ** binary64 `<` is a strict order on all values, NaN and infinities included *)
Lemma strict_order_SF : strict_order NumSF.
Proof.
  split.
  - intros x. change (SFltb x x = false). unfold SFltb, SFcompare.
    destruct x as [s|s| |s m e]; try reflexivity; destruct s; try reflexivity.
    + rewrite Z.compare_refl. unfold CompOpp. rewrite Pos.compare_cont_refl. reflexivity.
    + rewrite Z.compare_refl, Pos.compare_cont_refl. reflexivity.
  - intros x y z H1 H2. change (SFltb x z = true). change (SFltb x y = true) in H1. change (SFltb y z = true) in H2.
    unfold SFltb, SFcompare in *.
    destruct x as [[|]|[|]| |[|] mx ex]; destruct y as [[|]|[|]| |[|] my ey]; try discriminate;
      destruct z as [[|]|[|]| |[|] mz ez]; try discriminate; try reflexivity.
    all: destruct (Z.compare_spec ex ey) as [E1|L1|L1]; try discriminate;
         destruct (Z.compare_spec ey ez) as [E2|L2|L2]; try discriminate;
         destruct (Z.compare_spec ex ez) as [E3|L3|L3]; try reflexivity; try lia.
    all: change (Pos.compare_cont Eq mx mz) with (mx ?= mz)%positive;
         change (Pos.compare_cont Eq mx my) with (mx ?= my)%positive in H1;
         change (Pos.compare_cont Eq my mz) with (my ?= mz)%positive in H2;
         destruct (Pos.compare_spec mx my), (Pos.compare_spec my mz), (Pos.compare_spec mx mz);
           cbn in *; try discriminate; try reflexivity; lia.
Qed.

(** ** a concrete [Ext] *)
Section Sort.
  Variable A : Type.
  Variable c : A -> A -> comparison.
  Fixpoint insert (x : A) (l : list A) : list A :=
    match l with [] => [x] | y :: r => match c x y with Gt => y :: insert x r | _ => x :: y :: r end end.
  Definition isort (l : list A) : list A := fold_right insert [] l.
  Lemma insert_perm x l : Permutation (insert x l) (x :: l).
  Proof. induction l as [|y r IH]; cbn; [reflexivity|]. destruct (c x y); try reflexivity. rewrite IH. apply perm_swap. Qed.
  Lemma isort_perm l : Permutation (isort l) l.
  Proof. induction l as [|y r IH]; cbn; [reflexivity|]. rewrite insert_perm, IH. reflexivity. Qed.
  Hypothesis total : forall x y, c x y = Gt -> c y x <> Gt.
  Hypothesis trans : forall x y z, c x y <> Gt -> c y z <> Gt -> c x z <> Gt.
  Lemma insert_sorted x l : StronglySorted (fun a b => c a b <> Gt) l -> StronglySorted (fun a b => c a b <> Gt) (insert x l).
  Proof.
    induction 1 as [|y r Hs IH Hf]; cbn.
    - repeat constructor.
    - destruct (c x y) eqn:D.
      1,2: constructor; [constructor; assumption|]; constructor; [congruence|];
           eapply Forall_impl; [|exact Hf]; intros a Ha; eapply trans; [|exact Ha]; congruence.
      constructor; [assumption|]. rewrite Forall_forall in *. intros a Ha.
      apply (Permutation_in _ (insert_perm x r)) in Ha as [<-|Ha]; [apply total; assumption|apply Hf; assumption].
  Qed.
  Lemma isort_sorted l : StronglySorted (fun a b => c a b <> Gt) (isort l).
  Proof. induction l as [|y r IH]; cbn; [constructor|apply insert_sorted, IH]. Qed.
End Sort.

(** per-axis box test: some positive parameter brings that coordinate into the slab *)
Definition slab (lo hi o d : R) : bool :=
  if Rltb 0 d then Rleb o hi else if Rltb d 0 then Rleb lo o else Rleb lo o && Rleb o hi.
Definition extent (ax : Axis) (b : BoxR) : R := comp ax (bmax b) - comp ax (bmin b).
Definition ext_example : @Ext NumR := {|
  surface_area := fun b => 2 * (extent AX b * extent AY b + extent AY b * extent AZ b + extent AZ b * extent AX b);
  max_extent := fun b => if Rltb (extent AX b) (extent AY b)
                         then (if Rltb (extent AY b) (extent AZ b) then AZ else AY)
                         else (if Rltb (extent AX b) (extent AZ b) then AZ else AX);
  bbox_hit := fun b r _ => slab (vx (bmin b)) (vx (bmax b)) (vx (origin r)) (vx (direction r))
                        && slab (vy (bmin b)) (vy (bmax b)) (vy (origin r)) (vy (direction r))
                        && slab (vz (bmin b)) (vz (bmax b)) (vz (origin r)) (vz (direction r));
  sort_by := fun c l => isort _ c l;
  select_by := fun _ c l => isort _ c l |}.

Lemma slab_ok lo hi o d s : 0 < s -> lo <= o + s * d <= hi -> slab lo hi o d = true.
Proof.
  intros Hs [H1 H2]. unfold slab.
  destruct (Rltb_spec 0 d) as [D|D]; [apply Rleb_true; nra|].
  destruct (Rltb_spec d 0) as [D'|D']; [apply Rleb_true; nra|].
  assert (d = 0) by lra. subst d. rewrite Rmult_0_r in *. apply andb_true_intro. split; apply Rleb_true; lra.
Qed.

Theorem ext_example_ok : perm_sorts ext_example /\ sorts_by_centroid ext_example /\ max_extent_ok ext_example /\ box_test_complete ext_example.
Proof.
  split; [split; intros; apply isort_perm|]. split; [|split].
  - intros ax l. cbn [sort_by ext_example].
    assert (G : forall a b, @cmp_centroids NumR ax a b <> Gt <-> key ax a <= key ax b).
    { intros a b. split; [apply cmp_le|]. unfold cmp_centroids, cmp_float, key. rsimp. intros H.
      destruct (Rltb_spec (comp ax (oi_centroid a)) (comp ax (oi_centroid b))); [discriminate|].
      destruct (Rltb_spec (comp ax (oi_centroid b)) (comp ax (oi_centroid a))); [|discriminate]. rsimp. lra. }
    apply isort_sorted.
    + intros x y H. rewrite G. destruct (Rle_lt_dec (key ax y) (key ax x)) as [|L]; [assumption|].
      assert (cmp_centroids ax x y <> Gt) by (apply G; lra). contradiction.
    + intros x y z. rewrite !G. lra.
  - intros b ax. cbn [max_extent ext_example].
    assert (G : forall a, comp a (bmax b) - comp a (bmin b) = extent a b) by reflexivity.
    rewrite !G.
    destruct (Rltb_spec (extent AX b) (extent AY b)).
    all: destruct (Rltb_spec (extent AY b) (extent AZ b)), (Rltb_spec (extent AX b) (extent AZ b)); destruct ax; lra.
  - intros b r s Hs H. cbn [bbox_hit ext_example]. destruct r as [o d], b as [lo hi], o as [ox oy oz], d as [dx dy dz], lo as [lx ly lz], hi as [hx hy hz].
    unfold in_box, along, plus, times, pt in H. cbn [origin direction bmin bmax vx vy vz] in *. destruct H as (H1 & H2 & H3).
    rewrite (slab_ok _ _ _ _ s Hs H1), (slab_ok _ _ _ _ s Hs H2), (slab_ok _ _ _ _ s Hs H3). reflexivity.
Qed.

Lemma F2_length {A B} (P : A -> B -> Prop) l m : Forall2 P l m -> length l = length m.
Proof. induction 1; cbn; congruence. Qed.

(** ** coincident triangles end up in one leaf *)
Section Coincident.
  Context {E : @Ext NumR}.
  Variables (t : TriR) (n : nat).
  Hypothesis Hn : (2 <= n)%nat.
  Definition copies : @Arrays NumR := mkArr (repeat t n) (repeat 0%nat n) (repeat 0%nat n) (repeat (pt 0 0 1, pt 0 0 1, pt 0 0 1) n).

  Lemma copies_aligned : aligned copies.
  Proof. repeat split; cbn; rewrite !repeat_length; reflexivity. Qed.

  Lemma copies_infos x : In x (infos_of (a_tri copies)) -> exists j, x = object_info j t.
  Proof.
    unfold infos_of. intros H. apply in_map_iff in H as ([j t'] & <- & Hin). apply in_combine_r in Hin.
    apply repeat_spec in Hin. subst. exists j. reflexivity.
  Qed.

  Lemma bounds_of_same (rest : list (@ObjectInfo NumR)) b : (forall x, In x rest -> oi_bounds x = b) ->
    fold_left (fun b x => box_union b (oi_bounds x)) rest b = b.
  Proof.
    induction rest as [|y rest IH]; intros H; [reflexivity|]. cbn [fold_left]. rewrite (H y) by (left; reflexivity).
    replace (box_union b b) with b; [apply IH; intros; apply H; right; assumption|].
    destruct b as [lo hi]. unfold box_union, vmin, vmax, fminb, fmaxb. cbn [bmin bmax]. rsimp. destruct lo as [a0 a1 a2], hi as [b0 b1 b2]. cbn.
    f_equal; f_equal; destruct (Rltb _ _); reflexivity.
  Qed.

  Theorem coincident_build fuel : exists scene',
    bvh_new (S fuel) copies = Ret ([mkFlat (world_bounds t) (as_signed 16 (Z.of_nat n)) AX 0], scene') /\ a_tri scene' = a_tri copies.
  Proof.
    unfold bvh_new. destruct (Nat.eqb_spec (length (a_tri copies)) 0) as [D|D].
    { cbn in D. rewrite repeat_length in D. lia. }
    assert (HF := infos_of_describe copies). pose proof (infos_of_length (a_tri copies)) as HL. pose proof copies_infos as HI.
    assert (Hlen : length (a_tri copies) = n) by apply repeat_length.
    rewrite Hlen in HL.
    destruct (infos_of (a_tri copies)) as [|i rest] eqn:Ei; [cbn in HL; lia|].
    cbn [recursive_build].
    assert (HD : decide i rest = Some MakeLeaf).
    { unfold decide. cbv zeta. destruct (Nat.eqb_spec (length (i :: rest)) 1); [lia|].
      set (cb := centroid_bounds i rest). set (ax := max_extent cb).
      destruct (centroid_bounds_spec ax i rest) as (_ & (xm & Im & Em) & (xM & IM & EM)). fold cb in Em, EM.
      destruct (HI xm Im) as [jm ->], (HI xM IM) as [jM ->].
      assert (Z0 : @eq R (fsub (comp ax (bmax cb)) (comp ax (bmin cb))) 0).
      { cbn [fsub NumR]. rewrite <- Em, <- EM. unfold key. cbn [object_info oi_centroid]. apply Rminus_diag_eq. reflexivity. }
      rewrite Z0. cbn [fltb NumR flit]. rewrite Rltb_is_true by lra. reflexivity. }
    rewrite HD. destruct (push_all_total copies (i :: rest) copies_aligned HF empty_arrays) as [o Ho]. rewrite Ho.
    cbn [ret_opt obind]. exists o. 
    destruct (push_tri copies (i :: rest) empty_arrays o HF Ho) as (ts & Ets & F2). cbn [empty_arrays a_tri app] in Ets.
    assert (Hts : ts = repeat t n).
    { assert (length ts = n) by (apply F2_length in F2; lia).
      assert (Forall (eq t) ts).
      { apply Forall_forall. intros y Hy. apply In_nth_error in Hy as [k Hk]. 
        destruct (Forall2_nth _ _ _ F2 _ _ Hk) as (x & Hx & _).
        assert (Hp : nth_error (a_tri o) k = Some y) by (rewrite Ets; exact Hk).
        destruct (push_all_spec copies (i :: rest) empty_arrays o ltac:(repeat split) Ho) as (Ao & _ & rs & Pk & R).
        cbn in R. rewrite <- (tri_of_records _ Ao), R, nth_error_map in Hp.
        destruct (nth_error rs k) as [rk|] eqn:Hr; [|discriminate]. cbn in Hp. injection Hp as <-.
        destruct (Forall2_nth _ _ _ Pk _ _ Hr) as (x' & _ & Hx').
        assert (Hx2 : nth_error (a_tri copies) (oi_index x') = Some (tri_of rk)).
        { rewrite <- (tri_of_records _ copies_aligned), nth_error_map, Hx'. reflexivity. }
        apply nth_error_In, repeat_spec in Hx2. symmetry; assumption. }
      rewrite <- H. clear - H0. induction H0 as [|y l <- H IH]; [reflexivity|]. cbn. f_equal. assumption. }
    split; [|rewrite Ets, Hts; reflexivity].
    cbn [flatten_node snd app]. rewrite HL. do 4 f_equal.
    unfold bounds_of. destruct (HI i ltac:(left; reflexivity)) as [j ->]. cbn [object_info oi_bounds].
    apply bounds_of_same. intros x Hx. destruct (HI x ltac:(right; assumption)) as [j' ->]. reflexivity.
  Qed.
End Coincident.

(** ** sequences of queries sharing one auxiliary buffer *)
Section Sequences.
  Context {N : Num} {E : Ext}.
  Inductive Query := Closest (r : Ray) | Shadow (ray : Ray3D) (d2 : F).
  Inductive Answer := Hit (index : option Z) (r : Ray) | Clear (b : bool) | Panicked | Diverged.
  (** one query with the buffer content [aux]: its answer and what it leaves in the buffer *)
  Definition ask (fuel : nat) (nodes : list FlatNode) (prims : list Triangle) (aux : list Z) (q : Query) : Answer * list Z :=
    match q with
    | Closest r => match intersect fuel nodes prims r aux with
                   | Ret (o, r', aux') => (Hit o r', aux') | Crash => (Panicked, aux) | Stuck => (Diverged, aux) end
    | Shadow ray d2 => match unobstructed_distance fuel nodes prims ray d2 aux with
                       | Ret (b, aux') => (Clear b, aux') | Crash => (Panicked, aux) | Stuck => (Diverged, aux) end
    end.
  Fixpoint ask_all fuel nodes prims aux (qs : list Query) : list Answer :=
    match qs with
    | [] => []
    | q :: rest => let '(a, aux') := ask fuel nodes prims aux q in a :: ask_all fuel nodes prims aux' rest
    end.

  Lemma ask_history fuel nodes prims aux aux' q : fst (ask fuel nodes prims aux q) = fst (ask fuel nodes prims aux' q).
  Proof.
    destruct q; cbn [ask].
    - unfold intersect. destruct nodes as [|nd nodes]; [reflexivity|]. cbv zeta. unfold truncate0. cbn [firstn].
      destruct (isect_loop _ _ _ _ _ _ _) as [[b x]| |]; cbn [obind]; try reflexivity.
      destruct (b_index b), (b_info b); reflexivity.
    - unfold unobstructed_distance. destruct nodes as [|nd nodes]; [reflexivity|]. unfold truncate0. cbn [firstn].
      destruct (shadow_loop _ _ _ _ _ _ _) as [[b x]| |]; reflexivity.
  Qed.
  Lemma ask_all_history fuel nodes prims qs : forall aux,
    ask_all fuel nodes prims aux qs = map (fun q => fst (ask fuel nodes prims [] q)) qs.
  Proof.
    induction qs as [|q qs IH]; intros aux; [reflexivity|]. cbn [ask_all map].
    destruct (ask fuel nodes prims aux q) as [a aux'] eqn:D. rewrite IH. f_equal.
    rewrite <- (ask_history fuel nodes prims aux [] q), D. reflexivity.
  Qed.
End Sequences.
