(** * P_Float: results about the code's own arithmetic, binary64 with rounding (Coq.Floats.SpecFloat; facts from Flocq) *)
From Coq Require Import Permutation Sorted SpecFloat Reals Lra.
From Flocq Require Import Core BinarySingleNaN.
From Verif Require Import Num NumSF SFBridge FloatOps Geometry Triangle Ray Bvh BvhProofs BvhOrder BvhExamples BvhFloat.
Open Scope R_scope.

(** ** C02 - building the accelerator in binary64 *)
(** a vertex a scene file can reasonably hold: three finite doubles of magnitude at most 2^999 *)
Definition reasonable_vertex (p : @Vec NumSF) : Prop :=
  finite_upto (big 999) (vx p) /\ finite_upto (big 999) (vy p) /\ finite_upto (big 999) (vz p).
Definition reasonable_triangle (t : @Triangle NumSF) : Prop :=
  reasonable_vertex (ta t) /\ reasonable_vertex (tb t) /\ reasonable_vertex (tc t).

Lemma minb_finite B x y : finite_upto B x -> finite_upto B y -> finite_upto B (@fminb NumSF x y).
Proof. intros H1 H2. unfold fminb. destruct (@fltb NumSF y x); assumption. Qed.
Lemma maxb_finite B x y : finite_upto B x -> finite_upto B y -> finite_upto B (@fmaxb NumSF x y).
Proof. intros H1 H2. unfold fmaxb. destruct (@fltb NumSF x y); assumption. Qed.
Lemma half_finite : finite_upto (big 0) (@flit NumSF 1 2) /\ val (@flit NumSF 1 2) = 1 / 2.
Proof.
  assert (Q : @flit NumSF 1 2 = S754_finite false 4503599627370496 (-53)) by (vm_compute; reflexivity). rewrite Q.
  assert (V : val (S754_finite false 4503599627370496 (-53)) = 1 / 2) by (change (4503599627370496 * big (-53) = 1 / 2); cbn; lra).
  split; [|exact V]. split; [reflexivity|]. split; [reflexivity|]. rewrite V. cbn. rewrite Rabs_pos_eq; lra.
Qed.
Lemma mid_finite x y : finite_upto (big 999) x -> finite_upto (big 999) y ->
  finite_upto (big 1000) (@fmul NumSF (@fadd NumSF x y) (@flit NumSF 1 2)).
Proof.
  intros Hx Hy. destruct (add_val 1000 ltac:(lia) _ _ _ Hx Hy) as [_ FA].
  { destruct Hx as (_ & _ & B1), Hy as (_ & _ & B2). eapply Rle_trans; [apply Rabs_triang|].
    change 1000%Z with (999 + 1)%Z. rewrite bpow_plus_1. change (IZR radix2) with 2. lra. }
  destruct half_finite as [FH VH]. apply (mul_val 1000 ltac:(lia) _ _ _ _ FA FH).
  destruct FA as (_ & _ & BA). rewrite VH, Rabs_mult, (Rabs_pos_eq (1 / 2)) by lra.
  pose proof (Rabs_pos (val (@fadd NumSF x y))). lra.
Qed.
Lemma comp_reasonable ax p : reasonable_vertex p -> finite_upto (big 999) (comp ax p).
Proof. intros (H1 & H2 & H3). destruct ax; assumption. Qed.
Lemma info_tame i t : reasonable_triangle t -> tame (object_info i t).
Proof.
  intros (Ha & Hb & Hc) ax. unfold fkey, object_info, world_bounds. cbv zeta. cbn [oi_centroid].
  set (b := box_union_point (box_union_point (box_point (ta t)) (tb t)) (tc t)).
  assert (E : comp ax (@vscale NumSF (vadd (bmax b) (bmin b)) (@flit NumSF 1 2)) = @fmul NumSF (@fadd NumSF (comp ax (bmax b)) (comp ax (bmin b))) (@flit NumSF 1 2))
    by (destruct ax; reflexivity).
  rewrite E. apply mid_finite; unfold b.
  - rewrite !(proj2 (comp_union_point_any ax _ _)). repeat apply maxb_finite; apply comp_reasonable; assumption.
  - rewrite !(proj1 (comp_union_point_any ax _ _)). repeat apply minb_finite; apply comp_reasonable; assumption.
Qed.

(** what is assumed of the library sort: it permutes its slice, and sorts slices whose keys are finite *)
Definition sort_ok64 (E : @Ext NumSF) : Prop := perm_sorts E /\ sorts_finite E.

Theorem C02_binary64 : forall E, sort_ok64 E ->
  forall scene : @Arrays NumSF, aligned scene -> Forall reasonable_triangle (a_tri scene) ->
  forall fuel, (length (a_tri scene) <= fuel)%nat ->
  exists nodes scene', @bvh_new NumSF E fuel scene = Ret (nodes, scene') /\ aligned scene' /\ Permutation (records scene') (records scene).
Proof.
  intros E [HP HS] scene Ha HR fuel Hf.
  assert (B : exists nodes scene', @bvh_new NumSF E fuel scene = Ret (nodes, scene')).
  { unfold bvh_new. destruct (Nat.eqb_spec (length (a_tri scene)) 0) as [D|D]; [eauto|].
    destruct (any_build_total HP scene tame Ha (buckets_ok64 HP HS) fuel (infos_of (a_tri scene)) empty_arrays) as (nd & ord & ->).
    - intros Z. apply (f_equal (@length _)) in Z. unfold infos_of in Z. rewrite map_length, combine_length, seq_length in Z. cbn in Z. lia.
    - unfold infos_of. rewrite map_length, combine_length, seq_length. lia.
    - apply any_infos_describe.
    - apply Forall_forall. intros x Hx. pose proof (any_infos_describe scene) as HD. rewrite Forall_forall in HD.
      destruct (HD x Hx) as (t & Ht & ->). apply info_tame. rewrite Forall_forall in HR. apply HR. eapply nth_error_In; eassumption.
    - cbn [obind]. eauto. }
  destruct B as (nodes & scene' & B). exists nodes, scene'. split; [exact B|]. exact (build_permutation HP _ _ _ _ Ha B).
Qed.
Print Assumptions C02_binary64.

(** the contract is met by insertion sort *)
Lemma insert_finite ax (x : @ObjectInfo NumSF) l : tame x -> Forall tame l ->
  StronglySorted (fun a b => cmp_centroids ax a b <> Gt) l -> StronglySorted (fun a b => cmp_centroids ax a b <> Gt) (insert _ (cmp_centroids ax) x l).
Proof.
  assert (LE : forall a b : @ObjectInfo NumSF, tame a -> tame b -> val (fkey ax a) <= val (fkey ax b) -> cmp_centroids ax a b <> Gt).
  { intros a b Ta Tb H. unfold cmp_centroids, cmp_float. fold (fkey ax a) (fkey ax b).
    rewrite (ltb_val _ _ _ (Ta ax) (Tb ax)), (ltb_val _ _ _ (Tb ax) (Ta ax)).
    destruct (Rlt_bool_spec (val (fkey ax a)) (val (fkey ax b))); [discriminate|].
    destruct (Rlt_bool_spec (val (fkey ax b)) (val (fkey ax a))); [lra|discriminate]. }
  intros Tx TL H. induction H as [|y r Hs IH Hf]; cbn [insert].
  - repeat constructor.
  - inversion_clear TL as [|? ? Ty Tr]. destruct (cmp_centroids ax x y) eqn:D.
    1,2: assert (V : val (fkey ax x) <= val (fkey ax y)) by (apply cmp_val; [assumption|assumption|congruence]);
         constructor; [constructor; assumption|]; constructor; [congruence|]; rewrite Forall_forall in *; intros a Ha;
         apply LE; [assumption|apply Tr, Ha|]; pose proof (cmp_val ax y a Ty (Tr a Ha) (Hf a Ha)); lra.
    constructor; [apply IH, Tr|]. rewrite Forall_forall in *. intros a Ha.
    apply (Permutation_in _ (insert_perm _ _ x r)) in Ha as [<-|Ha]; [|apply Hf, Ha].
    apply LE; [assumption|assumption|]. unfold cmp_centroids, cmp_float in D. fold (fkey ax x) (fkey ax y) in D.
    rewrite (ltb_val _ _ _ (Tx ax) (Ty ax)), (ltb_val _ _ _ (Ty ax) (Tx ax)) in D.
    destruct (Rlt_bool_spec (val (fkey ax x)) (val (fkey ax y))); [discriminate|].
    destruct (Rlt_bool_spec (val (fkey ax y)) (val (fkey ax x))); [lra|discriminate].
Qed.
Lemma isort_finite ax (l : list (@ObjectInfo NumSF)) : Forall tame l -> StronglySorted (fun a b => cmp_centroids ax a b <> Gt) (isort _ (cmp_centroids ax) l).
Proof.
  induction 1 as [|y r Ty Tr IH]; cbn [isort fold_right]; [constructor|]. apply insert_finite; [assumption| |exact IH].
  rewrite Forall_forall in *. intros a Ha. apply Tr. eapply Permutation_in; [apply isort_perm|exact Ha].
Qed.
(** the geometry crate's box routines play no role in these results *)
Definition ext64 : @Ext NumSF := {|
  surface_area := fun b => @fsub NumSF (vx (bmax b)) (vx (bmin b));
  max_extent := fun b => if @fltb NumSF (@fsub NumSF (vx (bmax b)) (vx (bmin b))) (@fsub NumSF (vy (bmax b)) (vy (bmin b))) then AY else AX;
  bbox_hit := fun _ _ _ => true;
  sort_by := fun c l => isort _ c l;
  select_by := fun _ c l => isort _ c l |}.
Example sort_ok64_satisfiable : sort_ok64 ext64.
Proof.
  split; [split; intros; apply isort_perm|]. intros ax l H. cbn [ext64 sort_by]. apply isort_finite, H.
Qed.

(** six triangles of one metre, standing at different places *)
Definition d64 (z : Z) : spec_float := @fofZ NumSF z.
Definition tri64 (z : Z) : @Triangle NumSF :=
  mkTri (@V3 NumSF (d64 z) (d64 0) (d64 0)) (@V3 NumSF (d64 (z + 1)) (d64 0) (d64 0)) (@V3 NumSF (d64 z) (d64 1) (d64 0)).
Definition flat_norm : @Vec NumSF * @Vec NumSF * @Vec NumSF := let k := @V3 NumSF (d64 0) (d64 0) (d64 1) in (k, k, k).
Definition six64 : @Arrays NumSF := mkArr (map tri64 [5; 1; 40; 3; 100; 7]%Z) (repeat 0%nat 6) (repeat 0%nat 6) (repeat flat_norm 6).
Lemma d64_finite z : (Z.abs z <= 2 ^ 53)%Z -> finite_upto (big 999) (d64 z).
Proof.
  intros Hz. change (d64 z) with (sf_ofZ z). destruct (ofZ_exact z Hz) as (b & -> & HV & HF). apply of_b64; [exact HF|]. rewrite HV.
  rewrite <- abs_IZR. apply Rle_trans with (big 53); [|apply bpow_le; lia]. change (big 53) with (IZR (2 ^ 53)). apply IZR_le. exact Hz.
Qed.
Example C02_binary64_hyp : aligned six64 /\ Forall reasonable_triangle (a_tri six64).
Proof.
  split; [repeat split|]. cbn [six64 a_tri map]. repeat (constructor; [repeat split; apply d64_finite; lia|]). constructor.
Qed.

(** beyond that range the statement is false: six triangles spread over 1.8e308 make the build panic (the slot of the
    farthest centroid is computed from an infinite length; the last bucket stays empty and is unwrapped) *)
Definition huge (s : bool) : spec_float := S754_finite s 9007199254740991 971.   (* +-1.797e308 *)
Definition tri_huge (s : bool) : @Triangle NumSF :=
  mkTri (@V3 NumSF (huge s) (d64 0) (d64 0)) (@V3 NumSF (huge s) (d64 1) (d64 0)) (@V3 NumSF (huge s) (d64 0) (d64 1)).
Definition six_huge : @Arrays NumSF :=
  mkArr (map tri_huge [true; false; true; false; true; false]) (repeat 0%nat 6) (repeat 0%nat 6) (repeat flat_norm 6).
Definition finite_vertex (p : @Vec NumSF) : Prop :=
  is_finite_SF (@vx NumSF p) = true /\ is_finite_SF (@vy NumSF p) = true /\ is_finite_SF (@vz NumSF p) = true.
Theorem C02_binary64_huge_refuted : exists E, sort_ok64 E /\
  exists scene : @Arrays NumSF, aligned scene /\
  Forall (fun t => finite_vertex (ta t) /\ finite_vertex (tb t) /\ finite_vertex (tc t)) (a_tri scene) /\
  forall fuel, (1 <= fuel)%nat -> @bvh_new NumSF E fuel scene = Crash.
Proof.
  exists ext64. split; [exact sort_ok64_satisfiable|]. exists six_huge. split; [repeat split|]. split.
  - repeat (constructor; [repeat split; vm_compute; reflexivity|]). constructor.
  - intros [|k] H; [lia|].
    assert (Q : forall infos, infos = infos_of (a_tri six_huge) -> exists i rest, infos = i :: rest /\ @decide NumSF ext64 i rest = None).
    { intros infos ->. eexists. eexists. split; [reflexivity|]. vm_cast_no_check (@eq_refl (option (@Decision NumSF)) None). }
    destruct (Q _ eq_refl) as (i & rest & HI & HD). unfold bvh_new. change (Nat.eqb (length (a_tri six_huge)) 0) with false. cbv iota.
    rewrite HI. cbn [recursive_build]. rewrite HD. reflexivity.
Qed.
Print Assumptions C02_binary64_huge_refuted.
