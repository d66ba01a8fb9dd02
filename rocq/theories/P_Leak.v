(** * Property C96: a surface made of several triangles has no gaps along the seams *)
From Coq Require Import ZArith SpecFloat Reals Lra Lia Psatz Permutation.
From Flocq Require Import Core BinarySingleNaN Relative.
From Verif Require Import Num NumR NumSF SFBridge FloatOps FloatRound FloatError Geometry Triangle SpecGeom TriangleProofs P_Triangle
  Ray Bvh BvhProofs BvhOrder BvhExamples P_Bvh SceneProofs BvhFloat P_Float P_FloatHit.
Open Scope R_scope.

(** ** in exact arithmetic: a ray that meets the surface anywhere - seams included - is reported at that point *)
Theorem C96_exact : forall (surface : list TriR) (ray : RayR) s t, In t surface -> on_triangle t (along ray s) -> 1 / 100000 < s ->
  (forall t, In t surface -> 1 / 100000 <= Rabs (volume ray t)) ->
  exists t' info, In t' surface /\ triangle_intersect t' ray = Some info /\ i_p info = along ray s.
Proof.
  intros surface ray s t HI (u & v & U & V & UV & E) HS HV.
  destruct (C12_hit_complete_partial t ray s u v E U V UV HS (HV t HI)) as (info & H & P & _). exists t, info. auto.
Qed.
Print Assumptions C96_exact.
Example C96_hyp : let surface := [mkTri (pt 1 3 0) (pt 2 3 0) (pt 2 9 0); mkTri (pt 1 3 0) (pt 2 9 0) (pt 1 9 0)] in
  let ray := @mkRay3D NumR (pt (3 / 2) 6 3) (pt 0 0 (-1)) in
  (forall t, In t surface -> on_triangle t (along ray 3) /\ (1 / 100000 <= Rabs (volume ray t))) /\ 1 / 100000 < 3.
Proof.
  intros surface ray. split; [|lra].
  intros t [<-|[<-|[]]]; split.
  - exists 0, (1 / 2). split; [lra|]. split; [lra|]. split; [lra|]. apply vec_ext; unfold along, bary, plus, times, ray, pt; cbn [vx vy vz ta tb tc origin direction]; match goal with |- ?a = ?b => change (@eq R a b) end; field.
  - unfold volume, dot, cross, minus, ray, pt. cbn [ta tb tc vx vy vz direction]. rewrite Rabs_pos_eq; lra.
  - exists (1 / 2), 0. split; [lra|]. split; [lra|]. split; [lra|]. apply vec_ext; unfold along, bary, plus, times, ray, pt; cbn [vx vy vz ta tb tc origin direction]; match goal with |- ?a = ?b => change (@eq R a b) end; field.
  - unfold volume, dot, cross, minus, ray, pt. cbn [ta tb tc vx vy vz direction]. rewrite Rabs_pos_eq; lra.
Qed.

(** ** any arithmetic: queries report nothing when no triangle's own test reports anything *)
Lemma all_miss {N : Num} {E : Ext} : strict_order N -> perm_sorts E -> forall bfuel scene nodes scene', aligned scene ->
  (Z.of_nat (length (a_tri scene)) < 2 ^ 15)%Z -> bvh_new bfuel scene = Ret (nodes, scene') ->
  forall fuel aux r, (2 * length (a_tri scene) <= fuel)%nat -> (forall t, In t (a_tri scene) -> triangle_intersect t (r_geometry r) = None) ->
  (exists aux', intersect fuel nodes (a_tri scene') r aux = Ret (None, r, aux')) /\
  (forall d2, exists aux', unobstructed_distance fuel nodes (a_tri scene') (r_geometry r) d2 aux = Ret (true, aux')).
Proof.
  intros HO HP bfuel scene nodes scene' Ha Hn HB fuel aux r Hf HM. pose proof HB as HB0. unfold bvh_new in HB.
  destruct (Nat.eqb_spec (length (a_tri scene)) 0) as [D|D].
  { injection HB as <- <-. split; intros; cbn; eauto. }
  destruct (build_permutation HP _ _ _ _ Ha HB0) as [Ha' HPm].
  assert (HM' : forall j t, nth_error (a_tri scene') j = Some t -> triangle_intersect t (r_geometry r) = None).
  { intros j t Hj. apply HM. apply nth_error_In in Hj. rewrite <- (map_records_tri _ Ha') in Hj. rewrite <- (map_records_tri _ Ha).
    apply in_map_iff in Hj as (rec & <- & Hj). apply in_map_iff. exists rec. split; [reflexivity|]. exact (Permutation_in _ HPm Hj). }
  destruct (recursive_build _ _ _ _) as [[root o]| |] eqn:R; try discriminate. cbn [obind] in HB. injection HB as <- <-.
  assert (Hb : built bfuel scene root (snd (flatten_node root [])) o).
  { split; [exact Ha|]. split; [intros Z; rewrite Z in D; apply D; reflexivity|]. split; [exact R|reflexivity]. }
  assert (Ha0 : aligned (@empty_arrays N)) by (repeat split).
  destruct (build_spec HP _ _ _ _ _ _ Ha0 R) as (_ & _ & Hc & _). rewrite infos_of_length in Hc. cbn [empty_arrays a_tri length] in Hc.
  pose proof (covers_leaves_le _ _ _ Hc) as Hl. pose proof (covers_nsize _ _ _ Hc) as Hns.
  assert (Hlen : (length (snd (flatten_node root [])) <= fuel)%nat).
  { rewrite flatten_flat. cbn [snd app]. rewrite flat_length. lia. }
  split.
  - destruct (intersect_generic HO HP _ _ _ _ _ _ Hb Hl Hn ltac:(lia) fuel r aux Hlen) as [(j & t2 & info & _ & (t & Ht & (Hi & _) & _) & _)|[H _]]; [|eauto].
    rewrite (HM' _ _ Ht) in Hi. discriminate Hi.
  - intros d2. destruct (shadow_generic HP _ _ _ _ _ _ Hb Hl Hn ltac:(lia) fuel (r_geometry r) d2 aux Hlen) as (b & st & H & HBB). exists st.
    destruct b; [exact H|]. destruct (proj1 HBB eq_refl) as (j & t & _ & Ht & HK). unfold blocks, simple_triangle_intersect in HK.
    pose proof (HM' _ _ Ht) as HN. unfold triangle_intersect in HN. destruct (baricentric_coordinates (r_geometry r) t) as [[[p x] y]|]; [discriminate HN|discriminate HK].
Qed.

(** ** in binary64: a rectangle of 1 by 6, cut along its diagonal into two triangles as the model readers do.  The ray's
    exact line meets the rectangle on the closed triangle ABC, well inside the outline, and is neither grazing nor near;
    both tests miss it, so every query looks through the surface *)
Definition corner (x y : Z) : VecF := @V3 NumSF (sf_ofZ x) (sf_ofZ y) (sf_ofZ 0).
Definition half1 : TriF := mkTri (corner 1 3) (corner 2 3) (corner 2 9).
Definition half2 : TriF := mkTri (corner 1 3) (corner 2 9) (corner 1 9).
Definition seam_ray : RayF := mkRay3D
  (@V3 NumSF (S754_finite false 5041920108828304 (-50)) (S754_finite false 7300705632567285 (-50)) (S754_finite false 6755399441055744 (-52)))
  (@V3 NumSF (S754_finite true 6449820478770354 (-53)) (S754_finite false 5029268824948591 (-53)) (S754_finite true 7546100792499782 (-54))).
Definition sheet : @Arrays NumSF := mkArr [half1; half2] [0; 0]%nat [0; 0]%nat [flat_norm; flat_norm].

Lemma pos_val m e : val (S754_finite false m e) = IZR (Zpos m) * bpow radix2 e.
Proof. reflexivity. Qed.
Lemma neg_val' m e : val (S754_finite true m e) = IZR (Zneg m) * bpow radix2 e.
Proof. reflexivity. Qed.
Lemma seam_vals : val_ray seam_ray = @mkRay3D NumR
  (pt (5041920108828304 / 2 ^ 50) (7300705632567285 / 2 ^ 50) (3 / 2))
  (pt (- 6449820478770354 / 2 ^ 53) (5029268824948591 / 2 ^ 53) (- 7546100792499782 / 2 ^ 54)).
Proof.
  unfold val_ray, seam_ray, val_vec. cbn [vx vy vz origin direction]. rewrite !pos_val, !neg_val'. unfold pt.
  f_equal; apply vec_ext; cbn [vx vy vz]; match goal with |- ?a = ?b => change (@eq R a b) end; cbn; lra.
Qed.
Lemma corner_val x y : (Z.abs x <= 2 ^ 53)%Z -> (Z.abs y <= 2 ^ 53)%Z -> val_vec (corner x y) = pt (IZR x) (IZR y) 0.
Proof.
  intros X Y. unfold val_vec, corner. cbn [vx vy vz]. destruct (ofZ_val x X) as [VX _]. destruct (ofZ_val y Y) as [VY _]. destruct (ofZ_val 0 ltac:(lia)) as [V0 _].
  change (@fofZ NumSF x) with (sf_ofZ x) in VX. change (@fofZ NumSF y) with (sf_ofZ y) in VY. change (@fofZ NumSF 0) with (sf_ofZ 0) in V0. rewrite VX, VY, V0. reflexivity.
Qed.
Lemma seam_misses : @triangle_intersect NumSF half1 seam_ray = None /\ @triangle_intersect NumSF half2 seam_ray = None.
Proof.
  unfold triangle_intersect.
  assert (B1 : match @baricentric_coordinates NumSF seam_ray half1 with Some _ => true | None => false end = false) by (vm_compute; reflexivity).
  assert (B2 : match @baricentric_coordinates NumSF seam_ray half2 with Some _ => true | None => false end = false) by (vm_compute; reflexivity).
  destruct (baricentric_coordinates seam_ray half1); [discriminate B1|]. destruct (baricentric_coordinates seam_ray half2); [discriminate B2|]. auto.
Qed.
Theorem C96_seam_refuted :
  val_tri half1 = mkTri (pt 1 3 0) (pt 2 3 0) (pt 2 9 0) /\ val_tri half2 = mkTri (pt 1 3 0) (pt 2 9 0) (pt 1 9 0) /\
  Rabs (dot (direction (val_ray seam_ray)) (direction (val_ray seam_ray)) - 1) <= / 2 ^ 50 /\
  (exists s, 3 < s < 4 /\ on_triangle (val_tri half1) (along (val_ray seam_ray) s) /\
     19 / 10 < vx (along (val_ray seam_ray) s) < 2 - 5 / 100 /\ 8 < vy (along (val_ray seam_ray) s) < 9 - 4 / 10) /\
  2 < Rabs (volume (val_ray seam_ray) (val_tri half1)) /\ 2 < Rabs (volume (val_ray seam_ray) (val_tri half2)) /\
  triangle_intersect half1 seam_ray = None /\ triangle_intersect half2 seam_ray = None /\
  (forall E, sort_ok64 E -> forall bfuel, (2 <= bfuel)%nat -> exists nodes scene', bvh_new bfuel sheet = Ret (nodes, scene') /\
     forall fuel aux r, (4 <= fuel)%nat -> r_geometry r = seam_ray ->
       (exists aux', intersect fuel nodes (a_tri scene') r aux = Ret (None, r, aux')) /\
       (forall d2, exists aux', unobstructed_distance fuel nodes (a_tri scene') seam_ray d2 aux = Ret (true, aux'))).
Proof.
  assert (T1 : val_tri half1 = mkTri (pt 1 3 0) (pt 2 3 0) (pt 2 9 0)).
  { unfold val_tri, half1. cbn [ta tb tc]. rewrite !corner_val by lia. reflexivity. }
  assert (T2 : val_tri half2 = mkTri (pt 1 3 0) (pt 2 9 0) (pt 1 9 0)).
  { unfold val_tri, half2. cbn [ta tb tc]. rewrite !corner_val by lia. reflexivity. }
  destruct seam_misses as [M1 M2].
  split; [exact T1|]. split; [exact T2|]. rewrite T1, T2, seam_vals.
  split. { unfold dot, pt. cbn [vx vy vz direction]. apply Rabs_le. split; lra. }
  split.
  { set (s := (3 / 2) / (7546100792499782 / 2 ^ 54)). exists s. split; [unfold s; lra|].
    assert (PX : vx (along (mkRay3D (pt (5041920108828304 / 2 ^ 50) (7300705632567285 / 2 ^ 50) (3 / 2)) (pt (- 6449820478770354 / 2 ^ 53) (5029268824948591 / 2 ^ 53) (- 7546100792499782 / 2 ^ 54))) s)
      = 5041920108828304 / 2 ^ 50 - s * (6449820478770354 / 2 ^ 53)) by (unfold along, plus, times, pt; cbn [vx vy vz origin direction]; match goal with |- ?a = ?b => change (@eq R a b) end; lra).
    assert (PY : vy (along (mkRay3D (pt (5041920108828304 / 2 ^ 50) (7300705632567285 / 2 ^ 50) (3 / 2)) (pt (- 6449820478770354 / 2 ^ 53) (5029268824948591 / 2 ^ 53) (- 7546100792499782 / 2 ^ 54))) s)
      = 7300705632567285 / 2 ^ 50 + s * (5029268824948591 / 2 ^ 53)) by (unfold along, plus, times, pt; cbn [vx vy vz origin direction]; match goal with |- ?a = ?b => change (@eq R a b) end; lra).
    assert (PZ : vz (along (mkRay3D (pt (5041920108828304 / 2 ^ 50) (7300705632567285 / 2 ^ 50) (3 / 2)) (pt (- 6449820478770354 / 2 ^ 53) (5029268824948591 / 2 ^ 53) (- 7546100792499782 / 2 ^ 54))) s)
      = 0) by (unfold along, plus, times, pt, s; cbn [vx vy vz origin direction]; match goal with |- ?a = ?b => change (@eq R a b) end; field).
    set (P := along _ s) in *. rewrite PX, PY. split; [|split; unfold s; lra].
    set (X := 5041920108828304 / 2 ^ 50 - s * (6449820478770354 / 2 ^ 53)) in *. set (Y := 7300705632567285 / 2 ^ 50 + s * (5029268824948591 / 2 ^ 53)) in *.
    exists (X - 1 - (Y - 3) / 6), ((Y - 3) / 6).
    split; [unfold X, Y, s; lra|]. split; [unfold X, Y, s; lra|]. split; [unfold X, Y, s; lra|].
    clearbody P X Y. destruct P as [px py pz]. cbn [vx vy vz] in PX, PY, PZ.
    apply vec_ext; unfold bary, plus, times, pt; cbn [vx vy vz ta tb tc]; match goal with |- ?a = ?b => change (@eq R a b) end;
      [change (@eq R px X) in PX|change (@eq R py Y) in PY|change (@eq R pz 0) in PZ]; [rewrite PX|rewrite PY|rewrite PZ]; lra. }
  split. { unfold volume, dot, cross, minus, pt. cbn [ta tb tc vx vy vz direction]. rewrite Rabs_pos_eq; lra. }
  split. { unfold volume, dot, cross, minus, pt. cbn [ta tb tc vx vy vz direction]. rewrite Rabs_pos_eq; lra. }
  split; [exact M1|]. split; [exact M2|].
  intros E HE bfuel HB.
  assert (AL : aligned sheet) by (repeat split).
  assert (RT : Forall reasonable_triangle (a_tri sheet)).
  { cbn [sheet a_tri]. constructor; [|constructor; [|constructor]]; repeat split; apply d64_finite; lia. }
  destruct (C02_binary64 E HE sheet AL RT bfuel HB) as (nodes & scene' & BV & _). exists nodes, scene'. split; [exact BV|].
  intros fuel aux r HF HG. rewrite <- HG.
  apply (all_miss strict_order_SF (proj1 HE) bfuel sheet nodes scene' AL ltac:(cbn; lia) BV fuel aux r HF).
  intros t [<-|[<-|[]]]; rewrite HG; assumption.
Qed.
Print Assumptions C96_seam_refuted.
