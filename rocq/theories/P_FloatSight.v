(** * Property C98, continued: what a pixel of the picture shows, in the program's own arithmetic (binary64, every operation rounded) *)
From Coq Require Import ZArith SpecFloat Reals Lra Lia Psatz Permutation List.
From Flocq Require Import Core BinarySingleNaN Relative.
From Verif Require Import Num NumR NumSF SFBridge FloatOps FloatRound FloatError Geometry Triangle SpecGeom TriangleProofs P_Exact
  Colour Ray Camera CameraProofs Bvh BvhProofs BvhOrder BvhExamples P_Bvh SceneProofs BvhFloat P_Float P_FloatHit P_FloatUnit FloatBoxes FloatSlab P_FloatQuery P_FloatDir P_FloatCamera.
Import ListNotations.
#[local] Existing Instance Hprec.
#[local] Existing Instance Hmax.
#[local] Existing Instance valid64.
Open Scope R_scope.

(** the exact line of sight from the view point through the exact centre of a pixel: the point at the distance s *)
Definition sight_line (v : @View NumSF) (f : Film) (fd : R) (px py : nat) (s : R) : VecR :=
  let d := sight64 v f fd px py in plus (val_vec (view_point v)) (times (s / norm d) d).

Lemma along_sight (o u d : VecR) n s e : close e u (times (/ n) d) -> 
  close (Rabs s * e) (plus o (times s u)) (plus o (times (s / n) d)).
Proof.
  intros (A & B & C). unfold close, plus, times, pt in *. cbn [vx vy vz] in *.
  assert (P : 0 <= Rabs s) by apply Rabs_pos.
  assert (K : forall a b c, Rabs (b - / n * c) <= e -> Rabs (a + s * b - (a + s / n * c)) <= Rabs s * e).
  { intros a b c H. replace (a + s * b - (a + s / n * c)) with (s * (b - / n * c)) by (unfold Rdiv; ring). rewrite Rabs_mult. apply Rmult_le_compat_l; assumption. }
  split; [apply K; exact A|split; apply K; assumption].
Qed.
Lemma close_trans' a b (u v w : VecR) : close a u v -> close b v w -> close (a + b) u w.
Proof.
  intros (A & B & C) (A' & B' & C'). unfold close.
  assert (K : forall x y z, Rabs (x - y) <= a -> Rabs (y - z) <= b -> Rabs (x - z) <= a + b).
  { intros x y z H H'. replace (x - z) with ((x - y) + (y - z)) by ring. apply Rle_trans with (1 := Rabs_triang _ _). lra. }
  split; [eapply K; eassumption|split; eapply K; eassumption].
Qed.

(** The closest-hit query with the camera's ray for any pixel: what it reports lies on the exact line of sight through the
    exact centre of that pixel, up to the blur and 2^-42 of the distance, on a triangle that the ray crosses, and nothing that
    the ray crosses clearly lies in front of it by more than the two blurs; nothing is reported only if nothing is clearly crossed *)
Theorem C98_pixel : forall (E : @Ext NumSF) (T : Trig NumSF) (v : @View NumSF) (f : Film) px py L (scene : @Arrays NumSF),
  let c := pinhole_new v f in
  view64 v -> film64 f -> (px < film_width f)%nat -> (py < film_height f)%nat ->
  finite_upto 16 (ph_film_distance c) -> 1 / 2 <= val (ph_film_distance c) ->
  sort_ok64 E -> aligned scene -> (Z.of_nat (length (a_tri scene)) < 2 ^ 15)%Z ->
  1 <= L <= 1024 -> within L (view_point v) ->
  (forall t, In t (a_tri scene) -> within L (ta t) /\ within L (tb t) /\ within L (tc t)) ->
  let r := fst (gen_ray c (px, py)) in let g := r_geometry r in
  box_test64 E L g ->
  forall bfuel fuel aux, (length (a_tri scene) <= bfuel)%nat -> (2 * length (a_tri scene) <= fuel)%nat ->
  exists nodes scene' found r' aux',
    @bvh_new NumSF E bfuel scene = Ret (nodes, scene') /\ Permutation (records scene') (records scene) /\
    @intersect NumSF E fuel nodes (a_tri scene') r aux = Ret (found, r', aux') /\
    match found with
    | Some j => exists k t s, j = Z.of_nat k /\ nth_error (a_tri scene') k = Some t /\
        let e := blur L g t in
        nearly_crosses L g t s /\ 1 / 100000 - 2 * L * e < s /\
        point_finite (x_point (r_interaction r')) /\
        close (10 * L * e + Rabs s * / 2 ^ 42) (val_vec (x_point (r_interaction r'))) (sight_line v f (val (ph_film_distance c)) px py s) /\
        forall t' s', In t' (a_tri scene) -> clearly_crosses L g t' s' -> 1 / 3000 + 6 * L * blur L g t' <= s' ->
                      s <= s' + 5 * L * (e + blur L g t')
    | None => forall t' s', In t' (a_tri scene) -> clearly_crosses L g t' s' -> s' < 1 / 3000 + 6 * L * blur L g t'
    end.
Proof.
  intros E T v f px py L scene c HV HF HX HY FD FD2 HE HA HN HL HP HS r g HB bfuel fuel aux Hb Hf.
  destruct (C99_camera T v f px py HV HF HX HY FD FD2) as (EO & (WD & UD) & CL). fold c in EO, WD, UD, CL. fold r in EO, WD, UD, CL. fold g in EO, WD, UD, CL.
  assert (HS' : scene_at_scale L scene g).
  { split; [exact HL|]. intros t Ht. destruct (HS t Ht) as (A & B & C). split; [exact HL|]. split; [exact A|]. split; [exact B|]. split; [exact C|].
    split; [rewrite EO; exact HP|]. split; [exact WD|]. apply Rle_trans with (1 := UD). lra. }
  destruct (C98_closest E L scene r HE HA HN HS' UD HB bfuel fuel aux Hb Hf) as (nodes & scene' & found & r' & aux' & BV & PM & HI & HM).
  exists nodes, scene', found, r', aux'. split; [exact BV|]. split; [exact PM|]. split; [exact HI|].
  destruct found as [j|]; [|exact (proj2 HM)].
  destruct HM as (k & t & s & Hj & Ht & HM). exists k, t, s. split; [exact Hj|]. split; [exact Ht|]. cbv zeta in HM |- *.
  destruct HM as (N & S0 & PF & CP & FT). split; [exact N|]. split; [exact S0|]. split; [exact PF|]. split; [|exact FT].
  refine (close_trans' _ _ _ _ _ CP _). unfold along, sight_line. cbv zeta.
  replace (@origin NumR (val_ray g)) with (val_vec (view_point v)) by (rewrite <- EO; reflexivity). replace (@direction NumR (val_ray g)) with (val_vec (direction g)) by reflexivity.
  apply along_sight. exact CL.
Qed.
Print Assumptions C98_pixel.

(** A concrete case: the last pixel of a film of 512 x 384 pixels, before a wall ten units ahead *)
Definition wall_ahead : @Arrays NumSF :=
  mkArr [mkTri (@V3 NumSF (sf_ofZ (-14)) (sf_ofZ 12) (sf_ofZ (-14))) (@V3 NumSF (sf_ofZ 16) (sf_ofZ 12) (sf_ofZ (-14))) (@V3 NumSF (sf_ofZ 1) (sf_ofZ 12) (sf_ofZ 16))] [0]%nat [0]%nat [flat_norm].
Definition last_ray : RayF := r_geometry (fst (gen_ray (@pinhole_new NumSF unit_tangent view_along_y (mkFilm 512 384)) (511, 383)%nat)).
Example C98_pixel_hyp : sort_ok64 slab_ext /\ aligned wall_ahead /\ within 16 (view_point view_along_y) /\
  (forall t, In t (a_tri wall_ahead) -> within 16 (ta t) /\ within 16 (tb t) /\ within 16 (tc t)) /\ box_test64 slab_ext 16 last_ray.
Proof.
  assert (I : forall z, (Z.abs z <= 16)%Z -> val (sf_ofZ z) = IZR z /\ finite_upto 16 (sf_ofZ z)).
  { intros z Hz. apply small_int; [lia|]. rewrite <- abs_IZR. apply IZR_le. exact Hz. }
  assert (WP : within 16 (view_point view_along_y)) by (split; [|split]; apply I; lia).
  split; [exact sort_ok64_satisfiable|]. split; [repeat split|]. split; [exact WP|]. split.
  { intros t [<-|[]]. cbn [ta tb tc]. split; [|split]; (split; [|split]); apply I; lia. }
  destruct C99_camera_hyp as (HV & HF & HX & HY & FD & FD2). cbv zeta in FD, FD2.
  destruct (C99_camera unit_tangent view_along_y (mkFilm 512 384) 511 383 HV HF HX HY FD FD2) as (EO & (WD & UD) & CL). fold last_ray in EO, WD, UD, CL.
  apply slab_ok; [lra|rewrite EO; exact WP|exact WD|apply Rle_trans with (1 := UD); lra|].
  assert (B : bpow radix2 (-100) <= / 2 ^ 20) by (apply Rle_trans with (bpow radix2 (-20)); [apply bpow_le; lia|cbn; lra]).
  (* the direction is computed *)
  assert (VX : exists s m e, (vx (direction last_ray) : spec_float) = S754_finite s m e /\ (-60 <= e <= -50)%Z /\ (2 ^ 52 <= Zpos m)%Z).
  { eexists _, _, _. split; [vm_compute; reflexivity|lia]. }
  assert (VY : exists s m e, (vy (direction last_ray) : spec_float) = S754_finite s m e /\ (-60 <= e <= -50)%Z /\ (2 ^ 52 <= Zpos m)%Z).
  { eexists _, _, _. split; [vm_compute; reflexivity|lia]. }
  assert (VZ : exists s m e, (vz (direction last_ray) : spec_float) = S754_finite s m e /\ (-60 <= e <= -50)%Z /\ (2 ^ 52 <= Zpos m)%Z).
  { eexists _, _, _. split; [vm_compute; reflexivity|lia]. }
  assert (K : forall (x : spec_float), (exists s m e, x = S754_finite s m e /\ (-60 <= e <= -50)%Z /\ (2 ^ 52 <= Zpos m)%Z) -> bpow radix2 (-100) <= Rabs (val x)).
  { intros x (s & m & e & -> & He & Hm). unfold val, SF2R. rewrite <- F2R_Zabs, abs_cond_Zopp. unfold F2R. cbn [Fnum Fexp].
    apply Rle_trans with (IZR (2 ^ 52) * bpow radix2 (-60)).
    - change (IZR (2 ^ 52)) with (bpow radix2 52). rewrite <- bpow_plus. apply bpow_le. lia.
    - apply Rmult_le_compat; [apply IZR_le; lia|apply bpow_ge_0|apply IZR_le; exact Hm|apply bpow_le; lia]. }
  split; [exact (K _ VX)|split; [exact (K _ VY)|exact (K _ VZ)]].
Qed.
