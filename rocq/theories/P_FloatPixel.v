(** * Property C27 in the program's own arithmetic: on a square film the camera finds the pixel of its own rays (binary64) *)
From Coq Require Import ZArith SpecFloat Reals Lra Lia Psatz List.
From Flocq Require Import Core BinarySingleNaN Relative.
From Verif Require Import Num NumR NumSF SFBridge FloatOps FloatRound FloatError Geometry Triangle SpecGeom TriangleProofs P_Exact
  Colour Ray Camera CameraProofs P_FloatHit P_FloatUnit P_FloatQuery P_FloatDir P_FloatCamera.
Import ListNotations.
#[local] Existing Instance Hprec.
#[local] Existing Instance Hmax.
#[local] Existing Instance valid64.
Open Scope R_scope.

(** ** absolute errors *)
Definition apart (e : R) (x : @F NumSF) (r : R) : Prop := finite_upto BIG x /\ Rabs (val x - r) <= e.
Lemma one_round s t : Rabs s <= t -> 1 <= t -> Rabs (rnd64 s - s) <= 2 * ulp1 * t.
Proof. intros H1 H2. pose proof (rnd_near s). pose proof ulp1_pos. nra. Qed.
Lemma under80 s t : Rabs s <= t -> t <= 2 ^ 40 -> Rabs s <= bpow radix2 80.
Proof. intros H1 H2. apply Rle_trans with (2 ^ 40); [lra|cbn; lra]. Qed.
Lemma big_of x : finite_upto (bpow radix2 80) x -> finite_upto BIG x.
Proof. intros H. apply (finite_weaken _ _ _ H). apply bpow_le. lia. Qed.
Lemma apart_exact x B : finite_upto B x -> B <= 2 ^ 90 -> apart 0 x (val x).
Proof. intros H1 H2. split; [apply (finite_weaken _ _ _ H1); rewrite BIG_val; exact H2|]. unfold Rminus. rewrite Rplus_opp_r, Rabs_R0. lra. Qed.
Lemma apart_weaken e e' x r : apart e x r -> e <= e' -> apart e' x r.
Proof. intros [H1 H2] H. split; [exact H1|lra]. Qed.
Lemma tri a b c e e' : Rabs (a - b) <= e -> Rabs (b - c) <= e' -> Rabs (a - c) <= e + e'.
Proof. intros H1 H2. replace (a - c) with ((a - b) + (b - c)) by ring. apply (Rle_trans _ _ _ (Rabs_triang _ _)). lra. Qed.
Lemma size_of a r e m : Rabs (a - r) <= e -> Rabs r <= m -> Rabs a <= m + e.
Proof. intros H1 H2. replace a with (r + (a - r)) by ring. apply (Rle_trans _ _ _ (Rabs_triang _ _)). lra. Qed.
Lemma apart_add t e1 e2 e x y r q : apart e1 x r -> apart e2 y q -> Rabs (r + q) + e1 + e2 <= t -> 1 <= t <= 2 ^ 40 -> e1 + e2 + 2 * ulp1 * t <= e -> apart e (@fadd NumSF x y) (r + q).
Proof.
  intros [X1 X2] [Y1 Y2] HT T12 HE.
  assert (D : Rabs ((val x + val y) - (r + q)) <= e1 + e2).
  { replace (val x + val y - (r + q)) with ((val x - r) + (val y - q)) by ring. apply (Rle_trans _ _ _ (Rabs_triang _ _)). lra. }
  assert (B : Rabs (val x + val y) <= t) by (pose proof (size_of _ _ _ _ D (Rle_refl _)); lra).
  destruct (add_val 80 ltac:(lia) BIG x y X1 Y1 (under80 _ t B ltac:(lra))) as [V FI]. split; [apply big_of; exact FI|].
  rewrite V. pose proof (tri _ _ _ _ _ (one_round _ t B ltac:(lra)) D). lra.
Qed.
Lemma apart_sub t e1 e2 e x y r q : apart e1 x r -> apart e2 y q -> Rabs (r - q) + e1 + e2 <= t -> 1 <= t <= 2 ^ 40 -> e1 + e2 + 2 * ulp1 * t <= e -> apart e (@fsub NumSF x y) (r - q).
Proof.
  intros [X1 X2] [Y1 Y2] HT T12 HE.
  assert (D : Rabs ((val x - val y) - (r - q)) <= e1 + e2).
  { replace (val x - val y - (r - q)) with ((val x - r) + - (val y - q)) by ring. apply (Rle_trans _ _ _ (Rabs_triang _ _)). rewrite Rabs_Ropp. lra. }
  assert (B : Rabs (val x - val y) <= t) by (pose proof (size_of _ _ _ _ D (Rle_refl _)); lra).
  destruct (sub_val 80 ltac:(lia) BIG x y X1 Y1 (under80 _ t B ltac:(lra))) as [V FI]. split; [apply big_of; exact FI|].
  rewrite V. pose proof (tri _ _ _ _ _ (one_round _ t B ltac:(lra)) D). lra.
Qed.
Lemma product_error a r b q e1 e2 A B : Rabs (a - r) <= e1 -> Rabs (b - q) <= e2 -> Rabs r <= A -> Rabs q <= B -> Rabs (a * b - r * q) <= e1 * B + e2 * A + e1 * e2.
Proof.
  intros H1 H2 H3 H4. replace (a * b - r * q) with ((a - r) * q + (b - q) * r + (a - r) * (b - q)) by ring.
  refine (Rle_trans _ _ _ (Rabs_triang _ _) _). refine (Rle_trans _ _ _ (Rplus_le_compat_r _ _ _ (Rabs_triang _ _)) _). rewrite !Rabs_mult.
  pose proof (Rmult_le_compat _ _ _ _ (Rabs_pos (a - r)) (Rabs_pos q) H1 H4). pose proof (Rmult_le_compat _ _ _ _ (Rabs_pos (b - q)) (Rabs_pos r) H2 H3).
  pose proof (Rmult_le_compat _ _ _ _ (Rabs_pos (a - r)) (Rabs_pos (b - q)) H1 H2). lra.
Qed.
Lemma apart_mul A B t e1 e2 e x y r q : apart e1 x r -> apart e2 y q -> Rabs r <= A -> Rabs q <= B -> A * B + (e1 * B + e2 * A + e1 * e2) <= t -> 1 <= t <= 2 ^ 40 ->
  e1 * B + e2 * A + e1 * e2 + 2 * ulp1 * t <= e -> apart e (@fmul NumSF x y) (r * q).
Proof.
  intros [X1 X2] [Y1 Y2] HA HB HT T12 HE. pose proof (product_error _ _ _ _ _ _ _ _ X2 Y2 HA HB) as D.
  assert (PB : Rabs (r * q) <= A * B) by (rewrite Rabs_mult; apply Rmult_le_compat; auto using Rabs_pos).
  assert (Bd : Rabs (val x * val y) <= t) by (pose proof (size_of _ _ _ _ D PB); lra).
  destruct (mul_val 80 ltac:(lia) BIG BIG x y X1 Y1 (under80 _ t Bd ltac:(lra))) as [V FI]. split; [apply big_of; exact FI|].
  rewrite V. pose proof (tri _ _ _ _ _ (one_round _ t Bd ltac:(lra)) D). lra.
Qed.
Definition apartv (e : R) (a : VecF) (r : VecR) : Prop := apart e (vx a) (vx r) /\ apart e (vy a) (vy r) /\ apart e (vz a) (vz r).
Definition bounded (A : R) (r : VecR) : Prop := Rabs (vx r) <= A /\ Rabs (vy r) <= A /\ Rabs (vz r) <= A.
Lemma apart_dot A B s t e1 e2 e (a b : VecF) (r q : VecR) : apartv e1 a r -> apartv e2 b q -> bounded A r -> bounded B q -> e1 * B + e2 * A + e1 * e2 <= s -> 0 <= s ->
  0 <= A -> 0 <= B -> 3 * (A * B) + 3 * s + 1 <= t -> t <= 2 ^ 40 -> 3 * s + 10 * ulp1 * t <= e -> apart e (@vdot NumSF a b) (dot r q).
Proof.
  intros (X1 & X2 & X3) (Y1 & Y2 & Y3) (A1 & A2 & A3) (B1 & B2 & B3) HS S0 HA HB HT T2 HE. pose proof (Rmult_le_pos _ _ HA HB) as AB0.
  pose proof ulp1_pos as U0. assert (U1 : ulp1 * t <= 1 / 1000). { apply Rle_trans with (ulp1 * 2 ^ 40); [apply Rmult_le_compat_l; lra|rewrite ulp1_val; lra]. }
  assert (UT : 0 <= ulp1 * t) by nra.
  pose proof (apart_mul A B t e1 e2 (s + 2 * ulp1 * t) _ _ _ _ X1 Y1 A1 B1 ltac:(lra) ltac:(lra) ltac:(lra)) as M1.
  pose proof (apart_mul A B t e1 e2 (s + 2 * ulp1 * t) _ _ _ _ X2 Y2 A2 B2 ltac:(lra) ltac:(lra) ltac:(lra)) as M2.
  pose proof (apart_mul A B t e1 e2 (s + 2 * ulp1 * t) _ _ _ _ X3 Y3 A3 B3 ltac:(lra) ltac:(lra) ltac:(lra)) as M3.
  assert (P : forall p q : R, Rabs p <= A -> Rabs q <= B -> Rabs (p * q) <= A * B) by (intros; rewrite Rabs_mult; apply Rmult_le_compat; auto using Rabs_pos).
  pose proof (P _ _ A1 B1) as P1. pose proof (P _ _ A2 B2) as P2. pose proof (P _ _ A3 B3) as P3.
  assert (P12 : Rabs (vx r * vx q + vy r * vy q) <= 2 * (A * B)) by (apply (Rle_trans _ _ _ (Rabs_triang _ _)); lra).
  assert (P123 : Rabs (vx r * vx q + vy r * vy q + vz r * vz q) <= 3 * (A * B)) by (apply (Rle_trans _ _ _ (Rabs_triang _ _)); lra).
  pose proof (apart_add t _ _ (2 * s + 6 * ulp1 * t) _ _ _ _ M1 M2 ltac:(lra) ltac:(lra) ltac:(lra)) as S1.
  pose proof (apart_add t _ _ e _ _ _ _ S1 M3 ltac:(lra) ltac:(lra) ltac:(lra)) as S2. exact S2.
Qed.

(** ** the constants of pixel_from_ray *)
Lemma small_finite m ex : valid_binary 53 1024 (S754_finite false m ex) = true -> forall B, IZR (Zpos m) * bpow radix2 ex <= B ->
  finite_upto B (S754_finite false m ex) /\ val (S754_finite false m ex) = IZR (Zpos m) * bpow radix2 ex.
Proof.
  intros HV B HB. assert (V : val (S754_finite false m ex) = IZR (Zpos m) * bpow radix2 ex) by reflexivity.
  split; [|exact V]. split; [exact HV|]. split; [reflexivity|]. rewrite V, Rabs_pos_eq; [exact HB|].
  apply Rmult_le_pos; [apply IZR_le; lia|apply bpow_ge_0].
Qed.
Lemma tiny12_val : finite_upto 1 (@TINY12 NumSF) /\ val (@TINY12 NumSF) <= 1 / 1000.
Proof.
  assert (E : (@TINY12 NumSF : spec_float) = S754_finite false 4951760157141521 (-92)) by (vm_compute; reflexivity). rewrite E.
  assert (Q : bpow radix2 (-92) = / 2 ^ 92) by (cbn; lra).
  destruct (small_finite 4951760157141521 (-92) eq_refl (1 / 1000)) as [A V]; [rewrite Q; lra|].
  split; [apply (finite_weaken _ _ _ A); lra|]. rewrite V, Q. lra.
Qed.
Lemma tiny24_val : finite_upto 1 (@TINY24 NumSF) /\ 0 <= val (@TINY24 NumSF).
Proof.
  assert (E : exists m ex, (@TINY24 NumSF : spec_float) = S754_finite false m ex /\ valid_binary 53 1024 (S754_finite false m ex) = true /\ (ex <= -100)%Z /\ (Zpos m <= 2 ^ 53)%Z).
  { eexists. eexists. split; [vm_compute; reflexivity|]. vm_compute. auto. repeat split; discriminate. }
  destruct E as (m & ex & -> & HV & H1 & H2).
  assert (Q : IZR (Zpos m) * bpow radix2 ex <= 1).
  { apply Rle_trans with (2 ^ 53 * / 2 ^ 100); [|lra]. apply Rmult_le_compat; [apply IZR_le; lia|apply bpow_ge_0| |].
    - apply IZR_le in H2. replace (IZR (2 ^ 53)) with (2 ^ 53) in H2 by (cbn; lra). exact H2.
    - apply Rle_trans with (bpow radix2 (-100)); [apply bpow_le; exact H1|cbn; lra]. }
  destruct (small_finite m ex HV 1 Q) as [A V]. split; [exact A|]. rewrite V. apply Rmult_le_pos; [apply IZR_le; lia|apply bpow_ge_0].
Qed.
Lemma sub_self B (x : @F NumSF) : finite_upto B x -> apart 0 (@fsub NumSF x x) 0.
Proof.
  intros H. destruct (sub_val 80 ltac:(lia) B x x H H) as [V FI].
  { unfold Rminus. rewrite Rplus_opp_r, Rabs_R0. apply bpow_ge_0. }
  split; [apply big_of; exact FI|]. rewrite V. unfold Rminus at 2. rewrite Rplus_opp_r, round_0 by typeclasses eauto. unfold Rminus. rewrite Ropp_0, Rplus_0_r, Rabs_R0. lra.
Qed.
Lemma mul_zero (x : @F NumSF) : apart 0 x 0 -> apart 0 (@fmul NumSF x x) 0.
Proof.
  intros [H1 H2]. assert (V0 : val x = 0). { apply Rabs_le_inv in H2. lra. }
  destruct (mul_val 80 ltac:(lia) BIG BIG x x H1 H1) as [V FI].
  { rewrite V0, Rmult_0_l, Rabs_R0. apply bpow_ge_0. }
  split; [apply big_of; exact FI|]. rewrite V, V0, Rmult_0_l, round_0 by typeclasses eauto. unfold Rminus. rewrite Ropp_0, Rplus_0_r, Rabs_R0. lra.
Qed.
Lemma add_zero (x y : @F NumSF) : apart 0 x 0 -> apart 0 y 0 -> apart 0 (@fadd NumSF x y) 0.
Proof.
  intros [H1 H2] [H3 H4]. assert (V0 : val x = 0) by (apply Rabs_le_inv in H2; lra). assert (V1 : val y = 0) by (apply Rabs_le_inv in H4; lra).
  destruct (add_val 80 ltac:(lia) BIG x y H1 H3) as [V FI].
  { rewrite V0, V1, Rplus_0_l, Rabs_R0. apply bpow_ge_0. }
  split; [apply big_of; exact FI|]. rewrite V, V0, V1, Rplus_0_l, round_0 by typeclasses eauto. unfold Rminus. rewrite Ropp_0, Rplus_0_r, Rabs_R0. lra.
Qed.
Lemma same_point B (p : VecF) : within B p -> @fltb NumSF (@TINY24 NumSF) (vlen2 (vsub p p)) = false.
Proof.
  intros (H1 & H2 & H3). pose proof (mul_zero _ (sub_self _ _ H1)) as X. pose proof (mul_zero _ (sub_self _ _ H2)) as Y. pose proof (mul_zero _ (sub_self _ _ H3)) as Z.
  destruct (add_zero _ _ (add_zero _ _ X Y) Z) as [FI V]. unfold vlen2, vsub. cbn [vx vy vz]. destruct tiny24_val as [FT VT].
  rewrite (ltb_val BIG); [|apply (finite_weaken _ _ _ FT); rewrite BIG_val; lra|exact FI]. apply Rlt_bool_false. apply Rabs_le_inv in V. lra.
Qed.

(** ** the cell of a film coordinate *)
Lemma one_val : val (@f1 NumSF) = 1 /\ finite_upto 1 (@f1 NumSF).
Proof.
  assert (E : (@f1 NumSF : spec_float) = sf_ofZ 1) by (vm_compute; reflexivity). rewrite E.
  destruct (ofZ_val 1 ltac:(lia)) as [V FI]. change (@fofZ NumSF 1) with (sf_ofZ 1) in V, FI. split; [exact V|]. apply (finite_weaken _ _ _ FI). rewrite Rabs_pos_eq; lra.
Qed.
Lemma cell (W : R) (k : nat) (q step : @F NumSF) : 1 <= W <= 65536 -> INR k <= W - 1 ->
  apart (/ 2 ^ 21) q ((2 * INR k + 1) / W) -> finite_upto BIG step -> Rabs (val step - 2 / W) <= 10 * ulp1 ->
  floor_usize (@fdiv NumSF q step) = Z.of_nat k.
Proof.
  intros HW HK [FQ Q] FS S. pose proof (pos_INR k) as K0. pose proof ulp1_pos as U0.
  assert (IW : / 65536 <= / W) by (apply Rinv_le_contravar; lra). assert (WW : W * / W = 1) by (field; lra). assert (IW1 : / W <= 1) by nra.
  unfold Rdiv in S, Q. set (s := val step) in *. set (a := val q) in *.
  assert (S0 : 199 / 100 * / 65536 <= s). { apply Rabs_le_inv in S. rewrite ulp1_val in S. lra. }
  assert (E : Rabs (a - (INR k + 1 / 2) * s) <= / 2 ^ 20).
  { replace (a - (INR k + 1 / 2) * s) with ((a - (2 * INR k + 1) * / W) + - ((INR k + 1 / 2) * (s - 2 * / W))) by (field; lra).
    apply (Rle_trans _ _ _ (Rabs_triang _ _)). rewrite Rabs_Ropp, Rabs_mult, (Rabs_pos_eq (INR k + 1 / 2)) by lra.
    assert ((INR k + 1 / 2) * Rabs (s - 2 * / W) <= 65536 * (10 * ulp1)) by (apply Rmult_le_compat; [lra|apply Rabs_pos|lra|exact S]). rewrite ulp1_val in *. lra. }
  assert (QE : Rabs (a / s - (INR k + 1 / 2)) <= 1 / 16).
  { replace (a / s - (INR k + 1 / 2)) with ((a - (INR k + 1 / 2) * s) * / s) by (field; lra). rewrite Rabs_mult, (Rabs_pos_eq (/ s)) by (left; apply Rinv_0_lt_compat; lra).
    assert (/ s <= 65536 * 100 / 199). { apply Rle_trans with (/ (199 / 100 * / 65536)); [apply Rinv_le_contravar; lra|lra]. }
    apply Rle_trans with (/ 2 ^ 20 * (65536 * 100 / 199)); [|lra]. apply Rmult_le_compat; [apply Rabs_pos|left; apply Rinv_0_lt_compat; lra|exact E|assumption]. }
  assert (KS : Rabs (INR k + 1 / 2) <= 65536) by (rewrite Rabs_pos_eq; lra).
  pose proof (size_of _ _ _ _ QE KS) as SZ.
  destruct (quot (mkFilm 1 1) 0 0 (le_n 1) (le_n 1) q step BIG BIG 65537 FQ FS) as (V & FI & EE).
  - fold s. lra.
  - fold a s. lra.
  - lra.
  - fold a s in EE, V. assert (FIN : Rabs (val (@fdiv NumSF q step) - (INR k + 1 / 2)) <= 1 / 8).
    { assert (ulp1 * Rabs (a / s) <= ulp1 * 65537) by (apply Rmult_le_compat_l; lra).
      pose proof (tri _ _ _ _ _ EE QE). rewrite ulp1_val in *. lra. }
    apply Rabs_le_inv in FIN. unfold floor_usize. rewrite (trunc_val BIG _ _ _ FI) by lia.
    assert (ZT : Ztrunc (val (@fdiv NumSF q step)) = Z.of_nat k).
    { rewrite Ztrunc_floor by lra. apply Zfloor_imp. rewrite plus_IZR, <- INR_IZR_INZ. lra. }
    rewrite ZT. assert (KZ : (Z.of_nat k <= 65536)%Z) by (apply le_IZR; rewrite <- INR_IZR_INZ; lra). lia.
Qed.

(** ** the way back *)
Lemma sight_parts (d up : VecR) (a x z : R) : let w := cross d up in let s := plus (plus (times a d) (times x w)) (times z up) in
  dot d s = a * dot d d + z * dot d up /\ dot s w = x * dot w w /\ dot s up = a * dot d up + z * dot up up.
Proof. cbv zeta. repeat split; dvec; vunf; ring. Qed.
Lemma coords_le (a : VecR) m : norm a <= m -> bounded m a.
Proof. intros H. destruct (coord_le a) as (A & B & C). repeat split; lra. Qed.
Lemma apartv_exact (a : VecF) B : within B a -> B <= 2 ^ 90 -> apartv 0 a (val_vec a).
Proof. intros (A1 & A2 & A3) H. split; [|split]; eapply apart_exact; eassumption. Qed.
Lemma times_dot_l k (a b : VecR) : dot (times k a) b = k * dot a b.
Proof. dvec. vunf. ring. Qed.
Lemma times_dot_r k (a b : VecR) : dot a (times k b) = k * dot a b.
Proof. dvec. vunf. ring. Qed.

Section Back.
  Variables (v : @View NumSF) (f : Film) (fd : @F NumSF) (px py : nat) (D : VecF).
  Hypothesis HV : view64 v.
  Hypothesis HP : Rabs (dot (val_vec (view_direction v)) (val_vec (view_up v))) <= / 2 ^ 30.
  Hypothesis HF : film64 f.
  Hypothesis SQ : film_height f = film_width f.
  Hypothesis HO : within (2 ^ 20) (view_point v).
  Hypothesis HX : (px < film_width f)%nat.
  Hypothesis HY : (py < film_height f)%nat.
  Hypothesis FD : finite_upto 16 fd.
  Hypothesis FD2 : 1 / 2 <= val fd.
  Let d := val_vec (view_direction v).
  Let up := val_vec (view_up v).
  Let w := cross d up.
  Let S := sight64 v f (val fd) px py.
  Let n := norm S.
  Hypothesis FDir : within 2 D.
  Hypothesis CL : close (/ 2 ^ 42) (val_vec D) (times (/ n) S).
  Let x := film_x f px.
  Let z := film_z f py.
  Notation u := ulp1.

  Lemma fd_range : 1 / 2 <= val fd <= 16.
  Proof. split; [exact FD2|]. destruct FD as (_ & _ & H). apply Rabs_le_inv in H. lra. Qed.
  Lemma vectors : Rabs (dot d d - 1) <= / 2 ^ 50 /\ Rabs (dot up up - 1) <= / 2 ^ 50 /\ Rabs (dot d up) <= / 2 ^ 30 /\ Rabs (dot w w - 1) <= / 2 ^ 48.
  Proof.
    destruct HV as ([_ U1] & [_ U2] & _). fold d in U1. fold up in U2. fold d up in HP. split; [exact U1|]. split; [exact U2|]. split; [exact HP|].
    unfold w. rewrite cross_square. set (p := dot d d) in *. set (q := dot up up) in *. set (e := dot d up) in *. clearbody p q e.
    assert (E2 : Rabs (e * e) <= / 2 ^ 30 * / 2 ^ 30) by (rewrite Rabs_mult; apply Rmult_le_compat; auto using Rabs_pos).
    assert (PQ : Rabs ((p - 1) * (q - 1)) <= / 2 ^ 50 * / 2 ^ 50) by (rewrite Rabs_mult; apply Rmult_le_compat; auto using Rabs_pos).
    apply Rabs_le_inv in U1, U2, E2, PQ. apply Rabs_le. lra.
  Qed.
  Lemma film_range : INR px <= INR (film_width f) - 1 /\ INR py <= INR (film_width f) - 1 /\ 1 <= INR (film_width f) <= 65536 /\
    Rabs x <= 1 - / INR (film_width f) /\ Rabs z <= 1 - / INR (film_width f) /\ x = (2 * INR px + 1) / INR (film_width f) - 1 /\ z = 1 - (2 * INR py + 1) / INR (film_width f).
  Proof.
    destruct (sizes f px py HF HX HY) as (A & B & C & P & Q). unfold x, z, film_x, film_z. rewrite SQ in *.
    set (W := INR (film_width f)) in *. assert (IW : 0 < / W) by (apply Rinv_0_lt_compat; lra). assert (WW : W * / W = 1) by (field; lra). unfold Rdiv.
    assert (Zq : (W - 2 * INR py - 1) * / W = 1 - (2 * INR py + 1) * / W) by (field; lra). rewrite Zq.
    repeat split; try lra; apply Rabs_le; split; nra.
  Qed.
  Lemma n_range : 49 / 100 <= n <= 17.
  Proof.
    split; [exact (sight_norm v f fd px py HV FD2)|]. destruct (norm_square S) as [N0 N1]. change (n * n = dot S S) in N1. change (0 <= n) in N0.
    assert (Q : dot S S <= 17 * 17).
    { unfold S, sight64. cbv zeta. rewrite sight_square. fold d up w x z. destruct vectors as (A & B & C & E). destruct film_range as (_ & _ & W0 & X & Z & _). pose proof fd_range as FR.
      assert (0 < / INR (film_width f)) by (apply Rinv_0_lt_compat; lra).
      assert (X1 : x * x <= 1) by (apply Rabs_le_inv in X; nra). assert (Z1 : z * z <= 1) by (apply Rabs_le_inv in Z; nra).
      assert (T4 : Rabs (2 * val fd * z * dot d up) <= 32 * / 2 ^ 30).
      { rewrite Rabs_mult. apply Rmult_le_compat; auto using Rabs_pos. rewrite !Rabs_mult, (Rabs_pos_eq 2), (Rabs_pos_eq (val fd)) by lra. pose proof (Rabs_pos z). nra. }
      apply Rabs_le_inv in A, B, T4, E.
      assert (T1 : val fd * val fd * dot d d <= 256 * (1 + / 2 ^ 50)) by (apply Rmult_le_compat; nra).
      assert (T2 : x * x * dot w w <= 1 * (1 + / 2 ^ 48)) by (apply Rmult_le_compat; nra).
      assert (T3 : z * z * dot up up <= 1 * (1 + / 2 ^ 50)) by (apply Rmult_le_compat; nra). lra. }
    rewrite <- N1 in Q. nra.
  Qed.
  (** the distance to the film along the axis *)
  Let s := @vadd NumSF (view_point v) (vscale (view_direction v) fd).
  Let num := @vdot NumSF (vsub s (view_point v)) (view_direction v).
  Lemma d_bounded : bounded (1001 / 1000) d.
  Proof.
    apply coords_le. destruct vectors as (A & _). destruct (norm_square d) as [N0 N1]. change (norm d * norm d = dot d d) in N1. rewrite <- N1 in A. apply Rabs_le_inv in A. nra.
  Qed.
  Lemma up_bounded : bounded (1001 / 1000) up.
  Proof.
    apply coords_le. destruct vectors as (_ & A & _). destruct (norm_square up) as [N0 N1]. change (norm up * norm up = dot up up) in N1. rewrite <- N1 in A. apply Rabs_le_inv in A. nra.
  Qed.
  Lemma w_bounded : bounded (101 / 100) w.
  Proof.
    apply coords_le. destruct vectors as (_ & _ & _ & A). destruct (norm_square w) as [N0 N1]. change (norm w * norm w = dot w w) in N1. rewrite <- N1 in A. apply Rabs_le_inv in A. nra.
  Qed.
  Lemma offset (o di : @F NumSF) : finite_upto (2 ^ 20) o -> finite_upto 2 di -> Rabs (val di) <= 1001 / 1000 ->
    apart (/ 2 ^ 30) (@fsub NumSF (@fadd NumSF o (@fmul NumSF di fd)) o) (val fd * val di).
  Proof.
    intros Ho Hd B. pose proof fd_range as FR. assert (FB : Rabs (val fd) <= 16) by (rewrite Rabs_pos_eq; lra).
    pose proof (apart_mul (1001 / 1000) 16 17 0 0 (34 * u) _ _ _ _ (apart_exact _ _ Hd ltac:(lra)) (apart_exact _ _ FD ltac:(lra)) B FB ltac:(lra) ltac:(lra) ltac:(lra)) as M.
    pose proof (apart_exact _ _ Ho ltac:(lra)) as O. assert (OB : Rabs (val o) <= 2 ^ 20) by apply Ho. assert (MB : Rabs (val di * val fd) <= 17) by (rewrite Rabs_mult; pose proof (Rabs_pos (val di)); nra).
    assert (U : u = / 2 ^ 53) by exact ulp1_val. pose proof (Rabs_triang (val o) (val di * val fd)).
    pose proof (apart_add (2 ^ 21) _ _ (101 / 100 * / 2 ^ 31) _ _ _ _ O M ltac:(rewrite U; lra) ltac:(lra) ltac:(rewrite U; lra)) as A.
    replace (val fd * val di) with (val o + val di * val fd - val o) by ring. apply (apart_sub 18 (101 / 100 * / 2 ^ 31) 0 _ _ _ _ _ A O); rewrite ?U; try lra.
    replace (val o + val di * val fd - val o) with (val di * val fd) by ring. lra.
  Qed.
  Lemma num_apart : apart (/ 2 ^ 27) num (val fd).
  Proof.
    destruct d_bounded as (B1 & B2 & B3). destruct HO as (O1 & O2 & O3). destruct HV as ([(D1 & D2 & D3) _] & _). pose proof fd_range as FR.
    assert (A : apartv (/ 2 ^ 30) (@vsub NumSF s (view_point v)) (times (val fd) d)).
    { split; [|split]; [exact (offset _ _ O1 D1 B1)|exact (offset _ _ O2 D2 B2)|exact (offset _ _ O3 D3 B3)]. }
    assert (BB : bounded (161 / 10) (times (val fd) d)).
    { assert (T : forall r : R, Rabs r <= 1001 / 1000 -> Rabs (val fd * r) <= 161 / 10) by (intros r H; rewrite Rabs_mult, (Rabs_pos_eq (val fd)) by lra; pose proof (Rabs_pos r); nra).
      exact (conj (T _ B1) (conj (T _ B2) (T _ B3))). }
    assert (U : u = / 2 ^ 53) by exact ulp1_val.
    pose proof (apart_dot (161 / 10) (1001 / 1000) (1001 / 1000 * / 2 ^ 30) 60 _ 0 (/ 2 ^ 28) _ _ _ _ A (apartv_exact _ 2 (conj D1 (conj D2 D3)) ltac:(lra)) BB d_bounded
      ltac:(lra) ltac:(lra) ltac:(lra) ltac:(lra) ltac:(lra) ltac:(lra) ltac:(rewrite U; lra)) as [P1 P2]. fold num in P1, P2. fold d in P2. rewrite times_dot_l in P2.
    split; [exact P1|]. destruct vectors as (V1 & _). assert (Rabs (val fd * dot d d - val fd) <= 16 * / 2 ^ 50).
    { replace (val fd * dot d d - val fd) with (val fd * (dot d d - 1)) by ring. rewrite Rabs_mult, (Rabs_pos_eq (val fd)) by lra. apply Rmult_le_compat; auto using Rabs_pos; lra. }
    pose proof (tri _ _ _ _ _ P2 H). lra.
  Qed.
  Lemma D_near : apartv (/ 2 ^ 42) D (times (/ n) S).
  Proof.
    assert (T : forall a : @F NumSF, finite_upto 2 a -> finite_upto BIG a) by (intros a H; apply (finite_weaken _ _ _ H); rewrite BIG_val; lra).
    destruct FDir as (A & B & C), CL as (A' & B' & C'). exact (conj (conj (T _ A) A') (conj (conj (T _ B) B') (conj (T _ C) C'))).
  Qed.
  Lemma unit_S : bounded 1 (times (/ n) S).
  Proof. apply coords_le. pose proof n_range as NR. rewrite norm_scaled. fold n. rewrite Rabs_pos_eq by (left; apply Rinv_0_lt_compat; lra). apply Req_le. field. lra. Qed.
  Let co := @vdot NumSF (view_direction v) D.
  Lemma co_apart : finite_upto BIG co /\ Rabs (val co * n - val fd) <= / 2 ^ 29.
  Proof.
    destruct HV as ([DD _] & _). assert (U : u = / 2 ^ 53) by exact ulp1_val. pose proof n_range as NR. pose proof fd_range as FR.
    pose proof (apart_dot (1001 / 1000) 1 (1001 / 1000 * / 2 ^ 42) 5 0 _ (/ 2 ^ 40) _ _ _ _ (apartv_exact _ 2 DD ltac:(lra)) D_near d_bounded unit_S
      ltac:(lra) ltac:(lra) ltac:(lra) ltac:(lra) ltac:(lra) ltac:(lra) ltac:(rewrite U; lra)) as [P1 P2]. fold co in P1, P2. fold d in P2. rewrite times_dot_r in P2.
    split; [exact P1|]. destruct (sight_parts d up (val fd) x z) as (E & _). cbv zeta in E. change (dot d S = val fd * dot d d + z * dot d up) in E. rewrite E in P2.
    destruct vectors as (V1 & _ & V3 & _). destruct film_range as (_ & _ & WR & _ & Z & _). assert (0 < / INR (film_width f)) by (apply Rinv_0_lt_compat; lra).
    replace (val co * n - val fd) with (n * (val co - / n * (val fd * dot d d + z * dot d up)) + (val fd * (dot d d - 1) + z * dot d up)) by (field; lra).
    assert (T1 : Rabs (n * (val co - / n * (val fd * dot d d + z * dot d up))) <= 17 * / 2 ^ 40).
    { rewrite Rabs_mult, (Rabs_pos_eq n) by lra. apply Rmult_le_compat; auto using Rabs_pos; lra. }
    assert (T2 : Rabs (val fd * (dot d d - 1)) <= 16 * / 2 ^ 50) by (rewrite Rabs_mult, (Rabs_pos_eq (val fd)) by lra; apply Rmult_le_compat; auto using Rabs_pos; lra).
    assert (T3 : Rabs (z * dot d up) <= 1 * / 2 ^ 30) by (rewrite Rabs_mult; apply Rmult_le_compat; auto using Rabs_pos; lra).
    apply Rabs_le_inv in T1, T2, T3. apply Rabs_le. lra.
  Qed.
  Let len := @fdiv NumSF num co.
  Lemma len_apart : finite_upto BIG len /\ exists k, val len = k * n /\ Rabs (k - 1) <= / 2 ^ 24.
  Proof.
    destruct num_apart as [N1 N2]. destruct co_apart as [C1 C2]. pose proof n_range as NR. pose proof fd_range as FR. assert (U : u = / 2 ^ 53) by exact ulp1_val.
    set (a := val num) in *. set (c := val co) in *. set (g := val fd) in *.
    assert (CN : 49 / 100 <= c * n) by (apply Rabs_le_inv in C2; lra).
    assert (C0 : 0 < c) by nra.
    assert (E1 : Rabs (a - c * n) <= / 2 ^ 26).
    { apply Rabs_le_inv in N2, C2. apply Rabs_le. lra. }
    assert (E2 : Rabs (a / (c * n) - 1) <= / 2 ^ 26 * (100 / 49)).
    { replace (a / (c * n) - 1) with ((a - c * n) * / (c * n)) by (field; lra). rewrite Rabs_mult, (Rabs_pos_eq (/ (c * n))) by (left; apply Rinv_0_lt_compat; lra).
      apply Rmult_le_compat; auto using Rabs_pos; [left; apply Rinv_0_lt_compat; lra|]. apply Rle_trans with (/ (49 / 100)); [apply Rinv_le_contravar; lra|lra]. }
    assert (E3 : a / c = (a / (c * n)) * n) by (field; lra).
    assert (E4 : Rabs (a / c) <= 18).
    { rewrite E3, Rabs_mult, (Rabs_pos_eq n) by lra. apply Rle_trans with ((1 + / 2 ^ 26 * (100 / 49)) * 17); [|lra]. apply Rmult_le_compat; auto using Rabs_pos; [lra| |lra].
      apply (size_of _ _ _ _ E2). rewrite Rabs_pos_eq; lra. }
    destruct (quot (mkFilm 1 1) 0 0 (le_n 1) (le_n 1) num co BIG BIG 18 N1 C1) as (_ & FI & EE); [fold c; lra|fold a c; lra|lra|]. fold a c len in EE, FI.
    split; [exact FI|]. exists (val len / n). split; [field; lra|].
    assert (E5 : Rabs (val len - a / c) <= 19 * u). { assert (u * Rabs (a / c) <= u * 18) by (apply Rmult_le_compat_l; [pose proof ulp1_pos; lra|lra]). rewrite U in *. lra. }
    replace (val len / n - 1) with ((val len - a / c) * / n + (a / (c * n) - 1)) by (field; lra).
    assert (E6 : Rabs ((val len - a / c) * / n) <= 19 * u * (100 / 49)).
    { rewrite Rabs_mult, (Rabs_pos_eq (/ n)) by (left; apply Rinv_0_lt_compat; lra). apply Rmult_le_compat; auto using Rabs_pos; [left; apply Rinv_0_lt_compat; lra|].
      apply Rle_trans with (/ (49 / 100)); [apply Rinv_le_contravar; lra|lra]. }
    apply Rabs_le_inv in E2, E6. rewrite U in E6. apply Rabs_le. lra.
  Qed.
  Let p := @vscale NumSF D len.
  Lemma p_apart : exists k, Rabs (k - 1) <= / 2 ^ 24 /\ apartv (/ 2 ^ 37) p (times k S) /\ bounded 18 (times k S).
  Proof.
    destruct len_apart as [FL (k & EK & HK)]. exists k. split; [exact HK|]. pose proof n_range as NR. assert (U : u = / 2 ^ 53) by exact ulp1_val.
    assert (KR : 0 <= k <= 1001 / 1000) by (apply Rabs_le_inv in HK; lra).
    assert (LB : Rabs (val len) <= 18). { rewrite EK, Rabs_pos_eq by nra. apply Rle_trans with (1001 / 1000 * 17); [apply Rmult_le_compat; lra|lra]. }
    destruct D_near as (A1 & A2 & A3). destruct unit_S as (B1 & B2 & B3).
    assert (L : apart 0 len (val len)) by (split; [exact FL|]; unfold Rminus; rewrite Rplus_opp_r, Rabs_R0; lra).
    assert (T : forall (a : @F NumSF) (r : R), apart (/ 2 ^ 42) a (/ n * r) -> Rabs (/ n * r) <= 1 -> apart (/ 2 ^ 37) (@fmul NumSF a len) (k * r) /\ Rabs (k * r) <= 18).
    { intros a r HA HB. replace (k * r) with (/ n * r * val len) by (rewrite EK; field; lra). split.
      - apply (apart_mul 1 18 20 _ 0 _ _ _ _ _ HA L HB LB); rewrite ?U; lra.
      - rewrite Rabs_mult. pose proof (Rabs_pos (/ n * r)). pose proof (Rabs_pos (val len)). nra. }
    destruct (T _ _ A1 B1) as [P1 Q1]. destruct (T _ _ A2 B2) as [P2 Q2]. destruct (T _ _ A3 B3) as [P3 Q3].
    exact (conj (conj P1 (conj P2 P3)) (conj Q1 (conj Q2 Q3))).
  Qed.
  Lemma w_near : apartv (5 * u) (@vcross NumSF (view_direction v) (view_up v)) w.
  Proof.
    destruct HV as ([W1 U1] & [W2 U2] & _).
    pose proof (direction_near 1 _ W1 ltac:(lra)) as N1. pose proof (direction_near 1 _ W2 ltac:(lra)) as N2.
    destruct (nearv_cross 1 ltac:(lra) ltac:(lra) 0 0 (1001/1000) 0 (1001/1000) 0 (1003/1000) (1005/1000) (2006/1000) (41/10) _ _ _ _ N1 N2 ltac:(lia) ltac:(lra) ltac:(lra) ltac:(lra) ltac:(lra) ltac:(lra) ltac:(lra) ltac:(lra) ltac:(lra) ltac:(lra) ltac:(lra) ltac:(lra) ltac:(lra) ltac:(lra))
      as ((F1 & _ & E1) & (F2 & _ & E2) & (F3 & _ & E3)). pose proof ulp1_pos. cbn [pow Nat.add] in E1, E2, E3.
    assert (T : forall a b : R, Rabs (a - b) <= 41 / 10 * u * 1 -> Rabs (a - b) <= 5 * u) by (intros; lra).
    exact (conj (conj F1 (T _ _ E1)) (conj (conj F2 (T _ _ E2)) (conj F3 (T _ _ E3)))).
  Qed.
  Lemma xz_apart : apart (/ 2 ^ 22) (@vdot NumSF p (vcross (view_direction v) (view_up v))) x /\ apart (/ 2 ^ 22) (@vdot NumSF p (view_up v)) z.
  Proof.
    destruct p_apart as (k & HK & HA & HB). assert (U : u = / 2 ^ 53) by exact ulp1_val. destruct HV as (_ & [DU _] & _).
    destruct vectors as (_ & V2 & V3 & V4). destruct film_range as (_ & _ & WR & X & Z & _). assert (0 < / INR (film_width f)) by (apply Rinv_0_lt_compat; lra). pose proof fd_range as FR.
    destruct (sight_parts d up (val fd) x z) as (_ & EW & EU). cbv zeta in EW, EU. fold w in EW, EU. change (dot S w = x * dot w w) in EW. change (dot S up = val fd * dot d up + z * dot up up) in EU.
    destruct (apart_dot 18 (101 / 100) (/ 2 ^ 36) 60 _ _ (/ 2 ^ 34) _ _ _ _ HA w_near HB w_bounded ltac:(rewrite U; lra) ltac:(lra) ltac:(lra) ltac:(lra) ltac:(lra) ltac:(lra) ltac:(rewrite U; lra)) as [P1 P2].
    destruct (apart_dot 18 (1001 / 1000) (/ 2 ^ 36) 60 _ 0 (/ 2 ^ 34) _ _ _ _ HA (apartv_exact _ 2 DU ltac:(lra)) HB up_bounded ltac:(lra) ltac:(lra) ltac:(lra) ltac:(lra) ltac:(lra) ltac:(lra) ltac:(rewrite U; lra)) as [Q1 Q2].
    fold up in Q2. rewrite times_dot_l in P2, Q2. rewrite EW in P2. rewrite EU in Q2. set (ww := dot w w) in *. set (uu := dot up up) in *. set (e := dot d up) in *. set (g := val fd) in *. clearbody ww uu e g x z.
    assert (KB : Rabs k <= 1001 / 1000) by (apply Rabs_le_inv in HK; apply Rabs_le; lra).
    assert (M : forall a b A B : R, Rabs a <= A -> Rabs b <= B -> Rabs (a * b) <= A * B) by (intros; rewrite Rabs_mult; apply Rmult_le_compat; auto using Rabs_pos).
    split.
    - split; [exact P1|]. assert (E : Rabs (k * (x * ww) - x) <= 102 / 100 * / 2 ^ 24).
      { replace (k * (x * ww) - x) with (x * ((k - 1) + k * (ww - 1))) by ring. pose proof (M _ _ _ _ KB V4) as T1. 
        assert (T2 : Rabs ((k - 1) + k * (ww - 1)) <= / 2 ^ 24 + 1001 / 1000 * / 2 ^ 48) by (apply (Rle_trans _ _ _ (Rabs_triang _ _)); lra).
        assert (X1 : Rabs x <= 1) by lra. pose proof (M _ _ _ _ X1 T2). lra. }
      pose proof (tri _ _ _ _ _ P2 E). lra.
    - split; [exact Q1|]. assert (E : Rabs (k * (g * e + z * uu) - z) <= 2 * / 2 ^ 24).
      { replace (k * (g * e + z * uu) - z) with (k * (g * e) + z * ((k - 1) + k * (uu - 1))) by ring. pose proof (M _ _ _ _ KB V2) as T1. 
        assert (T2 : Rabs ((k - 1) + k * (uu - 1)) <= / 2 ^ 24 + 1001 / 1000 * / 2 ^ 50) by (apply (Rle_trans _ _ _ (Rabs_triang _ _)); lra).
        assert (X1 : Rabs z <= 1) by lra. pose proof (M _ _ _ _ X1 T2) as T3. assert (G : Rabs g <= 16) by (rewrite Rabs_pos_eq; lra).
        pose proof (M _ _ _ _ G V3) as T4. pose proof (M _ _ _ _ KB T4) as T5. apply (Rle_trans _ _ _ (Rabs_triang _ _)). lra. }
      pose proof (tri _ _ _ _ _ Q2 E). lra.
  Qed.
  Lemma not_outside (q : @F NumSF) r : apart (/ 2 ^ 22) q r -> Rabs r <= 1 - / 65536 -> @fltb NumSF f1 (@fabs NumSF q) = false.
  Proof.
    intros [FQ Q] HR. destruct one_val as [V1 F1]. destruct (abs_val _ _ FQ) as [VA FA].
    rewrite (ltb_val BIG); [|apply (finite_weaken _ _ _ F1); rewrite BIG_val; lra|exact FA]. apply Rlt_bool_false. rewrite VA, V1. pose proof (size_of _ _ _ _ Q HR). lra.
  Qed.
  Lemma back (ray : RayF) : origin ray = view_point v -> direction ray = D ->
    pixel_from_ray (mkPinhole v f fd (vcross (view_direction v) (view_up v))) ray = Ret ((Z.of_nat px, Z.of_nat py), f1).
  Proof.
    intros HO' HD. unfold pixel_from_ray. cbn [ph_view ph_film ph_film_distance ph_u]. cbv zeta. rewrite HO', HD.
    rewrite (same_point _ _ HO). fold co. destruct co_apart as [FC EC]. pose proof n_range as NR. pose proof fd_range as FR.
    assert (C0 : 1 / 100 <= val co). { apply Rabs_le_inv in EC. destruct (Rle_or_lt (1 / 100) (val co)) as [|C]; [assumption|exfalso]. nra. }
    destruct (abs_val _ _ FC) as [VA FA]. destruct tiny12_val as [FT VT].
    assert (FT' : finite_upto BIG (@TINY12 NumSF)) by (apply (finite_weaken _ _ _ FT); rewrite BIG_val; lra).
    rewrite (ltb_val BIG _ _ FA FT'), VA. rewrite (Rabs_pos_eq (val co)) by lra. rewrite Rlt_bool_false by lra.
    fold s. fold num. fold len. fold p. destruct xz_apart as [AX AZ]. destruct film_range as (KX & KY & WR & X & Z & EX & EZ).
    set (qx := @vdot NumSF p (vcross (view_direction v) (view_up v))) in *. set (qz := @vdot NumSF p (view_up v)) in *.
    assert (IW : / 65536 <= / INR (film_width f)) by (apply Rinv_le_contravar; lra).
    rewrite (not_outside qz z AZ) by lra. rewrite (not_outside qx x AX) by lra. cbn [orb].
    destruct one_val as [V1 F1]. pose proof (apart_exact _ _ F1 ltac:(lra)) as A1. rewrite V1 in A1. assert (U : u = / 2 ^ 53) by exact ulp1_val.
    assert (X1 : Rabs x <= 1) by lra. assert (Z1 : Rabs z <= 1) by lra.
    f_equal. f_equal. f_equal.
    - apply (cell (INR (film_width f)) px); try assumption.
      + replace ((2 * INR px + 1) / INR (film_width f)) with (x + 1) by (rewrite EX; ring). apply (apart_add 4 (/ 2 ^ 22) 0 _ _ _ _ _ AX A1); rewrite ?U; try lra.
        pose proof (Rabs_triang x 1). rewrite (Rabs_pos_eq 1) in H by lra. lra.
      + destruct (dx_err f px py HF HX HY) as [FI _]. exact FI.
      + destruct (dx_err f px py HF HX HY) as [_ EE]. unfold Rdiv. destruct (recips f px py HF HX HY) as (RW & _). rewrite U in *. nra.
    - apply (cell (INR (film_width f)) py); try assumption.
      + replace ((2 * INR py + 1) / INR (film_width f)) with (1 - z) by (rewrite EZ; ring). apply (apart_sub 4 0 (/ 2 ^ 22) _ _ _ _ _ A1 AZ); rewrite ?U; try lra.
        unfold Rminus. pose proof (Rabs_triang 1 (- z)). rewrite Rabs_Ropp, (Rabs_pos_eq 1) in H by lra. lra.
      + destruct (dy_err f px py HF HX HY) as [FI _]. exact FI.
      + destruct (dy_err f px py HF HX HY) as [_ EE]. unfold Rdiv. destruct (recips f px py HF HX HY) as (RW & RH & _). rewrite U in *. nra.
  Qed.
End Back.

(** ** C27 in binary64.  On a square film of up to 65536 x 65536 pixels, seen from a point not more than 2^20 from the origin, with the view
    direction and the up vector perpendicular up to 2^-30, every ray that leaves the view point within 2^-42 of the exact line of sight of a
    pixel is attributed to that pixel ... *)
Theorem C27_attribution_binary64 : forall (T : Trig NumSF) (v : @View NumSF) (f : Film) px py (ray : RayF),
  let c := pinhole_new v f in
  view64 v -> Rabs (dot (val_vec (view_direction v)) (val_vec (view_up v))) <= / 2 ^ 30 -> within (2 ^ 20) (view_point v) ->
  film64 f -> film_height f = film_width f -> (px < film_width f)%nat -> (py < film_height f)%nat ->
  finite_upto 16 (ph_film_distance c) -> 1 / 2 <= val (ph_film_distance c) ->
  let s := sight64 v f (val (ph_film_distance c)) px py in
  origin ray = view_point v -> within 2 (direction ray) -> close (/ 2 ^ 42) (val_vec (direction ray)) (times (/ norm s) s) ->
  pixel_from_ray c ray = Ret ((Z.of_nat px, Z.of_nat py), f1).
Proof.
  intros T v f px py ray c HV HP HO HF SQ HX HY FD FD2 s HO' HW CL.
  exact (back v f (ph_film_distance c) px py (direction ray) HV HP HF SQ HO HX HY FD FD2 HW CL ray HO' eq_refl).
Qed.
Print Assumptions C27_attribution_binary64.
(** ... in particular the ray that the camera itself generates for the pixel *)
Theorem C27_round_trip_binary64 : forall (T : Trig NumSF) (v : @View NumSF) (f : Film) px py,
  let c := pinhole_new v f in
  view64 v -> Rabs (dot (val_vec (view_direction v)) (val_vec (view_up v))) <= / 2 ^ 30 -> within (2 ^ 20) (view_point v) ->
  film64 f -> film_height f = film_width f -> (px < film_width f)%nat -> (py < film_height f)%nat ->
  finite_upto 16 (ph_film_distance c) -> 1 / 2 <= val (ph_film_distance c) ->
  pixel_from_ray c (r_geometry (fst (gen_ray c (px, py)))) = Ret ((Z.of_nat px, Z.of_nat py), f1).
Proof.
  intros T v f px py c HV HP HO HF SQ HX HY FD FD2. destruct (C99_camera T v f px py HV HF HX HY FD FD2) as (E & [U _] & CL). fold c in E, U, CL.
  exact (C27_attribution_binary64 T v f px py _ HV HP HO HF SQ HX HY FD FD2 E U CL).
Qed.
Print Assumptions C27_round_trip_binary64.

(** A concrete case: the last pixel of a film of 512 x 512 pixels *)
Example C27_binary64_hyp : view64 view_along_y /\ Rabs (dot (val_vec (view_direction view_along_y)) (val_vec (view_up view_along_y))) <= / 2 ^ 30 /\
  within (2 ^ 20) (view_point view_along_y) /\ film64 (mkFilm 512 512) /\ (511 < 512)%nat /\
  let c := @pinhole_new NumSF unit_tangent view_along_y (mkFilm 512 512) in finite_upto 16 (ph_film_distance c) /\ 1 / 2 <= val (ph_film_distance c).
Proof.
  destruct C99_camera_hyp as (A & _ & _ & _ & B). split; [exact A|].
  assert (G : forall z, (Z.abs z <= 3)%Z -> val (sf_ofZ z) = IZR z /\ finite_upto (2 ^ 20) (sf_ofZ z)).
  { intros z Hz. destruct (ofZ_val z ltac:(lia)) as [V FI]. change (@fofZ NumSF z) with (sf_ofZ z) in V, FI. split; [exact V|]. apply (finite_weaken _ _ _ FI).
    rewrite <- abs_IZR. apply IZR_le in Hz. lra. }
  split; [|split; [|split; [|split; [lia|exact B]]]].
  - unfold view_along_y, val_vec, dot, pt. cbn [view_direction view_up vx vy vz]. destruct (G 0%Z ltac:(lia)) as [-> _]. destruct (G 1%Z ltac:(lia)) as [-> _]. apply Rabs_le. lra.
  - exact (conj (proj2 (G 1%Z ltac:(lia))) (conj (proj2 (G 2%Z ltac:(lia))) (proj2 (G 3%Z ltac:(lia))))).
  - unfold film64. cbn [film_width film_height]. lia.
Qed.
