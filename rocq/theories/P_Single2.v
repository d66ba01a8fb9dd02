(** * Property C103, continued: a draw that leaves along the surface, and its NaN

    With correctly rounded sine and cosine, one pair of draws (of the 2^48 possible ones) gives a direction of height
    exactly zero: in a horizontal matte surface its density is 0 and the light it brings is 0 * .. / 0 = NaN. *)
From Coq Require Import ZArith SpecFloat Reals Lra Lia Psatz List.
From Coq Require Import Machin.
From Flocq Require Import Core BinarySingleNaN Relative.
From Verif Require Import Num NumR NumSF NumSF32 SFBridge FloatOps FloatRound FloatError Geometry Samplers Colour Mixed Single P_Single P_FloatTrace.
Import ListNotations.
#[local] Existing Instance Hprec32.
#[local] Existing Instance Hmax32.
#[local] Existing Instance valid32.
Open Scope R_scope.

(** f32::consts::PI *)
Definition pi32 : @F NumSF32 := S754_finite false 13176795 (-22).
(** a perfect `f32` sine and cosine *)
Definition correct32 (T : Trig NumSF32) : Prop :=
  @fpi NumSF32 T = pi32 /\
  forall x, fin32 x -> 0 <= val x <= 7 ->
    fin32 (@fsin NumSF32 T x) /\ val (@fsin NumSF32 T x) = rnd32 (sin (val x)) /\
    fin32 (@fcos NumSF32 T x) /\ val (@fcos NumSF32 T x) = rnd32 (cos (val x)).

(** ** perfect functions are accurate *)
Lemma rnd32_unit x : Rabs x <= 1 -> Rabs (rnd32 x - x) <= / 2 ^ 24.
Proof.
  intros H. pose proof (error_le_half_ulp radix2 fexp32 (fun x => negb (Z.even x)) x) as E.
  assert (U : ulp radix2 fexp32 x <= / 2 ^ 23).
  { apply Rle_trans with (ulp radix2 fexp32 1).
    - apply ulp_le; [exact valid32|apply fexp_monotone|]. rewrite Rabs_R1. exact H.
    - change 1 with (bpow radix2 0). rewrite ulp_bpow. apply Req_le. change (SpecFloat.fexp 24 128 (0 + 1)) with (-23)%Z. cbn. lra. }
  change (Znearest (fun x => negb (Z.even x))) with ZnearestE in E. lra.
Qed.
Lemma pi_tight : 3141592653 / 10 ^ 9 <= PI <= 3141592654 / 10 ^ 9.
Proof.
  pose proof (PI_2_3_7_ineq 5) as [H1 H2]. unfold tg_alt, PI_2_3_7_tg, Ratan_seq in *. simpl in H1, H2. lra.
Qed.
Lemma pi32_val : fin32 pi32 /\ Rabs (val pi32 - PI) <= / 2 ^ 23.
Proof.
  assert (V : val pi32 = 13176795 / 4194304). { unfold val, SF2R, pi32, F2R. cbn [Fnum Fexp cond_Zopp]. cbn. lra. }
  split; [split; [reflexivity|split; [reflexivity|rewrite V, Rabs_pos_eq; lra]]|]. rewrite V. pose proof pi_tight. apply Rabs_le. lra.
Qed.
Lemma correct_accurate T : correct32 T -> accurate32 T.
Proof.
  intros [H1 H2]. destruct pi32_val as [P1 P2]. split; [rewrite H1; exact P1|]. split; [rewrite H1; exact P2|].
  intros x Hx Hr. destruct (H2 x Hx Hr) as (S1 & S2 & C1 & C2). pose proof (SIN_bound (val x)). pose proof (COS_bound (val x)).
  split; [exact S1|]. split; [rewrite S2; apply rnd32_unit; apply Rabs_le; lra|]. split; [exact C1|]. rewrite C2; apply rnd32_unit; apply Rabs_le; lra.
Qed.

(** ** perfect functions exist *)
Definition round32 (x : R) : @F NumSF32 :=
  SpecFloat.binary_normalize 24 128 (ZnearestE (scaled_mantissa radix2 fexp32 x)) (cexp radix2 fexp32 x) false.
Lemma round32_val x : Rabs x <= 1 -> val (round32 x) = rnd32 x /\ fin32 (round32 x).
Proof.
  intros H. unfold round32. rewrite normalize_equiv32.
  pose proof (binary_normalize_correct 24 128 Hprec32 Hmax32 mode_NE (ZnearestE (scaled_mantissa radix2 fexp32 x)) (cexp radix2 fexp32 x) false) as C. cbv zeta in C.
  change (F2R (Float radix2 (ZnearestE (scaled_mantissa radix2 fexp32 x)) (cexp radix2 fexp32 x))) with (rnd32 x) in C. cbn [round_mode] in C.
  assert (RR : rnd32 (rnd32 x) = rnd32 x) by (apply round_generic; [apply valid_rnd_N|apply generic_format_round; [exact valid32|apply valid_rnd_N]]).
  assert (B : Rabs (rnd32 x) <= 1024) by (apply rnd32_bound; lra).
  rewrite (rnd32_fits _ B), RR in C. destruct C as (C1 & C2 & _). rewrite val32. split; [exact C1|]. apply of_b32; [exact C2|rewrite C1; exact B].
Qed.
Definition perfect : Trig NumSF32 := {|
  fpi := pi32; fcos := fun x => round32 (cos (val x)); fsin := fun x => round32 (sin (val x));
  ftan := fun x => x; facos := fun x => x; fexp := fun x => x; fln := fun x => x; fpow := fun x _ => x |}.
Example perfect_correct : correct32 perfect.
Proof.
  split; [reflexivity|]. intros x _ _. pose proof (SIN_bound (val x)). pose proof (COS_bound (val x)).
  destruct (round32_val (sin (val x))) as [S1 S2]; [apply Rabs_le; lra|]. destruct (round32_val (cos (val x))) as [C1 C2]; [apply Rabs_le; lra|].
  exact (conj S2 (conj S1 (conj C2 C1))).
Qed.

(** ** the sine and cosine of 6167657 / 2^20 *)
Lemma fact_step n : INR (fact (S n)) = IZR (Z.of_nat (S n)) * INR (fact n).
Proof. rewrite fact_simpl, mult_INR, INR_IZR_INZ. reflexivity. Qed.
Definition h8 : R := 6167657 / 8388608.
Lemma fact_values : INR (fact 0) = 1 /\ INR (fact 1) = 1 /\ INR (fact 2) = 2 /\ INR (fact 3) = 6 /\ INR (fact 4) = 24 /\ INR (fact 5) = 120 /\ INR (fact 6) = 720 /\ INR (fact 7) = 5040 /\
  INR (fact 8) = 40320 /\ INR (fact 9) = 362880 /\ INR (fact 10) = 3628800 /\ INR (fact 11) = 39916800 /\ INR (fact 12) = 479001600 /\ INR (fact 13) = 6227020800 /\
  INR (fact 14) = 87178291200 /\ INR (fact 15) = 1307674368000 /\ INR (fact 16) = 20922789888000 /\ INR (fact 17) = 355687428096000.
Proof.
  assert (F0 : INR (fact 0) = 1) by reflexivity.
  assert (F1 : INR (fact 1) = 1) by reflexivity.
  assert (F2 : INR (fact 2) = 2) by (rewrite fact_step, F1; cbn [Z.of_nat Pos.of_succ_nat Pos.succ]; lra).
  assert (F3 : INR (fact 3) = 6) by (rewrite fact_step, F2; cbn [Z.of_nat Pos.of_succ_nat Pos.succ]; lra).
  assert (F4 : INR (fact 4) = 24) by (rewrite fact_step, F3; cbn [Z.of_nat Pos.of_succ_nat Pos.succ]; lra).
  assert (F5 : INR (fact 5) = 120) by (rewrite fact_step, F4; cbn [Z.of_nat Pos.of_succ_nat Pos.succ]; lra).
  assert (F6 : INR (fact 6) = 720) by (rewrite fact_step, F5; cbn [Z.of_nat Pos.of_succ_nat Pos.succ]; lra).
  assert (F7 : INR (fact 7) = 5040) by (rewrite fact_step, F6; cbn [Z.of_nat Pos.of_succ_nat Pos.succ]; lra).
  assert (F8 : INR (fact 8) = 40320) by (rewrite fact_step, F7; cbn [Z.of_nat Pos.of_succ_nat Pos.succ]; lra).
  assert (F9 : INR (fact 9) = 362880) by (rewrite fact_step, F8; cbn [Z.of_nat Pos.of_succ_nat Pos.succ]; lra).
  assert (F10 : INR (fact 10) = 3628800) by (rewrite fact_step, F9; cbn [Z.of_nat Pos.of_succ_nat Pos.succ]; lra).
  assert (F11 : INR (fact 11) = 39916800) by (rewrite fact_step, F10; cbn [Z.of_nat Pos.of_succ_nat Pos.succ]; lra).
  assert (F12 : INR (fact 12) = 479001600) by (rewrite fact_step, F11; cbn [Z.of_nat Pos.of_succ_nat Pos.succ]; lra).
  assert (F13 : INR (fact 13) = 6227020800) by (rewrite fact_step, F12; cbn [Z.of_nat Pos.of_succ_nat Pos.succ]; lra).
  assert (F14 : INR (fact 14) = 87178291200) by (rewrite fact_step, F13; cbn [Z.of_nat Pos.of_succ_nat Pos.succ]; lra).
  assert (F15 : INR (fact 15) = 1307674368000) by (rewrite fact_step, F14; cbn [Z.of_nat Pos.of_succ_nat Pos.succ]; lra).
  assert (F16 : INR (fact 16) = 20922789888000) by (rewrite fact_step, F15; cbn [Z.of_nat Pos.of_succ_nat Pos.succ]; lra).
  assert (F17 : INR (fact 17) = 355687428096000) by (rewrite fact_step, F16; cbn [Z.of_nat Pos.of_succ_nat Pos.succ]; lra).
  tauto.
Qed.
Lemma sin_h8 : Rabs (sin h8 - 67076666583817776 / 10 ^ 17) <= 2 / 10 ^ 16.
Proof.
  pose proof (pre_sin_bound h8 3 ltac:(unfold h8; lra) ltac:(unfold h8; lra)) as [B1 B2]. unfold sin_approx, sin_term in B1, B2.
  change (2 * 3 + 1)%nat with 7%nat in B1. change (2 * (3 + 1))%nat with 8%nat in B2. cbn [sum_f_R0 Nat.mul Nat.add] in B1, B2.
  destruct fact_values as (F0 & F1 & F2 & F3 & F4 & F5 & F6 & F7 & F8 & F9 & F10 & F11 & F12 & F13 & F14 & F15 & F16 & F17).
  rewrite F1, F3, F5, F7, F9, F11, F13, F15 in B1. rewrite F1, F3, F5, F7, F9, F11, F13, F15, F17 in B2.
  set (s := sin h8) in *. clearbody s. unfold h8 in B1, B2. cbn [pow] in B1, B2. apply Rabs_le. lra.
Qed.
Lemma cos_h8 : Rabs (cos h8 - 74166844344379003 / 10 ^ 17) <= 5 / 10 ^ 16.
Proof.
  pose proof (pre_cos_bound h8 3 ltac:(unfold h8; lra) ltac:(unfold h8; lra)) as [B1 B2]. unfold cos_approx, cos_term in B1, B2.
  change (2 * 3 + 1)%nat with 7%nat in B1. change (2 * (3 + 1))%nat with 8%nat in B2. cbn [sum_f_R0 Nat.mul Nat.add] in B1, B2.
  destruct fact_values as (F0 & F1 & F2 & F3 & F4 & F5 & F6 & F7 & F8 & F9 & F10 & F11 & F12 & F13 & F14 & F15 & F16 & F17).
  rewrite F0, F2, F4, F6, F8, F10, F12, F14 in B1. rewrite F0, F2, F4, F6, F8, F10, F12, F14, F16 in B2. 
  set (s := cos h8) in *. clearbody s. unfold h8 in B1, B2. cbn [pow] in B1, B2. apply Rabs_le. lra.
Qed.

Lemma twice a s c e : Rabs (sin a - s) <= e -> Rabs (cos a - c) <= e -> Rabs s <= 1 -> Rabs c <= 1 -> 0 <= e <= 1 / 10 ->
  Rabs (sin (2 * a) - 2 * s * c) <= 5 * e /\ Rabs (cos (2 * a) - (1 - 2 * s * s)) <= 5 * e.
Proof.
  intros S C S1 C1 E. rewrite sin_2a, cos_2a_sin.
  pose proof (prod_error _ _ _ _ _ _ _ _ S C S1 C1) as P1. pose proof (prod_error _ _ _ _ _ _ _ _ S S S1 S1) as P2.
  assert (EE : e * e <= e / 10) by nra. apply Rabs_le_inv in P1, P2. split; apply Rabs_le; lra.
Qed.
Lemma shift e e' x r r' : Rabs (x - r) <= e -> Rabs (r - r') <= e' -> Rabs (x - r') <= e + e'.
Proof. apply n_tri. Qed.
Definition theta0 : R := 6167657 / 1048576.
Lemma theta0_trig : Rabs (sin theta0 - - (39056865874505621 / 10 ^ 17)) <= 1 / 10 ^ 12 /\ Rabs (cos theta0 - 92057380084710635 / 10 ^ 17) <= 1 / 10 ^ 12.
Proof.
  assert (E1 : Rabs (sin h8 - 67076666583817776 / 10 ^ 17) <= 5 / 10 ^ 16) by (pose proof sin_h8; lra).
  destruct (twice h8 _ _ _ E1 cos_h8) as [S1 C1]; try (rewrite Rabs_pos_eq; lra); try lra.
  assert (S1' : Rabs (sin (2 * h8) - 99497293793236430 / 10 ^ 17) <= 1 / 10 ^ 14). { apply Rle_trans with (5 * (5 / 10 ^ 16) + 1 / 10 ^ 15); [apply (shift _ _ _ _ _ S1)|]; [apply Rabs_le|]; lra. }
  assert (C1' : Rabs (cos (2 * h8) - 10014416000066873 / 10 ^ 17) <= 1 / 10 ^ 14). { apply Rle_trans with (5 * (5 / 10 ^ 16) + 1 / 10 ^ 15); [apply (shift _ _ _ _ _ C1)|]; [apply Rabs_le|]; lra. }
  destruct (twice _ _ _ _ S1' C1') as [S2 C2]; try (rewrite Rabs_pos_eq; lra); try lra.
  assert (S2' : Rabs (sin (2 * (2 * h8)) - 19928145818526826 / 10 ^ 17) <= 1 / 10 ^ 13). { apply Rle_trans with (5 * (1 / 10 ^ 14) + 1 / 10 ^ 15); [apply (shift _ _ _ _ _ S2)|]; [apply Rabs_le|]; lra. }
  assert (C2' : Rabs (cos (2 * (2 * h8)) - - (97994229443552092 / 10 ^ 17)) <= 1 / 10 ^ 13). { apply Rle_trans with (5 * (1 / 10 ^ 14) + 1 / 10 ^ 15); [apply (shift _ _ _ _ _ C2)|]; [apply Rabs_le|]; lra. }
  destruct (twice _ _ _ _ S2' C2') as [S3 C3]; [rewrite Rabs_pos_eq; lra|rewrite Rabs_Ropp, Rabs_pos_eq; lra|lra|].
  replace theta0 with (2 * (2 * (2 * h8))) by (unfold theta0, h8; field).
  split; [apply Rle_trans with (5 * (1 / 10 ^ 13) + 1 / 10 ^ 15); [apply (shift _ _ _ _ _ S3)|]|apply Rle_trans with (5 * (1 / 10 ^ 13) + 1 / 10 ^ 15); [apply (shift _ _ _ _ _ C3)|]]; try lra; apply Rabs_le; lra.
Qed.
(** their nearest binary32 numbers *)
Lemma nearest32 x (m : Z) (e : Z) : cexp radix2 fexp32 x = e -> Rabs (x * bpow radix2 (- e) - IZR m) < / 2 -> rnd32 x = IZR m * bpow radix2 e.
Proof.
  intros H1 H2. unfold round. rewrite H1. unfold scaled_mantissa. rewrite H1. rewrite (Znearest_imp (fun x => negb (Z.even x)) _ m H2). reflexivity.
Qed.
Lemma sin_theta0 : rnd32 (sin theta0) = IZR (-13105310) * bpow radix2 (-25).
Proof.
  destruct theta0_trig as [H _]. apply Rabs_le_inv in H. apply nearest32.
  - unfold cexp. rewrite (mag_unique _ _ (-1)); [reflexivity|]. rewrite Rabs_left by lra. cbn. lra.
  - change (- -25)%Z with 25%Z. replace (bpow radix2 25) with 33554432 by (cbn; lra). apply Rabs_def1; lra.
Qed.
Lemma cos_theta0 : rnd32 (cos theta0) = IZR 15444666 * bpow radix2 (-24).
Proof.
  destruct theta0_trig as [_ H]. apply Rabs_le_inv in H. apply nearest32.
  - unfold cexp. rewrite (mag_unique _ _ 0); [reflexivity|]. rewrite Rabs_pos_eq by lra. cbn. lra.
  - change (- -24)%Z with 24%Z. replace (bpow radix2 24) with 16777216 by (cbn; lra). apply Rabs_def1; lra.
Qed.
Lemma same32 x y : fin32 x -> fin32 y -> val x = val y -> val y <> 0 -> x = y.
Proof.
  intros Hx Hy V N. destruct (as_b32 _ Hx) as (bx & -> & Fx & Vx), (as_b32 _ Hy) as (b' & -> & Fy & Vy).
  rewrite !val32 in *. f_equal. apply B2R_inj; [| |exact V].
  - rewrite <- V in N. destruct bx; try discriminate; [contradict N; reflexivity|reflexivity].
  - destruct b'; try discriminate; [contradict N; reflexivity|reflexivity].
Qed.

(** ** the draw *)
Definition r_draw : @F NumSF32 := draw32 (2 ^ 24 - 1).
Definition t_draw : @F NumSF32 := draw32 15705809.
Lemma draws_ok : draw01 r_draw /\ draw01 t_draw.
Proof.
  assert (E1 : (r_draw : spec_float) = S754_finite false 16777215 (-24)) by (vm_compute; reflexivity).
  assert (E2 : (t_draw : spec_float) = S754_finite false 15705809 (-24)) by (vm_compute; reflexivity). rewrite E1, E2.
  assert (V1 : val (S754_finite false 16777215 (-24)) = 16777215 / 16777216). { unfold val, SF2R, F2R. cbn [Fnum Fexp cond_Zopp]. cbn. lra. }
  assert (V2 : val (S754_finite false 15705809 (-24)) = 15705809 / 16777216). { unfold val, SF2R, F2R. cbn [Fnum Fexp cond_Zopp]. cbn. lra. }
  unfold draw01, fin32. rewrite V1, V2. split; (split; [split; [reflexivity|split; [reflexivity|rewrite Rabs_pos_eq; lra]]|lra]).
Qed.
Lemma the_values T : correct32 T -> let a := fmul (fmul f2 (@fpi NumSF32 T)) t_draw in
  @fsin NumSF32 T a = S754_finite true 13105310 (-25) /\ @fcos NumSF32 T a = S754_finite false 15444666 (-24).
Proof.
  intros [H1 H2] a. unfold a. rewrite H1.
  assert (E : (fmul (fmul (@f2 NumSF32) pi32) t_draw : spec_float) = S754_finite false 12335314 (-21)) by (vm_compute; reflexivity). rewrite E. clear E a.
  assert (V : val (S754_finite false 12335314 (-21)) = theta0). { unfold val, SF2R, F2R, theta0. cbn [Fnum Fexp cond_Zopp]. cbn. lra. }
  assert (FI : fin32 (S754_finite false 12335314 (-21))). { split; [reflexivity|]. split; [reflexivity|]. rewrite V. unfold theta0. rewrite Rabs_pos_eq; lra. }
  destruct (H2 _ FI ltac:(rewrite V; unfold theta0; lra)) as (S1 & S2 & C1 & C2). rewrite V in S2, C2. rewrite sin_theta0 in S2. rewrite cos_theta0 in C2.
  assert (VS : val (S754_finite true 13105310 (-25)) = IZR (-13105310) * bpow radix2 (-25)) by reflexivity.
  assert (VC : val (S754_finite false 15444666 (-24)) = IZR 15444666 * bpow radix2 (-24)) by reflexivity.
  assert (NS : val (S754_finite true 13105310 (-25)) = -13105310 / 33554432) by (rewrite VS; cbn; lra).
  assert (NC : val (S754_finite false 15444666 (-24)) = 15444666 / 16777216) by (rewrite VC; cbn; lra).
  split; apply same32; try assumption.
  - split; [reflexivity|]. split; [reflexivity|]. rewrite NS. apply Rabs_le. lra.
  - rewrite NS. lra.
  - split; [reflexivity|]. split; [reflexivity|]. rewrite NC. apply Rabs_le. lra.
  - rewrite NC. lra.
Qed.

(** ** the horizontal floor *)
Definition ex : @Vec NumSF := V3 f1 f0 f0.
Definition ey : @Vec NumSF := V3 f0 f1 f0.
Definition ez : @Vec NumSF := V3 f0 f0 f1.
Lemma by_zero (x : spec_float) : (@fdiv NumSF (@fmul NumSF x (S754_zero false)) (S754_zero false) : spec_float) = S754_nan.
Proof. destruct x; reflexivity. Qed.
Definition the_draw : @Vec NumSF := @V3 NumSF (S754_finite true 7035859194871808 (-54)) (S754_finite false 8291791384084480 (-53)) (S754_zero false).
Lemma draw_is T : correct32 T -> @cosine_mixed T r_draw t_draw = the_draw.
Proof.
  intros HT. destruct (the_values T HT) as [HS HC]. cbv zeta in HS, HC.
  unfold cosine_mixed, sample_cosine_weighted_horizontal_hemisphere, uniform_sample_horizontal_disc. cbv zeta. rewrite HS, HC. 
  set (rd := r_draw). vm_compute in rd. unfold rd. unfold widen3, the_draw. cbn [vx vy vz].
  match goal with |- @V3 _ ?a ?b ?c = @V3 _ ?a' ?b' ?c' => assert (E1 : (a : spec_float) = a') by (vm_compute; reflexivity); assert (E2 : (b : spec_float) = b') by (vm_compute; reflexivity); assert (E3 : (c : spec_float) = c') by (vm_compute; reflexivity) end.
  exact (f_equal3 (@V3 NumSF) E1 E2 E3).
Qed.
Lemma new_dir_is T64 T : correct32 T -> vz (fst (@matte_mixed T T64 ez ex ey r_draw t_draw)) = S754_zero false /\ (vdot ez (fst (@matte_mixed T T64 ez ex ey r_draw t_draw)) : spec_float) = S754_zero false.
Proof.
  intros HT. unfold matte_mixed. cbv zeta. rewrite (draw_is T HT). cbn [fst].
  match goal with |- vz ?v = _ /\ _ => set (d := v) end. vm_compute in d. unfold d. split; vm_compute; reflexivity.
Qed.

(** ** the draw the machine cannot use
    For every perfect single-precision sine and cosine: the two numbers are possible draws; the direction they give lies
    exactly in the surface; the matte sampler gives it density zero; and whatever the surface (its BSDF) and whatever the
    ray meets (the light), what the sample adds to the pixel is NaN, in every channel. *)
Theorem C103_grazing_refuted : forall (T : Trig NumSF32) (T64 : Trig NumSF), correct32 T -> @fpi NumSF T64 = pi64 ->
  draw01 r_draw /\ draw01 t_draw /\ accurate32 T /\
  (vz (@cosine_mixed T r_draw t_draw) : spec_float) = S754_zero false /\
  (snd (@matte_mixed T T64 ez ex ey r_draw t_draw) : spec_float) = S754_zero false /\
  forall bsdf li : @Spectrum NumSF,
    let '(dir, pdf) := @matte_mixed T T64 ez ex ey r_draw t_draw in
    let s := sample_term ez dir pdf bsdf li in
    (sr s : spec_float) = S754_nan /\ (sg s : spec_float) = S754_nan /\ (sb s : spec_float) = S754_nan.
Proof.
  intros T T64 HT HP. destruct draws_ok as [D1 D2]. split; [exact D1|]. split; [exact D2|]. split; [exact (correct_accurate T HT)|].
  split; [rewrite (draw_is T HT); reflexivity|]. destruct (new_dir_is T64 T HT) as [_ N].
  assert (S0 : (snd (@matte_mixed T T64 ez ex ey r_draw t_draw) : spec_float) = S754_zero false).
  { change (snd (@matte_mixed T T64 ez ex ey r_draw t_draw)) with (@fdiv NumSF (vdot ez (fst (@matte_mixed T T64 ez ex ey r_draw t_draw))) (@fpi NumSF T64)). rewrite N, HP. reflexivity. }
  split; [exact S0|]. intros bsdf li. destruct (@matte_mixed T T64 ez ex ey r_draw t_draw) as [dir pdf]. cbn [fst snd] in N, S0. cbv zeta.
  unfold sample_term. rewrite N, S0. change (@fabs NumSF (S754_zero false)) with (S754_zero false). 
  split; [|split]; apply by_zero.
Qed.
Print Assumptions C103_grazing_refuted.
Example C103_grazing_case : correct32 perfect /\ draw01 r_draw /\ draw01 t_draw. Proof. split; [exact perfect_correct|exact draws_ok]. Qed.
