(** * C20 in binary64: the computed Fresnel reflectance lies in [0,1] exactly, does not change when the two media are swapped, and is
    Fresnel's value to within 16 units in the last place of 1 *)
From Coq Require Import ZArith SpecFloat Reals Lra Lia Psatz List.
From Flocq Require Import Core BinarySingleNaN.
From Verif Require Import Num NumR NumSF SFBridge FloatOps FloatRound FloatError Geometry Colour Ray Material.
Open Scope R_scope.
#[local] Existing Instance valid64.

(** a positive float between 2^-200 and 2^200 *)
Definition sized (x : @F NumSF) : Prop := finite_upto (bpow radix2 200) x /\ bpow radix2 (-200) <= val x.
Lemma format_val B x : finite_upto B x -> generic_format radix2 fexp64 (val x).
Proof. intros H. destruct (as_b64 _ _ H) as (b & -> & _ & _). rewrite val_B2SF. apply generic_format_B2R. Qed.
Lemma rnd_mono x y : x <= y -> rnd64 x <= rnd64 y.
Proof. apply round_le; [exact valid64|apply valid_rnd_N]. Qed.
Lemma rnd_id x : generic_format radix2 fexp64 x -> rnd64 x = x.
Proof. apply round_generic, valid_rnd_N. Qed.
Lemma rnd_opp x : rnd64 (- x) = - rnd64 x.
Proof. apply round_NE_opp. Qed.
Lemma rnd_0 : rnd64 0 = 0. Proof. apply round_0, valid_rnd_N. Qed.
Lemma rnd_abs_le x y : Rabs x <= y -> Rabs (rnd64 x) <= rnd64 y.
Proof.
  intros H. apply Rabs_le_inv in H. apply Rabs_le. rewrite <- rnd_opp. split; apply rnd_mono; lra.
Qed.

(** the ratio (x - y) / (x + y) *)
Definition ratio (x y : @F NumSF) : @F NumSF := @fdiv NumSF (@fsub NumSF x y) (@fadd NumSF x y).
Section Ratio.
  Variables x y : @F NumSF.
  Hypothesis Hx : sized x.
  Hypothesis Hy : sized y.
  Lemma size200 z : sized z -> 0 < val z <= bpow radix2 200.
  Proof. intros [(_ & _ & H1) H2]. pose proof (bpow_gt_0 radix2 (-200)). apply Rabs_le_inv in H1. lra. Qed.
  Lemma sum_ok : val (@fadd NumSF x y) = rnd64 (val x + val y) /\ finite_upto (bpow radix2 201) (@fadd NumSF x y) /\ val x <= val (@fadd NumSF x y) /\ 0 < val (@fadd NumSF x y).
  Proof.
    destruct (size200 _ Hx) as [X1 X2], (size200 _ Hy) as [Y1 Y2].
    assert (B : Rabs (val x + val y) <= bpow radix2 201). { rewrite Rabs_pos_eq by lra. replace (bpow radix2 201) with (2 * bpow radix2 200) by (change 201%Z with (1 + 200)%Z; rewrite bpow_plus; reflexivity). lra. }
    destruct (add_val 201 ltac:(lia) _ _ _ (proj1 Hx) (proj1 Hy) B) as [V FS]. split; [exact V|]. split; [exact FS|].
    assert (val x <= val (@fadd NumSF x y)); [|split; lra]. rewrite V. rewrite <- (rnd_id (val x)) at 1 by exact (format_val _ _ (proj1 Hx)). apply rnd_mono. lra.
  Qed.
  Lemma diff_ok : val (@fsub NumSF x y) = rnd64 (val x - val y) /\ finite_upto (bpow radix2 201) (@fsub NumSF x y) /\ Rabs (val (@fsub NumSF x y)) <= val (@fadd NumSF x y).
  Proof.
    destruct (size200 _ Hx) as [X1 X2], (size200 _ Hy) as [Y1 Y2].
    assert (B0 : Rabs (val x - val y) <= bpow radix2 200) by (apply Rabs_le; lra).
    assert (B : Rabs (val x - val y) <= bpow radix2 201) by (apply (Rle_trans _ _ _ B0); apply bpow_le; lia).
    destruct (sub_val 201 ltac:(lia) _ _ _ (proj1 Hx) (proj1 Hy) B) as [V FS]. split; [exact V|]. split; [exact FS|].
    destruct sum_ok as (VS & _). rewrite V, VS. apply rnd_abs_le. apply Rabs_le. lra.
  Qed.
  Lemma ratio_exact : val (ratio x y) = rnd64 (val (@fsub NumSF x y) / val (@fadd NumSF x y)) /\ finite_upto 1 (ratio x y).
  Proof.
    destruct sum_ok as (_ & S1 & _ & S2). destruct diff_ok as (_ & D1 & D2). unfold ratio.
    assert (B : Rabs (val (@fsub NumSF x y) / val (@fadd NumSF x y)) <= bpow radix2 0).
    { unfold Rdiv. rewrite Rabs_mult, (Rabs_pos_eq (/ _)) by (left; apply Rinv_0_lt_compat; exact S2). apply Rmult_le_reg_r with (val (@fadd NumSF x y)); [exact S2|].
      rewrite Rmult_assoc, Rinv_l, Rmult_1_r by lra. change (bpow radix2 0) with 1. lra. }
    destruct (div_val 0 ltac:(lia) _ _ _ _ D1 S1 ltac:(lra) B) as [V FR]. split; [exact V|exact FR].
  Qed.
End Ratio.
Lemma ratio_swap x y : sized x -> sized y -> val (ratio y x) = - val (ratio x y).
Proof.
  intros Hx Hy. destruct (ratio_exact x y Hx Hy) as [V1 _]. destruct (ratio_exact y x Hy Hx) as [V2 _]. rewrite V1, V2.
  destruct (sum_ok x y Hx Hy) as (S1 & _), (sum_ok y x Hy Hx) as (S2 & _), (diff_ok x y Hx Hy) as (D1 & _), (diff_ok y x Hy Hx) as (D2 & _).
  rewrite S1, S2, D1, D2, (Rplus_comm (val y)). replace (val y - val x) with (- (val x - val y)) by ring. rewrite rnd_opp.
  unfold Rdiv. rewrite Ropp_mult_distr_l_reverse. apply rnd_opp.
Qed.

(** half the sum of two squares *)
Lemma half_squares p q : finite_upto 1 p -> finite_upto 1 q -> let r := @fmul NumSF (flit 1 2) (@fadd NumSF (@fmul NumSF p p) (@fmul NumSF q q)) in
  val r = rnd64 (/ 2 * rnd64 (rnd64 (val p * val p) + rnd64 (val q * val q))) /\ finite_upto 1 r /\ 0 <= val r.
Proof.
  intros HP HQ. cbv zeta.
  assert (SQ : forall p : spec_float, finite_upto 1 p -> val (@fmul NumSF p p) = rnd64 (val p * val p) /\ finite_upto 1 (@fmul NumSF p p) /\ 0 <= val (@fmul NumSF p p)).
  { clear. intros p HP. assert (B : Rabs (val p * val p) <= bpow radix2 0). { rewrite Rabs_mult. replace (bpow radix2 0) with (1 * 1) by (change (bpow radix2 0) with 1; lra). destruct HP as (_ & _ & HP). apply Rmult_le_compat; try apply Rabs_pos; exact HP. }
    destruct (mul_val 0 ltac:(lia) _ _ _ _ HP HP B) as [V FV]. split; [exact V|]. split; [exact FV|]. rewrite V, <- rnd_0. apply rnd_mono. nra. }
  destruct (SQ p HP) as (P1 & P2 & P3). destruct (SQ q HQ) as (Q1 & Q2 & Q3).
  assert (B : Rabs (val (@fmul NumSF p p) + val (@fmul NumSF q q)) <= bpow radix2 1).
  { destruct P2 as (_ & _ & P2), Q2 as (_ & _ & Q2). apply Rabs_le_inv in P2, Q2. change (bpow radix2 1) with 2. apply Rabs_le. lra. }
  destruct (add_val 1 ltac:(lia) _ _ _ P2 Q2 B) as [V FV]. set (s := @fadd NumSF (@fmul NumSF p p) (@fmul NumSF q q)) in *. clearbody s.
  assert (S0 : 0 <= val s) by (rewrite V, <- rnd_0; apply rnd_mono; lra).
  assert (HV : val (@flit NumSF 1 2) = / 2). { unfold val, SF2R. change (@flit NumSF 1 2) with (S754_finite false 4503599627370496 (-53)). unfold F2R. cbn [Fnum Fexp cond_Zopp]. cbn. lra. }
  assert (HF : finite_upto 1 (@flit NumSF 1 2)) by (split; [reflexivity|split; [reflexivity|rewrite HV, Rabs_pos_eq; lra]]).
  assert (B' : Rabs (val (@flit NumSF 1 2) * val s) <= bpow radix2 0). { rewrite HV. destruct FV as (_ & _ & FV). change (bpow radix2 1) with 2 in FV. change (bpow radix2 0) with 1. apply Rabs_le_inv in FV. apply Rabs_le. lra. }
  destruct (mul_val 0 ltac:(lia) _ _ _ _ HF FV B') as [V' FV']. rewrite HV in V'. split; [rewrite V', V, P1, Q1; reflexivity|]. split; [exact FV'|]. rewrite V', <- rnd_0. apply rnd_mono. nra.
Qed.

(** ** the error of the ratio *)
Lemma over a b e : 0 < b -> Rabs a <= e * b -> Rabs (a / b) <= e.
Proof.
  intros Hb H. unfold Rdiv. rewrite Rabs_mult, (Rabs_pos_eq (/ b)) by (left; apply Rinv_0_lt_compat; exact Hb).
  apply Rmult_le_reg_r with b; [exact Hb|]. rewrite Rmult_assoc, Rinv_l, Rmult_1_r by lra. exact H.
Qed.
Lemma u_small : 0 < ulp1 <= 1 / 10 ^ 15. Proof. rewrite ulp1_val. lra. Qed.
Lemma ratio_inputs vx vy X Y : 0 < X -> 0 < Y -> Rabs (vx - X) <= ulp1 * X -> Rabs (vy - Y) <= ulp1 * Y ->
  Rabs ((vx - vy) / (vx + vy) - (X - Y) / (X + Y)) <= 101 / 100 * ulp1.
Proof.
  intros HX HY EX EY. pose proof u_small as U. set (u := ulp1) in *. clearbody u. apply Rabs_le_inv in EX, EY.
  assert (UX : u * X <= X / 10 ^ 15) by nra. assert (UY : u * Y <= Y / 10 ^ 15) by nra.
  assert (HS : X + Y <= 101 / 100 * (vx + vy)) by lra.
  replace ((vx - vy) / (vx + vy) - (X - Y) / (X + Y)) with ((2 * ((vx - X) * Y - (vy - Y) * X)) / ((vx + vy) * (X + Y))) by (field; lra).
  apply over; [apply Rmult_lt_0_compat; lra|]. set (a := vx - X) in *. set (b := vy - Y) in *.
  assert (A1 : Rabs (a * Y) <= u * X * Y) by (rewrite Rabs_mult, (Rabs_pos_eq Y) by lra; apply Rmult_le_compat_r; [lra|apply Rabs_le; lra]).
  assert (A2 : Rabs (b * X) <= u * Y * X) by (rewrite Rabs_mult, (Rabs_pos_eq X) by lra; apply Rmult_le_compat_r; [lra|apply Rabs_le; lra]).
  apply Rabs_le_inv in A1, A2. assert (N : Rabs (2 * (a * Y - b * X)) <= 4 * u * (X * Y)) by (apply Rabs_le; lra). apply (Rle_trans _ _ _ N).
  assert (HQ : 4 * (X * Y) <= (X + Y) * (X + Y)). { pose proof (Rle_0_sqr (X - Y)) as SQ. unfold Rsqr in SQ. lra. }
  assert (HW : (X + Y) * (X + Y) <= 101 / 100 * (vx + vy) * (X + Y)) by (apply Rmult_le_compat_r; [lra|exact HS]).
  assert (u * (4 * (X * Y)) <= u * (101 / 100 * (vx + vy) * (X + Y))) by (apply Rmult_le_compat_l; lra). lra.
Qed.
Lemma eta_tiny s : bpow radix2 (-200) <= s -> bpow radix2 (-1075) <= ulp1 / 1000 * s.
Proof.
  intros H. apply Rle_trans with (ulp1 / 1000 * bpow radix2 (-200)); [|apply Rmult_le_compat_l; [pose proof u_small; lra|exact H]].
  replace (bpow radix2 (-1075)) with (bpow radix2 (-875) * bpow radix2 (-200)) by (rewrite <- bpow_plus; reflexivity).
  apply Rmult_le_compat_r; [apply bpow_ge_0|]. apply Rle_trans with (bpow radix2 (-70)); [apply bpow_le; lia|]. rewrite ulp1_val. cbn. lra.
Qed.
Lemma ratio_error x y X Y : sized x -> sized y -> 0 < X -> 0 < Y -> Rabs (val x - X) <= ulp1 * X -> Rabs (val y - Y) <= ulp1 * Y ->
  Rabs (val (ratio x y) - (X - Y) / (X + Y)) <= 41 / 10 * ulp1.
Proof.
  intros Hx Hy HX HY EX EY. pose proof (ratio_inputs _ _ _ _ HX HY EX EY) as E1. destruct (ratio_exact x y Hx Hy) as [V1 (_ & _ & B1)].
  destruct (sum_ok x y Hx Hy) as (S1 & _ & _ & S2), (diff_ok x y Hx Hy) as (D1 & _ & D2).
  destruct (size200 _ Hx) as [X1 _], (size200 _ Hy) as [Y1 _].
  set (d := val (@fsub NumSF x y)) in *. set (s := val (@fadd NumSF x y)) in *. set (D := val x - val y) in *. set (S := val x + val y) in *.
  pose proof (rnd_abs S) as RS. pose proof (rnd_abs D) as RD. rewrite <- S1 in RS. rewrite <- D1 in RD.
  assert (SL : bpow radix2 (-200) <= S) by (destruct Hx as [_ Hx]; unfold S; lra). pose proof (eta_tiny S SL) as ET. pose proof u_small as U. set (u := ulp1) in *.
  assert (DS : Rabs D <= S) by (unfold D, S; apply Rabs_le; lra). rewrite (Rabs_pos_eq S) in RS by (unfold S; lra).
  assert (S0 : 0 < S) by (unfold S; lra). assert (US : 0 < u * S) by (apply Rmult_lt_0_compat; lra).
  assert (RD' : Rabs (d - D) <= 1002 / 1000 * u * S). { assert (u * Rabs D <= u * S) by (apply Rmult_le_compat_l; lra). lra. }
  assert (RS' : Rabs (s - S) <= 1002 / 1000 * u * S) by lra.
  assert (SS : S <= 1001 / 1000 * s). { assert (u * S <= S / 10 ^ 15) by nra. apply Rabs_le_inv in RS'. lra. }
  assert (E2 : Rabs (d / s - D / S) <= 201 / 100 * u).
  { replace (d / s - D / S) with (((d - D) - D / S * (s - S)) / s) by (field; lra). apply over; [exact S2|].
    assert (DQ : Rabs (D / S) <= 1) by (apply over; [exact S0|lra]).
    assert (T : Rabs (D / S * (s - S)) <= 1 * (1002 / 1000 * u * S)) by (rewrite Rabs_mult; apply Rmult_le_compat; try apply Rabs_pos; assumption).
    apply Rabs_le_inv in RD', T. assert (W : 2004 / 1000 * u * S <= 201 / 100 * u * s). { assert (u * S <= u * (1001 / 1000 * s)) by (apply Rmult_le_compat_l; lra). lra. }
    apply Rabs_le. lra. }
  assert (E3 : Rabs (val (ratio x y) - d / s) <= 101 / 100 * u).
  { rewrite V1. pose proof (rnd_near (d / s)) as RN. fold u in RN. assert (Rabs (d / s) <= 1) by (apply over; [exact S2|lra]). assert (u * Rabs (d / s) <= u * 1) by (apply Rmult_le_compat_l; lra). lra. }
  apply Rabs_le_inv in E1, E2, E3. apply Rabs_le. lra.
Qed.
Lemma square_error q Q e : Rabs (q - Q) <= e -> Rabs q <= 1 -> Rabs Q <= 1 -> Rabs (rnd64 (q * q) - Q * Q) <= 2 * e + 101 / 100 * ulp1.
Proof.
  intros H1 H2 H3. pose proof (rnd_near (q * q)) as RN. pose proof u_small as U. set (u := ulp1) in *.
  assert (Rabs (q * q) <= 1) by (rewrite Rabs_mult; replace 1 with (1 * 1) by ring; apply Rmult_le_compat; try apply Rabs_pos; assumption).
  assert (u * Rabs (q * q) <= u * 1) by (apply Rmult_le_compat_l; lra).
  assert (T : Rabs (q * q - Q * Q) <= 2 * e). { replace (q * q - Q * Q) with ((q + Q) * (q - Q)) by ring. rewrite Rabs_mult. apply Rmult_le_compat; try apply Rabs_pos; [|exact H1]. apply Rabs_le_inv in H2, H3. apply Rabs_le. lra. }
  apply Rabs_le_inv in RN, T. apply Rabs_le. lra.
Qed.

(** ** the theorems *)
(** a refraction index or a cosine: a float between 2^-90 and 2^90 *)
Definition optical (x : @F NumSF) : Prop := finite_upto (bpow radix2 90) x /\ bpow radix2 (-90) <= val x.
Lemma optical_pos x : optical x -> 0 < val x <= bpow radix2 90.
Proof. intros [(_ & _ & H1) H2]. pose proof (bpow_gt_0 radix2 (-90)). apply Rabs_le_inv in H1. lra. Qed.
Lemma to_sized (z : @F NumSF) r : bpow radix2 (-180) <= r <= bpow radix2 180 -> val z = rnd64 r -> finite_upto (bpow radix2 180) z -> sized z /\ 0 < r /\ Rabs (val z - r) <= ulp1 * r.
Proof.
  intros [R1 R2] V FZ. pose proof (bpow_gt_0 radix2 (-180)) as P. split; [split|split].
  - apply (finite_weaken _ _ _ FZ). apply bpow_le. lia.
  - apply Rle_trans with (bpow radix2 (-180)); [apply bpow_le; lia|]. rewrite V. rewrite <- (rnd_id (bpow radix2 (-180))) by (apply bpow_format; lia). apply rnd_mono. exact R1.
  - lra.
  - rewrite V. rewrite <- (Rabs_pos_eq r) at 3 by lra. apply rnd_rel. rewrite Rabs_pos_eq by lra. apply Rle_trans with (bpow radix2 (-180)); [apply bpow_le; lia|exact R1].
Qed.
Lemma optical_mul n c : optical n -> optical c -> sized (@fmul NumSF n c) /\ 0 < val n * val c /\ Rabs (val (@fmul NumSF n c) - val n * val c) <= ulp1 * (val n * val c).
Proof.
  intros Hn Hc. destruct (optical_pos _ Hn) as [N1 N2], (optical_pos _ Hc) as [C1 C2].
  assert (R : bpow radix2 (-180) <= val n * val c <= bpow radix2 180).
  { change (-180)%Z with (-90 + -90)%Z. change 180%Z with (90 + 90)%Z. rewrite !bpow_plus. destruct Hn as [_ Hn], Hc as [_ Hc]. pose proof (bpow_gt_0 radix2 (-90)). split; apply Rmult_le_compat; lra. }
  assert (B : Rabs (val n * val c) <= bpow radix2 180) by (rewrite Rabs_pos_eq; [lra|nra]).
  destruct (mul_val 180 ltac:(lia) _ _ _ _ (proj1 Hn) (proj1 Hc) B) as [V FV]. apply to_sized; assumption.
Qed.
Lemma optical_div n c : optical n -> optical c -> sized (@fdiv NumSF n c) /\ 0 < val n / val c /\ Rabs (val (@fdiv NumSF n c) - val n / val c) <= ulp1 * (val n / val c).
Proof.
  intros Hn Hc. destruct (optical_pos _ Hn) as [N1 N2], (optical_pos _ Hc) as [C1 C2].
  assert (I : bpow radix2 (-90) <= / val c <= bpow radix2 90).
  { destruct Hc as [_ Hc]. pose proof (bpow_gt_0 radix2 (-90)) as P. replace (bpow radix2 90) with (/ bpow radix2 (-90)) by (rewrite <- bpow_opp; reflexivity).
    replace (bpow radix2 (-90)) with (/ bpow radix2 90) at 1 by (rewrite <- bpow_opp; reflexivity). split; apply Rinv_le_contravar; lra. }
  assert (R : bpow radix2 (-180) <= val n / val c <= bpow radix2 180).
  { change (-180)%Z with (-90 + -90)%Z. change 180%Z with (90 + 90)%Z. rewrite !bpow_plus. destruct Hn as [_ Hn]. pose proof (bpow_gt_0 radix2 (-90)). unfold Rdiv. split; apply Rmult_le_compat; lra. }
  assert (B : Rabs (val n / val c) <= bpow radix2 180) by (pose proof (bpow_gt_0 radix2 (-180)); rewrite Rabs_pos_eq; lra).
  destruct (div_val 180 ltac:(lia) _ _ _ _ (proj1 Hn) (proj1 Hc) ltac:(lra) B) as [V FV]. apply to_sized; assumption.
Qed.
(** Fresnel's equations: the mean of the squares of the two amplitude ratios *)
Definition fresnel_exact (n1 c1 n2 c2 : R) : R :=
  (Rsqr ((n1 * c1 - n2 * c2) / (n1 * c1 + n2 * c2)) + Rsqr ((n1 * c2 - n2 * c1) / (n1 * c2 + n2 * c1))) / 2.

Theorem C20_binary64 : forall n1 c1 n2 c2 : @F NumSF, optical n1 -> optical c1 -> optical n2 -> optical c2 ->
  let r := @fresnel_reflectance NumSF n1 c1 n2 c2 in
  finite_upto 1 r /\ 0 <= val r <= 1 /\ Rabs (val r - fresnel_exact (val n1) (val c1) (val n2) (val c2)) <= 16 / 2 ^ 53 /\
  val (@fresnel_reflectance NumSF n2 c2 n1 c1) = val r.
Proof.
  intros n1 c1 n2 c2 H1 H2 H3 H4. cbv zeta. unfold fresnel_reflectance. cbv zeta. unfold fresnel_te, fresnel_tm.
  destruct (optical_mul n1 c1 H1 H2) as (X1 & X2 & X3), (optical_mul n2 c2 H3 H4) as (Y1 & Y2 & Y3).
  destruct (optical_div n1 c1 H1 H2) as (A1 & A2 & A3), (optical_div n2 c2 H3 H4) as (B1 & B2 & B3).
  fold (ratio (@fmul NumSF n1 c1) (@fmul NumSF n2 c2)). fold (ratio (@fmul NumSF n2 c2) (@fmul NumSF n1 c1)).
  fold (ratio (@fdiv NumSF n1 c1) (@fdiv NumSF n2 c2)). fold (ratio (@fdiv NumSF n2 c2) (@fdiv NumSF n1 c1)).
  destruct (ratio_exact _ _ X1 Y1) as [_ FE]. destruct (ratio_exact _ _ A1 B1) as [_ FM].
  destruct (ratio_exact _ _ Y1 X1) as [_ FE']. destruct (ratio_exact _ _ B1 A1) as [_ FM'].
  pose proof (ratio_error _ _ _ _ X1 Y1 X2 Y2 X3 Y3) as EE. pose proof (ratio_error _ _ _ _ A1 B1 A2 B2 A3 B3) as EM.
  pose proof (ratio_swap _ _ X1 Y1) as SE. pose proof (ratio_swap _ _ A1 B1) as SM.
  destruct (half_squares _ _ FM FE) as (V & FV & V0). destruct (half_squares _ _ FM' FE') as (V' & _ & _). cbv zeta in V, FV, V0, V'.
  set (te := ratio (@fmul NumSF n1 c1) (@fmul NumSF n2 c2)) in *. set (tm := ratio (@fdiv NumSF n1 c1) (@fdiv NumSF n2 c2)) in *.
  set (te' := ratio (@fmul NumSF n2 c2) (@fmul NumSF n1 c1)) in *. set (tm' := ratio (@fdiv NumSF n2 c2) (@fdiv NumSF n1 c1)) in *.
  set (r := @fmul NumSF (flit 1 2) (@fadd NumSF (@fmul NumSF tm tm) (@fmul NumSF te te))) in *.
  split; [exact FV|]. split; [destruct FV as (_ & _ & FV); apply Rabs_le_inv in FV; lra|]. split.
  2:{ rewrite V', V, SE, SM. replace (- val tm * - val tm) with (val tm * val tm) by ring. replace (- val te * - val te) with (val te * val te) by ring. reflexivity. }
  destruct (optical_pos _ H1) as [P1 _], (optical_pos _ H2) as [P2 _], (optical_pos _ H3) as [P3 _], (optical_pos _ H4) as [P4 _].
  set (QE := (val n1 * val c1 - val n2 * val c2) / (val n1 * val c1 + val n2 * val c2)) in *.
  set (QM := (val n1 / val c1 - val n2 / val c2) / (val n1 / val c1 + val n2 / val c2)) in *.
  assert (QM' : (val n1 * val c2 - val n2 * val c1) / (val n1 * val c2 + val n2 * val c1) = QM). { assert (Z1 : 0 < val n1 * val c2) by (apply Rmult_lt_0_compat; lra). assert (Z2 : 0 < val n2 * val c1) by (apply Rmult_lt_0_compat; lra). unfold QM. field. repeat split; lra. }
  assert (LE : Rabs QE <= 1) by (apply over; [lra|apply Rabs_le; lra]).
  assert (LM : Rabs QM <= 1) by (apply over; [lra|apply Rabs_le; lra]).
  destruct FE as (_ & _ & FE), FM as (_ & _ & FM).
  pose proof (square_error _ _ _ EE FE LE) as TE. pose proof (square_error _ _ _ EM FM LM) as TM.
  unfold fresnel_exact. fold QE. rewrite QM'. rewrite V. pose proof u_small as U.
  assert (SQE : 0 <= QE * QE <= 1) by (apply Rabs_le_inv in LE; nra). assert (SQM : 0 <= QM * QM <= 1) by (apply Rabs_le_inv in LM; nra).
  set (a := rnd64 (val tm * val tm)) in *. set (b := rnd64 (val te * val te)) in *. clearbody a b. unfold Rsqr.
  pose proof (rnd_near (a + b)) as R1. pose proof (rnd_near (/ 2 * rnd64 (a + b))) as R2. set (s := rnd64 (a + b)) in *. clearbody s. set (t := rnd64 (/ 2 * s)) in *. clearbody t.
  assert (UV : 16 / 2 ^ 53 = 16 * ulp1) by (rewrite ulp1_val; lra). rewrite UV. set (u := ulp1) in *. clearbody u.
  apply Rabs_le_inv in TE, TM. assert (AB : Rabs (a + b) <= 2 + 1 / 1000) by (apply Rabs_le; lra).
  assert (M1 : u * Rabs (a + b) <= u * (2 + 1 / 1000)) by (apply Rmult_le_compat_l; lra). apply Rabs_le_inv in R1.
  assert (AS : Rabs (/ 2 * s) <= 1 + 1 / 1000) by (apply Rabs_le_inv in AB; apply Rabs_le; lra).
  assert (M2 : u * Rabs (/ 2 * s) <= u * (1 + 1 / 1000)) by (apply Rmult_le_compat_l; lra). apply Rabs_le_inv in R2.
  apply Rabs_le. lra.
Qed.
(** glass and dielectrics: what is transmitted, 1 - r, is never negative either *)
Theorem C20_transmittance_binary64 : forall n1 c1 n2 c2 : @F NumSF, optical n1 -> optical c1 -> optical n2 -> optical c2 ->
  let t := @fsub NumSF f1 (@fresnel_reflectance NumSF n1 c1 n2 c2) in finite_upto 1 t /\ 0 <= val t <= 1.
Proof.
  intros n1 c1 n2 c2 H1 H2 H3 H4. destruct (C20_binary64 n1 c1 n2 c2 H1 H2 H3 H4) as (FR & R01 & _). cbv zeta.
  assert (V1 : val (@f1 NumSF) = 1). { unfold val, SF2R. change (@f1 NumSF) with (S754_finite false 4503599627370496 (-52)). unfold F2R. cbn [Fnum Fexp cond_Zopp]. cbn. lra. }
  assert (F1 : finite_upto 1 (@f1 NumSF)) by (split; [reflexivity|split; [reflexivity|rewrite V1, Rabs_pos_eq; lra]]).
  assert (B : Rabs (val (@f1 NumSF) - val (@fresnel_reflectance NumSF n1 c1 n2 c2)) <= bpow radix2 0) by (rewrite V1; change (bpow radix2 0) with 1; apply Rabs_le; lra).
  destruct (sub_val 0 ltac:(lia) _ _ _ F1 FR B) as [V FV]. split; [exact FV|]. destruct FV as (_ & _ & FV). apply Rabs_le_inv in FV. change (bpow radix2 0) with 1 in FV.
  split; [|lra]. rewrite V, <- rnd_0. apply rnd_mono. rewrite V1. lra.
Qed.
Example C20_binary64_case : optical (@flit NumSF 3 2) /\ optical (@flit NumSF 1 1000).
Proof.
  assert (V1 : val (@flit NumSF 3 2) = 3 / 2). { unfold val, SF2R. change (@flit NumSF 3 2) with (S754_finite false 6755399441055744 (-52)). unfold F2R. cbn [Fnum Fexp cond_Zopp]. cbn. lra. }
  assert (E2 : (@flit NumSF 1 1000 : spec_float) = S754_finite false 4611686018427388 (-62)) by (vm_compute; reflexivity).
  assert (V2 : val (@flit NumSF 1 1000) = 4611686018427388 / 2 ^ 62). { rewrite E2. unfold val, SF2R, F2R. cbn [Fnum Fexp cond_Zopp]. cbn. lra. }
  split; split; [split; [reflexivity|split; [reflexivity|rewrite V1, Rabs_pos_eq by lra; cbn; lra]]|rewrite V1; cbn; lra|split; [reflexivity|split; [reflexivity|rewrite V2, Rabs_pos_eq by lra; cbn; lra]]|rewrite V2; cbn; lra].
Qed.
Print Assumptions C20_binary64.
Print Assumptions C20_transmittance_binary64.
