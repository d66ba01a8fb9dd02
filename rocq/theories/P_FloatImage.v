(** * Property C29 in binary64: the RGBE pixel encoding with rounded arithmetic *)
From Coq Require Import ZArith SpecFloat Reals Lra Lia Psatz.
From Flocq Require Import Core BinarySingleNaN Relative.
From Verif Require Import Num NumR NumSF SFBridge FloatOps FloatRound Colour Text TextProofs Image SpecImage ImageProofs P_Image.
#[local] Existing Instance Hprec.
#[local] Existing Instance Hmax.
#[local] Existing Instance valid64.
Open Scope R_scope.

(** ** the vocabulary of the statement *)
Definition delta : R := / 2 ^ 40.
(** what is assumed of the platform's `log2`, `exp2` and `powi`: an error below 2^-40 where the encoder uses them, and exact
    powers of two for the decoder.  (f64::log2 and f64::exp2 are good to less than 2^-45 on these ranges.) *)
Definition log2_good (T : Trig NumSF) : Prop := forall x, finite_upto (2 ^ 126) x -> / 10 ^ 18 <= val x ->
  finite_upto 128 (@flog2 NumSF T x) /\ Rabs (val (@flog2 NumSF T x) - ln (val x) / ln 2) <= delta.
Definition exp2_good (T : Trig NumSF) : Prop := forall y, finite_upto 1 y -> val y <= 0 ->
  finite_upto 2 (@fexp2 NumSF T y) /\ Rabs (val (@fexp2 NumSF T y) - Rpower 2 (val y)) <= delta.
Definition powi_good (T : Trig NumSF) : Prop := forall n, (-135 <= n <= 119)%Z ->
  finite_upto (2 ^ 119) (@fexp2 NumSF T (@fofZ NumSF n)) /\ val (@fexp2 NumSF T (@fofZ NumSF n)) = Rpower 2 (IZR n).

(** ** real analysis *)
Lemma bpow_p2 z : bpow radix2 z = p2 z.
Proof. rewrite bpow_exp. unfold p2, Rpower. reflexivity. Qed.
Lemma delta_pos : 0 < delta. Proof. unfold delta. apply Rinv_0_lt_compat. lra. Qed.
Lemma delta_small : delta <= 1 / 1000000000000. Proof. unfold delta. lra. Qed.
Lemma ln2_le1 : ln 2 <= 1.
Proof. rewrite <- (ln_exp 1). apply Rlt_le, ln_increasing; [lra|]. pose proof (exp_ineq1 1 ltac:(lra)). lra. Qed.
Lemma exp_upper t : 0 <= t <= 1/2 -> exp t <= 1 + 2 * t.
Proof.
  intros [H1 H2]. assert (E : 1 - t <= exp (- t)) by (pose proof (exp_ineq1_le (- t)); lra). pose proof (exp_pos t) as P.
  assert (Q : exp t * exp (- t) = 1) by (rewrite <- exp_plus; replace (t + - t) with 0 by ring; apply exp_0). nra.
Qed.
Lemma pow2_near z : Rabs z <= 1/4 -> Rabs (Rpower 2 z - 1) <= 2 * Rabs z.
Proof.
  intros H. unfold Rpower. pose proof ln2_pos. pose proof ln2_le1. pose proof (exp_ineq1_le (z * ln 2)) as LO.
  destruct (Rle_or_lt 0 z) as [P|P].
  - rewrite (Rabs_pos_eq z) in * by exact P. pose proof (exp_upper (z * ln 2) ltac:(nra)). apply Rabs_le. nra.
  - rewrite (Rabs_left z) in * by exact P. assert (exp (z * ln 2) <= 1) by (rewrite <- exp_0; apply exp_le; nra). apply Rabs_le. nra.
Qed.
Lemma mantissa_near v L y x (k : Z) : 0 < v -> Rabs (L - lg v) <= delta -> Rabs (y - (L - IZR k - 1)) <= delta -> -1 <= y <= 0 ->
  Rabs (x - Rpower 2 y) <= delta -> Rabs (x * p2 (k + 1) / v - 1) <= 7 * delta.
Proof.
  intros V HL HY Y HX. pose proof delta_pos as D0. pose proof delta_small as D1.
  set (z := y + IZR (k + 1) - lg v). assert (Z1 : Rabs z <= 2 * delta).
  { unfold z. rewrite plus_IZR. apply Rabs_le_inv in HL. apply Rabs_le_inv in HY. apply Rabs_le. lra. }
  pose proof (pow2_near z ltac:(lra)) as PN.
  assert (W : Rpower 2 y * p2 (k + 1) = Rpower 2 z * v).
  { replace (Rpower 2 z * v) with (Rpower 2 z * Rpower 2 (lg v)) by (rewrite p2_lg by exact V; reflexivity). unfold p2. rewrite <- !Rpower_plus. f_equal. unfold z. ring. }
  assert (Y2 : 1/2 <= Rpower 2 y).
  { replace (1/2) with (Rpower 2 (- (1))); [apply Rle_Rpower; lra|]. rewrite Rpower_Ropp, Rpower_1 by lra. lra. }
  set (w := Rpower 2 y) in *. set (u := Rpower 2 z) in *. set (K := p2 (k + 1) / v).
  assert (K0 : w * K = u) by (unfold K; apply (Rmult_eq_reg_r v); [|lra]; rewrite <- W; field; lra).
  replace (x * p2 (k + 1) / v) with (x * K) by (unfold K; field; lra).
  apply Rabs_le_inv in PN. apply Rabs_le_inv in HX.
  assert (KP : 0 < K) by (unfold K; apply Rdiv_lt_0_compat; [apply p2_pos|exact V]).
  assert (K3 : K <= 5/2) by nra. apply Rabs_le. split; nra.
Qed.
Lemma scaled_near (x v q m : R) k e1 e2 : 0 < v -> Rabs (x * p2 (k + 1) / v - 1) <= 7 * delta -> q = 256 / v * (1 + e1) -> m = x * q * (1 + e2) ->
  Rabs e1 <= ulp1 -> Rabs e2 <= ulp1 -> Rabs (m * p2 (k - 7) - 1) <= 8 * delta.
Proof.
  intros V H -> -> E1 E2. assert (U : ulp1 <= delta / 100) by (unfold ulp1, delta; rewrite bpow_p2; replace (p2 (-53)) with (/ 2 ^ 53);
    [lra|rewrite <- (p2_nat 53); pose proof (p2_inv 53); pose proof (p2_pos 53); apply (Rmult_eq_reg_r (p2 (Z.of_nat 53))); [|apply Rgt_not_eq, p2_pos];
     rewrite Rinv_l by (apply Rgt_not_eq, p2_pos); symmetry; exact (p2_inv 53)]).
  pose proof delta_pos as D0. pose proof delta_small as D1.
  replace (x * (256 / v * (1 + e1)) * (1 + e2) * p2 (k - 7)) with ((x * p2 (k + 1) / v) * ((1 + e1) * (1 + e2))).
  2:{ replace (p2 (k + 1)) with (256 * p2 (k - 7)); [field; lra|]. replace 256 with (p2 8); [rewrite p2_plus; f_equal; lia|].
      change 8%Z with (Z.of_nat 8). rewrite p2_nat. lra. }
  apply Rabs_le_inv in H. apply Rabs_le_inv in E1. apply Rabs_le_inv in E2. set (a := x * p2 (k + 1) / v) in *.
  assert (B1 : 1 - 3 * (delta/100) <= (1 + e1) * (1 + e2) <= 1 + 3 * (delta/100)) by (split; nra). apply Rabs_le. split; nra.
Qed.
Lemma ulp_delta : ulp1 <= delta / 100.
Proof.
  unfold ulp1, delta. rewrite bpow_p2. replace (p2 (-53)) with (/ 2 ^ 53); [lra|].
  rewrite <- (p2_nat 53). apply (Rmult_eq_reg_r (p2 (Z.of_nat 53))); [|apply Rgt_not_eq, p2_pos].
  rewrite Rinv_l by (apply Rgt_not_eq, p2_pos). symmetry. exact (p2_inv 53).
Qed.
Lemma sub_delta : bpow radix2 (-1075) <= delta / 100.
Proof. apply Rle_trans with ulp1; [|exact ulp_delta]. unfold ulp1. apply bpow_le. lia. Qed.
Lemma one_float : (@f1 NumSF : spec_float) = sf_ofZ 1.
Proof. vm_compute. reflexivity. Qed.
Lemma one_val : val (@f1 NumSF) = 1 /\ finite_upto 1 (@f1 NumSF).
Proof.
  destruct (ofZ_val 1 ltac:(lia)) as (V & FV). change (@fofZ NumSF 1) with (sf_ofZ 1) in *. rewrite one_float. split; [exact V|].
  refine (finite_weaken _ _ _ FV _). rewrite Rabs_pos_eq; lra.
Qed.
Lemma zero_float : (@f0 NumSF : spec_float) = S754_zero false.
Proof. vm_compute. reflexivity. Qed.
Lemma p2_nat_bpow n : bpow radix2 (Z.of_nat n) = 2 ^ n.
Proof. rewrite bpow_p2. apply p2_nat. Qed.

Section Encoder.
  Context {T : Trig NumSF}.
  Hypothesis HL : log2_good T.
  Hypothesis HE : exp2_good T.
  Lemma frexp64 v : finite_upto (2 ^ 126) v -> / 10 ^ 18 <= val v ->
    exists k x, @rusty_frexp NumSF T v = (x, (k + 1)%Z) /\ finite_upto 2 x /\ Rabs (val x * p2 (k + 1) / val v - 1) <= 7 * delta /\
      p2 k <= val v * (1 + 2 * delta) /\ val v <= p2 (k + 1) * (1 + 2 * delta) /\ (-61 <= k <= 126)%Z.
  Proof.
    intros HV V0. pose proof delta_pos as D0. pose proof delta_small as D1. pose proof ulp_delta as U1. pose proof sub_delta as S1.
    assert (VP : 0 < val v) by (assert (0 < / 10 ^ 18) by (apply Rinv_0_lt_compat; lra); lra).
    unfold rusty_frexp, fsignum. rewrite zero_float.
    assert (Q1 : @feqb NumSF (S754_zero false) v = false) by (destruct v as [s|s| |s m e]; unfold val in VP; cbn in VP; try lra; destruct s; reflexivity).
    assert (Q2 : @fabs NumSF v = v). { destruct v as [s|s| |s m e]; unfold val in VP; cbn [SF2R] in VP; try lra. destruct s; [|reflexivity]. exfalso.
      assert (F2R (Float radix2 (cond_Zopp true (Zpos m)) e) < 0) by (apply F2R_lt_0; reflexivity). lra. }
    assert (Q3 : @fltb NumSF v (S754_zero false) = false). { destruct v as [s|s| |s m e]; unfold val in VP; cbn [SF2R] in VP; try lra. destruct s; [|reflexivity]. exfalso.
      assert (F2R (Float radix2 (cond_Zopp true (Zpos m)) e) < 0) by (apply F2R_lt_0; reflexivity). lra. }
    rewrite Q1, Q2, Q3. destruct (HL v HV V0) as (FL & EL). set (l := @flog2 NumSF T v) in *. fold (lg (val v)) in EL.
    assert (LB : lg (val v) <= 126).
    { destruct HV as (_ & _ & HV). rewrite Rabs_pos_eq in HV by lra.
      destruct (Rle_lt_or_eq_dec _ _ HV) as [C|C].
      - apply Rnot_lt_le. intros C'. pose proof (Rpower_lt 2 _ _ ltac:(lra) C') as PW. rewrite p2_lg in PW by exact VP.
        replace 126 with (INR 126) in PW by (rewrite INR_IZR_INZ; reflexivity). rewrite Rpower_pow in PW by lra. lra.
      - unfold lg. rewrite C. apply Req_le. rewrite <- Rpower_pow by lra. unfold Rpower. rewrite ln_exp. rewrite INR_IZR_INZ. cbn [Z.of_nat]. pose proof ln2_pos. simpl. field. lra. }
    assert (LA : -60 <= lg (val v)).
    { apply Rnot_lt_le. intros C. pose proof (Rpower_lt 2 _ _ ltac:(lra) C) as PW. rewrite p2_lg in PW by exact VP.
      replace (-60) with (- INR 60) in PW by (rewrite INR_IZR_INZ; simpl; lra). rewrite Rpower_Ropp, Rpower_pow in PW by lra.
      assert (/ 2 ^ 60 <= / 10 ^ 18) by (apply Rinv_le_contravar; lra). lra. }
    assert (M52 : 128 <= bpow radix2 52) by (change 52%Z with (Z.of_nat 52); rewrite p2_nat_bpow; lra).
    destruct (ffloor_val _ _ FL M52) as (KV & FK). set (fl := @ffloor NumSF l) in *. set (k := Zfloor (val l)) in *.
    pose proof (Zfloor_lb (val l)) as KL. pose proof (Zfloor_ub (val l)) as KU. fold k in KL, KU. apply Rabs_le_inv in EL.
    assert (KR : (-61 <= k <= 126)%Z).
    { split; [apply Zfloor_lub; lra|]. apply Z.lt_succ_r. apply lt_IZR. cbn [Z.succ]. unfold Z.succ. simpl (126 + 1)%Z. lra. }
    assert (KI : -61 <= IZR k <= 126) by (split; apply IZR_le; lia).
    (* lg - floor lg *)
    assert (B1 : Rabs (val l - val fl) <= bpow radix2 0) by (rewrite KV; apply Rabs_le; cbn [bpow]; lra).
    destruct (sub_val 0 ltac:(lia) (bpow radix2 52) l fl (finite_weaken _ _ _ FL M52) FK B1) as (SV & FS). rewrite KV in SV.
    set (s1 := @fsub NumSF l fl) in *. destruct one_val as (OV & OF).
    assert (R01 : 0 <= val s1 <= 1).
    { rewrite SV. split; [replace 0 with (rnd64 (IZR 0)) by (apply rnd_int; lia)|replace 1 with (rnd64 (IZR 1)) by (apply rnd_int; lia)]; apply rnd_le; simpl; lra. }
    pose proof (rnd_abs (val l - IZR k)) as ER. rewrite <- SV in ER. rewrite (Rabs_pos_eq (val l - IZR k)) in ER by lra.
    assert (ER' : Rabs (val s1 - (val l - IZR k)) <= delta / 50) by nra.
    cbn [bpow] in FS. assert (B2 : Rabs (val s1 - val (@f1 NumSF)) <= bpow radix2 0) by (rewrite OV; apply Rabs_le; cbn [bpow]; lra).
    destruct (sub_val 0 ltac:(lia) 1 s1 (@f1 NumSF) FS OF B2) as (YV & FY). rewrite OV in YV. set (y := @fsub NumSF s1 (@f1 NumSF)) in *.
    assert (YR : -1 <= val y <= 0).
    { rewrite YV. split; [replace (-1) with (rnd64 (IZR (-1))) by (apply rnd_int; lia)|replace 0 with (rnd64 (IZR 0)) by (apply rnd_int; lia)]; apply rnd_le; simpl; lra. }
    pose proof (rnd_abs (val s1 - 1)) as EY. rewrite <- YV in EY. rewrite (Rabs_left1 (val s1 - 1)) in EY by lra.
    assert (EY' : Rabs (val y - (val s1 - 1)) <= delta / 50) by nra.
    cbn [bpow] in FY. destruct (HE y FY (proj2 YR)) as (FX & EX). set (x := @fexp2 NumSF T y) in *.
    (* signum times x *)
    assert (B3 : Rabs (val (@f1 NumSF) * val x) <= bpow radix2 1) by (rewrite OV, Rmult_1_l; destruct FX as (_ & _ & FX); change (bpow radix2 1) with 2; exact FX).
    destruct (mul_val 1 ltac:(lia) 1 2 (@f1 NumSF) x OF FX B3) as (MV & FM). rewrite OV, Rmult_1_l, (rnd_id _ _ FX) in MV. change (bpow radix2 1) with 2 in FM.
    (* the exponent *)
    assert (B4 : Rabs (val fl + val (@f1 NumSF)) <= bpow radix2 52) by (rewrite KV, OV; apply Rabs_le; lra).
    assert (O52 : 1 <= bpow radix2 52) by lra.
    destruct (add_val 52 ltac:(lia) (bpow radix2 52) fl (@f1 NumSF) FK (finite_weaken _ _ _ OF O52) B4) as (AV & FA).
    rewrite KV, OV in AV. rewrite <- (plus_IZR k 1) in AV. rewrite rnd_int in AV by lia.
    exists k, (@fmul NumSF (@f1 NumSF) x). split.
    { f_equal. unfold sat_i32. rewrite (trunc_val _ _ _ _ FA) by lia. rewrite AV, Ztrunc_IZR. lia. }
    split; [exact FM|]. rewrite MV. split.
    { apply (mantissa_near (val v) (val l) (val y) (val x) k VP); [apply Rabs_le; lra| |exact YR|exact EX].
      apply Rabs_le_inv in ER'. apply Rabs_le_inv in EY'. apply Rabs_le. lra. }
    assert (PK : p2 k <= val v * (1 + 2 * delta)).
    { assert (p2 k <= Rpower 2 (lg (val v) + delta)) as C by (unfold p2; apply Rle_Rpower; lra). rewrite Rpower_plus, p2_lg in C by exact VP.
      pose proof (pow2_near delta ltac:(rewrite Rabs_pos_eq; lra)) as PN. rewrite (Rabs_pos_eq delta) in PN by lra. apply Rabs_le_inv in PN. nra. }
    assert (PK2 : val v <= p2 (k + 1) * (1 + 2 * delta)).
    { assert (Rpower 2 (lg (val v)) <= Rpower 2 (IZR (k + 1) + delta)) as C by (apply Rle_Rpower; rewrite ?plus_IZR; lra). rewrite Rpower_plus, p2_lg in C by exact VP.
      pose proof (pow2_near delta ltac:(rewrite Rabs_pos_eq; lra)) as PN. rewrite (Rabs_pos_eq delta) in PN by lra. apply Rabs_le_inv in PN.
      pose proof (p2_pos (k + 1)) as P0. fold (p2 (k + 1)) in C. nra. }
    repeat split; try assumption; lia.
  Qed.
End Encoder.

Lemma rel_form x : bpow radix2 (-1022) <= Rabs x -> exists e, Rabs e <= ulp1 /\ rnd64 x = x * (1 + e).
Proof.
  intros H. pose proof (rnd_rel x H) as R. assert (X : x <> 0) by (intros ->; rewrite Rabs_R0 in H; pose proof (bpow_gt_0 radix2 (-1022)); lra).
  exists ((rnd64 x - x) / x). split; [|field; exact X]. unfold Rdiv. rewrite Rabs_mult, Rabs_inv.
  apply (Rmult_le_reg_r (Rabs x)); [apply Rabs_pos_lt; exact X|]. rewrite Rmult_assoc, Rinv_l by (apply Rabs_no_R0; exact X). lra.
Qed.
Lemma c256_float : (@flit NumSF 256 1 : spec_float) = sf_ofZ 256.
Proof. vm_compute. reflexivity. Qed.
Lemma c256_val : val (@flit NumSF 256 1) = 256 /\ finite_upto 256 (@flit NumSF 256 1).
Proof.
  destruct (ofZ_val 256 ltac:(lia)) as (V & FV). change (@fofZ NumSF 256) with (sf_ofZ 256) in *. rewrite c256_float. split; [exact V|].
  refine (finite_weaken _ _ _ FV _). rewrite Rabs_pos_eq; lra.
Qed.
Lemma tiny_bpow : bpow radix2 (-1022) <= / 2 ^ 126.
Proof. rewrite <- (p2_nat_bpow 126), <- bpow_opp. apply bpow_le. lia. Qed.

(** the factor that takes channels to bytes *)
Lemma factor64 v x k : finite_upto (2 ^ 126) v -> / 10 ^ 18 <= val v -> finite_upto 2 x -> Rabs (val x * p2 (k + 1) / val v - 1) <= 7 * delta ->
  val v <= p2 (k + 1) * (1 + 2 * delta) -> p2 k <= val v * (1 + 2 * delta) ->
  exists m, @fmul NumSF x (@fdiv NumSF (@flit NumSF 256 1) v) = m /\ finite_upto (bpow radix2 70) m /\ Rabs (val m * p2 (k - 7) - 1) <= 8 * delta.
Proof.
  intros HV V0 HX HM VU VL. pose proof delta_pos as D0. pose proof delta_small as D1. pose proof ulp_delta as U1.
  assert (VP : 0 < val v) by (assert (0 < / 10 ^ 18) by (apply Rinv_0_lt_compat; lra); lra).
  destruct c256_val as (CV & CF). assert (VB : val v <= 2 ^ 126) by (destruct HV as (_ & _ & HV); rewrite Rabs_pos_eq in HV by lra; exact HV).
  assert (IV : / 2 ^ 126 <= / val v <= 10 ^ 18).
  { split; [apply Rinv_le_contravar; [exact VP|exact VB]|]. rewrite <- (Rinv_inv (10 ^ 18)). apply Rinv_le_contravar; [apply Rinv_0_lt_compat; lra|exact V0]. }
  assert (I0 : 0 < / 2 ^ 126) by (apply Rinv_0_lt_compat; apply pow_lt; lra).
  assert (B68 : bpow radix2 68 = 2 ^ 68) by exact (p2_nat_bpow 68). assert (B70 : bpow radix2 70 = 2 ^ 70) by exact (p2_nat_bpow 70).
  assert (Q1 : Rabs (val (@flit NumSF 256 1) / val v) <= bpow radix2 68).
  { rewrite CV, B68. unfold Rdiv. rewrite Rabs_pos_eq by nra. lra. }
  destruct (div_val 68 ltac:(lia) 256 (2 ^ 126) (@flit NumSF 256 1) v CF HV ltac:(lra) Q1) as (QV & QF). rewrite CV in QV.
  set (q := @fdiv NumSF (@flit NumSF 256 1) v) in *.
  destruct (rel_form (256 / val v)) as (e1 & E1 & E1').
  { pose proof tiny_bpow. unfold Rdiv. rewrite Rabs_pos_eq by nra. lra. }
  rewrite E1' in QV.
  assert (XL : 2/5 <= val x).
  { apply Rabs_le_inv in HM. set (K := p2 (k + 1) / val v). assert (KK : val x * p2 (k + 1) / val v = val x * K) by (unfold K; field; lra). rewrite KK in HM.
    assert (K2 : p2 (k + 1) = 2 * p2 k) by (rewrite <- (p2_plus k 1); change 1%Z with (Z.of_nat 1); rewrite p2_nat; lra).
    assert (KU : K <= 2 * (1 + 2 * delta)). { unfold K. rewrite K2. apply (Rmult_le_reg_r (val v)); [exact VP|]. replace (2 * p2 k / val v * val v) with (2 * p2 k) by (field; lra). lra. }
    assert (K0 : 0 < K) by (unfold K; apply Rdiv_lt_0_compat; [apply p2_pos|exact VP]). nra. }
  assert (XU : val x <= 2) by (destruct HX as (_ & _ & HX); rewrite Rabs_pos_eq in HX by lra; exact HX).
  apply Rabs_le_inv in E1 as E1b. 
  assert (QP : / 2 ^ 126 <= val q /\ val q <= 2 ^ 68).
  { destruct QF as (_ & _ & QF). rewrite B68 in QF. split; [|apply Rabs_le_inv in QF; lra]. rewrite QV. unfold Rdiv. nra. }
  assert (MB : Rabs (val x * val q) <= bpow radix2 70) by (rewrite B70, Rabs_pos_eq by nra; nra).
  destruct (mul_val 70 ltac:(lia) 2 (bpow radix2 68) x q HX QF MB) as (MV & MF).
  destruct (rel_form (val x * val q)) as (e2 & E2 & E2').
  { pose proof (bpow_le radix2 (-1022) (- (Z.of_nat 128)) ltac:(lia)) as TB. rewrite bpow_opp, p2_nat_bpow in TB.
    assert (/ 2 ^ 128 = / 2 ^ 126 * / 4) by (replace (2 ^ 128) with (2 ^ 126 * 4) by ring; apply Rinv_mult).
    rewrite Rabs_pos_eq by nra. nra. }
  exists (@fmul NumSF x q). split; [reflexivity|]. split; [exact MF|].
  apply (scaled_near (val x) (val v) (val q) _ k e1 e2 VP HM QV); [rewrite MV; exact E2'|exact E1|exact E2].
Qed.

(** one channel, written as a byte and read back *)
Definition byte_back (c m : spec_float) : Z := @sat_u8 NumSF (@ffloor NumSF (@fmul NumSF c m)).
Definition channel_close (v c d : R) : Prop := d - v / 2 ^ 30 <= c <= d + v / 128 * (1 + / 2 ^ 20).
Lemma byte_close v c m k : finite_upto (2 ^ 126) c -> 0 <= val c <= v -> finite_upto (bpow radix2 70) m -> Rabs (val m * p2 (k - 7) - 1) <= 8 * delta ->
  v <= p2 (k + 1) * (1 + 2 * delta) -> p2 k <= v * (1 + 2 * delta) ->
  (0 <= byte_back c m <= 255)%Z /\ channel_close v (val c) (IZR (byte_back c m) * p2 (k - 7)).
Proof.
  intros HC C0 HM MN VU VL. pose proof delta_pos as D0. pose proof delta_small as D1. pose proof ulp_delta as U1. pose proof sub_delta as S1.
  set (h := p2 (k - 7)) in *. assert (H0 : 0 < h) by apply p2_pos.
  assert (K1 : p2 (k + 1) = 256 * h).
  { unfold h. replace 256 with (p2 8) by (change 8%Z with (Z.of_nat 8); rewrite p2_nat; lra). rewrite p2_plus. f_equal. lia. }
  assert (K2 : p2 k = 128 * h).
  { unfold h. replace 128 with (p2 7) by (change 7%Z with (Z.of_nat 7); rewrite p2_nat; lra). rewrite p2_plus. f_equal. lia. }
  rewrite K1 in VU. rewrite K2 in VL.
  set (s := val c / h). assert (SC : val c = s * h) by (unfold s; field; lra).
  assert (SU : 0 <= s <= 256 * (1 + 2 * delta)).
  { split; [unfold s; apply Rmult_le_pos; [lra|apply Rlt_le, Rinv_0_lt_compat; exact H0]|]. apply (Rmult_le_reg_r h); [exact H0|]. rewrite <- SC. nra. }
  apply Rabs_le_inv in MN. set (mu := val m * h) in *.
  assert (CM : val c * val m = s * mu) by (unfold mu; rewrite SC; ring).
  assert (CMB : 0 <= s * mu <= 300) by (split; nra).
  assert (B9 : bpow radix2 9 = 512) by (change 9%Z with (Z.of_nat 9); rewrite p2_nat_bpow; lra).
  assert (PB : Rabs (val c * val m) <= bpow radix2 9) by (rewrite CM, B9, Rabs_pos_eq; lra).
  destruct (mul_val 9 ltac:(lia) (2 ^ 126) (bpow radix2 70) c m HC HM PB) as (PV & PF). rewrite CM in PV.
  pose proof (rnd_abs (s * mu)) as PE. rewrite <- PV in PE. rewrite (Rabs_pos_eq (s * mu)) in PE by lra.
  assert (P0 : 0 <= val (@fmul NumSF c m)). { rewrite PV. replace 0 with (rnd64 (IZR 0)) by (apply rnd_int; lia). apply rnd_le. simpl. lra. }
  unfold byte_back. set (p := @fmul NumSF c m) in *.
  assert (PS : Rabs (val p - s) <= 3000 * delta).
  { assert (Rabs (s * mu - s) <= 2100 * delta) by (apply Rabs_le; split; nra).
    apply Rabs_le_inv in PE. apply Rabs_le_inv in H. apply Rabs_le. split; nra. }
  assert (B52 : bpow radix2 9 <= bpow radix2 52) by (apply bpow_le; lia).
  destruct (ffloor_val _ _ PF B52) as (FV & FF). unfold sat_u8. rewrite (trunc_val _ _ _ _ FF) by lia. rewrite FV, Ztrunc_IZR.
  pose proof (Zfloor_lb (val p)) as ZL. pose proof (Zfloor_ub (val p)) as ZU.
  assert (Z0 : (0 <= Zfloor (val p))%Z) by (apply Zfloor_lub; exact P0).
  set (n := Zfloor (val p)) in *. rewrite Z.max_r by lia. split; [lia|].
  apply Rabs_le_inv in PS. unfold channel_close.
  assert (DL : delta = / 2 ^ 40) by reflexivity.
  assert (NL : IZR (Z.min 255 n) <= s + 3000 * delta) by (apply Rle_trans with (IZR n); [apply IZR_le; lia|lra]).
  assert (NU : s <= IZR (Z.min 255 n) + 1 + 4000 * delta).
  { destruct (Z.le_gt_cases n 255) as [C|C]; [rewrite Z.min_r by lia; lra|]. rewrite Z.min_l by lia. lra. }
  assert (VH : 128 * h <= v * (1 + 2 * delta)) by exact VL. assert (V0 : 0 <= v) by lra.
  rewrite SC. set (w := IZR (Z.min 255 n)) in *. split.
  - assert (w * h <= s * h + 3000 * delta * h) by nra. assert (3000 * delta * h <= v / 2 ^ 30) by (rewrite DL in *; nra). lra.
  - assert (s * h <= w * h + (1 + 4000 * delta) * h) by nra. assert ((1 + 4000 * delta) * h <= v / 128 * (1 + / 2 ^ 20)) by (rewrite DL in *; nra). lra.
Qed.

(** the brightest channel *)
Lemma pick B (a b : @F NumSF) : finite_upto B a -> finite_upto B b -> exists m, (if @fltb NumSF a b then b else a) = m /\ finite_upto B m /\ val m = Rmax (val a) (val b).
Proof.
  intros Ha Hb. rewrite (ltb_val _ _ _ Ha Hb). destruct (Rlt_bool_spec (val a) (val b)) as [C|C].
  - exists b. rewrite Rmax_right by lra. repeat split; apply Hb.
  - exists a. rewrite Rmax_left by lra. repeat split; apply Ha.
Qed.
Lemma tiny_lit : (@flit NumSF 1 (10 ^ 19) : spec_float) = S754_finite false 8307674973655724 (-116).
Proof. vm_compute. reflexivity. Qed.
Lemma tiny_val : finite_upto 1 (@flit NumSF 1 (10 ^ 19)) /\ / 10 ^ 20 < val (@flit NumSF 1 (10 ^ 19)) < / 10 ^ 18.
Proof.
  rewrite tiny_lit. assert (V : val (S754_finite false 8307674973655724 (-116)) = 8307674973655724 * / 2 ^ 116).
  { unfold val, SF2R, F2R. cbn [cond_Zopp Fnum Fexp]. rewrite <- (p2_nat_bpow 116). change (-116)%Z with (- Z.of_nat 116)%Z. rewrite bpow_opp. reflexivity. }
  assert (R : / 10 ^ 20 < 8307674973655724 * / 2 ^ 116 < / 10 ^ 18).
  { split; [apply (Rmult_lt_reg_r (10 ^ 20 * 2 ^ 116))|apply (Rmult_lt_reg_r (10 ^ 18 * 2 ^ 116))]; try lra. }
  split; [|rewrite V; exact R]. split; [reflexivity|]. split; [reflexivity|]. rewrite V, Rabs_pos_eq by lra. lra.
Qed.

(** the channel d of a colour that is read back is a non-negative number (not an infinity or NaN) close to the stored channel c *)
Definition reads_back (v : R) (c d : @F NumSF) : Prop := finite_upto (2 ^ 127) d /\ 0 <= val d /\ channel_close v (val c) (val d).
(** ** C29 in binary64: a colour of finite, non-negative channels, the brightest between 1e-18 and 2^126, comes back with every channel
    at most (a hair more than) one 128th of the brightest one too low, and not too high *)
Theorem C29_binary64 : forall T, log2_good T -> exp2_good T -> powi_good T ->
  forall r g b, finite_upto (2 ^ 126) r -> finite_upto (2 ^ 126) g -> finite_upto (2 ^ 126) b -> 0 <= val r -> 0 <= val g -> 0 <= val b ->
  let v := Rmax (Rmax (val r) (val g)) (val b) in
  let d := @through_rgbe NumSF T (@mkS NumSF r g b) in
  (/ 10 ^ 18 <= v -> reads_back v r (sr d) /\ reads_back v g (sg d) /\ reads_back v b (sb d)) /\
  (v <= / 10 ^ 20 -> d = BLACK).
Proof.
  intros T HL HE HP r g b Fr Fg Fb R0 G0 B0 v d. unfold d, through_rgbe, colour_to_rgbe. cbn [sr sg sb]. cbv zeta.
  destruct (pick _ _ _ Fr Fg) as (m1 & -> & F1 & V1). destruct (pick _ _ _ F1 Fb) as (t & -> & Ft & Vt). rewrite V1 in Vt. fold v in Vt.
  destruct tiny_val as (TF & TL & TU).
  assert (ONE : 1 <= 2 ^ 126) by (apply pow_R1_Rle; lra).
  rewrite (ltb_val _ _ _ Ft (finite_weaken _ _ _ TF ONE)), Vt.
  split; intros HV.
  2:{ rewrite Rlt_bool_true by lra. reflexivity. }
  rewrite Rlt_bool_false by lra. rewrite <- Vt in HV.
  destruct (frexp64 HL HE t Ft HV) as (k & x & -> & Fx & Mx & VL & VU & KR).
  destruct (factor64 t x k Ft HV Fx Mx VU VL) as (m & -> & Fm & Mm).
  assert (W : val r <= val t /\ val g <= val t /\ val b <= val t).
  { rewrite Vt. unfold v. pose proof (Rmax_l (val r) (val g)). pose proof (Rmax_r (val r) (val g)). pose proof (Rmax_l (Rmax (val r) (val g)) (val b)). pose proof (Rmax_r (Rmax (val r) (val g)) (val b)). lra. }
  destruct W as (Wr & Wg & Wb).
  destruct (byte_close (val t) r m k Fr (conj R0 Wr) Fm Mm VU VL) as (Br & Cr).
  destruct (byte_close (val t) g m k Fg (conj G0 Wg) Fm Mm VU VL) as (Bg & Cg).
  destruct (byte_close (val t) b m k Fb (conj B0 Wb) Fm Mm VU VL) as (Bb & Cb).
  fold (byte_back r m) (byte_back g m) (byte_back b m).
  assert (E : byte_val (byte_of (k + 1 + 128)) = (k + 129)%Z) by (rewrite byte_val_of; replace (k + 1 + 128)%Z with (k + 129)%Z by lia; apply Z.mod_small; lia).
  assert (Er : byte_val (byte_of (byte_back r m)) = byte_back r m) by (rewrite byte_val_of; apply Z.mod_small; lia).
  assert (Eg : byte_val (byte_of (byte_back g m)) = byte_back g m) by (rewrite byte_val_of; apply Z.mod_small; lia).
  assert (Eb : byte_val (byte_of (byte_back b m)) = byte_back b m) by (rewrite byte_val_of; apply Z.mod_small; lia).
  unfold rgbe_to_colour. rewrite E, Er, Eg, Eb. destruct (Z.eqb_spec (k + 129) 0) as [C|_]; [lia|].
  unfold rusty_ldexp. replace (k + 129 - (128 + 8))%Z with (k - 7)%Z by lia.
  destruct (HP (k - 7)%Z ltac:(lia)) as (Fp & Vp). fold (p2 (k - 7)) in Vp.
  assert (B119 : bpow radix2 119 = 2 ^ 119) by exact (p2_nat_bpow 119). assert (B127 : bpow radix2 127 = 2 ^ 127) by exact (p2_nat_bpow 127).
  destruct one_val as (OV & OF).
  assert (B3 : Rabs (val (@f1 NumSF) * val (@fexp2 NumSF T (@fofZ NumSF (k - 7)))) <= bpow radix2 119).
  { rewrite OV, Rmult_1_l, B119. destruct Fp as (_ & _ & Fp). exact Fp. }
  destruct (mul_val 119 ltac:(lia) 1 (2 ^ 119) (@f1 NumSF) _ OF Fp B3) as (MV & FM). rewrite OV, Rmult_1_l, (rnd_id _ _ Fp), Vp in MV.
  set (f := @fmul NumSF (@f1 NumSF) (@fexp2 NumSF T (@fofZ NumSF (k - 7)))) in *.
  assert (BACK : forall n, (0 <= n <= 255)%Z -> val (@fmul NumSF (@fofZ NumSF n) f) = IZR n * p2 (k - 7) /\ finite_upto (2 ^ 127) (@fmul NumSF (@fofZ NumSF n) f) /\ 0 <= IZR n * p2 (k - 7)).
  { intros n Hn. destruct (ofZ_val n ltac:(lia)) as (NV & NF).
    assert (NB : 0 <= IZR n <= 255) by (split; apply IZR_le; lia).
    assert (P7 : 0 < p2 (k - 7) <= 2 ^ 119) by (split; [apply p2_pos|rewrite <- (p2_nat 119); apply p2_le; lia]).
    assert (PB : Rabs (val (@fofZ NumSF n) * val f) <= bpow radix2 127).
    { rewrite NV, MV, B127, Rabs_pos_eq by nra. replace (2 ^ 127) with (256 * 2 ^ 119) by ring. nra. }
    destruct (mul_val 127 ltac:(lia) _ _ _ _ NF FM PB) as (PV & PF). rewrite B127 in PF. split; [|split; [exact PF|nra]]. rewrite PV, NV, MV.
    apply round_generic; [apply valid_rnd_N|]. change fexp64 with (FLT_exp (3 - 1024 - 53) 53). apply generic_format_FLT.
    exists (Float radix2 n (k - 7)); [unfold F2R; cbn [Fnum Fexp]; rewrite bpow_p2; reflexivity| |cbn [Fexp]; lia].
    cbn [Fnum]. change (Zpower radix2 53) with (2 ^ 53)%Z. lia. }
  cbn [sr sg sb]. rewrite Vt in Cr, Cg, Cb. destruct (BACK _ Br) as (Vr & Qr & Nr), (BACK _ Bg) as (Vg & Qg & Ng), (BACK _ Bb) as (Vb & Qb & Nb).
  unfold reads_back. rewrite Vr, Vg, Vb. exact (conj (conj Qr (conj Nr Cr)) (conj (conj Qg (conj Ng Cg)) (conj Qb (conj Nb Cb)))).
Qed.
Print Assumptions C29_binary64.

(** ** the hypotheses can be met: functions that round the exact value (and `log2` as a quotient of logarithms) *)
Definition of_real (r : R) : spec_float :=
  SpecFloat.binary_normalize 53 1024 (Ztrunc (scaled_mantissa radix2 fexp64 (rnd64 r))) (cexp radix2 fexp64 (rnd64 r)) false.
Lemma of_real_val k r : (-1074 <= k <= 1023)%Z -> Rabs r <= bpow radix2 k -> val (of_real r) = rnd64 r /\ finite_upto (bpow radix2 k) (of_real r).
Proof.
  intros Hk H. unfold of_real. rewrite normalize_equiv. rewrite val_B2SF.
  pose proof (binary_normalize_correct 53 1024 Hprec Hmax mode_NE (Ztrunc (scaled_mantissa radix2 fexp64 (rnd64 r))) (cexp radix2 fexp64 (rnd64 r)) false) as C.
  cbv zeta in C. assert (G : F2R (Float radix2 (Ztrunc (scaled_mantissa radix2 fexp64 (rnd64 r))) (cexp radix2 fexp64 (rnd64 r))) = rnd64 r).
  { symmetry. apply (generic_format_round radix2 fexp64 ZnearestE r). }
  rewrite G in C. cbn [round_mode] in C. rewrite (round_generic radix2 fexp64 ZnearestE (rnd64 r)) in C by (apply generic_format_round; [exact valid64|apply valid_rnd_N]).
  rewrite (no_overflow k ltac:(lia) r H) in C. destruct C as (C1 & C2 & _). split; [exact C1|].
  apply of_b64; [exact C2|]. rewrite C1. apply rnd_bound; [lia|exact H].
Qed.
Definition trig_rounded : Trig NumSF := {|
  fpi := (of_real PI : @F NumSF); fcos := fun x => of_real (cos (val x)); fsin := fun x => of_real (sin (val x)); ftan := fun x => of_real (tan (val x));
  facos := fun x => of_real (acos (val x)); fexp := fun x => of_real (exp (val x)); fln := fun x => of_real (ln (val x));
  fpow := fun x y => of_real (Rpower (val x) (val y)) |}.
Lemma two_val : val (@f2 NumSF) = 2.
Proof. destruct (ofZ_val 2 ltac:(lia)) as (V & _). rewrite <- V. f_equal. Qed.
Lemma ln2_half : 1/2 <= ln 2.
Proof.
  apply Rnot_lt_le. intros C. apply exp_increasing in C. rewrite exp_ln in C by lra. pose proof (exp_upper (1/2) ltac:(lra)). lra.
Qed.
Lemma trig_rounded_exp : exp2_good trig_rounded.
Proof.
  intros y Hy Y0. pose proof delta_pos as D0. pose proof delta_small as D1. pose proof ulp_delta as U1. pose proof sub_delta as S1.
  change (@fexp2 NumSF trig_rounded y) with (of_real (Rpower (val (@f2 NumSF)) (val y))). rewrite two_val.
  assert (R1 : 0 < Rpower 2 (val y) <= 1) by (split; [apply exp_pos|]; rewrite <- (Rpower_O 2) by lra; apply Rle_Rpower; lra).
  assert (B : Rabs (Rpower 2 (val y)) <= bpow radix2 1) by (rewrite Rabs_pos_eq by lra; change (bpow radix2 1) with 2; lra).
  destruct (of_real_val 1 _ ltac:(lia) B) as (V & FV). split; [exact FV|]. rewrite V.
  pose proof (rnd_abs (Rpower 2 (val y))) as E. rewrite (Rabs_pos_eq (Rpower 2 (val y))) in E by lra. nra.
Qed.
Lemma trig_rounded_powi : powi_good trig_rounded.
Proof.
  intros n Hn. destruct (ofZ_val n ltac:(lia)) as (NV & _).
  change (@fexp2 NumSF trig_rounded (@fofZ NumSF n)) with (of_real (Rpower (val (@f2 NumSF)) (val (@fofZ NumSF n)))). rewrite two_val, NV.
  fold (p2 n). rewrite <- bpow_p2. assert (B : Rabs (bpow radix2 n) <= bpow radix2 119) by (rewrite Rabs_pos_eq by apply bpow_ge_0; apply bpow_le; lia).
  destruct (of_real_val 119 _ ltac:(lia) B) as (V & FV). replace (2 ^ 119) with (bpow radix2 119) by exact (p2_nat_bpow 119). split; [exact FV|].
  rewrite V. apply round_generic; [apply valid_rnd_N|apply bpow_format; lia].
Qed.
Lemma trig_rounded_log : log2_good trig_rounded.
Proof.
  intros x Hx X0. pose proof delta_pos as D0. pose proof delta_small as D1. pose proof ulp_delta as U1. pose proof sub_delta as S1.
  assert (XP : 0 < val x) by (assert (0 < / 10 ^ 18) by (apply Rinv_0_lt_compat; lra); lra).
  assert (XB : val x <= 2 ^ 126) by (destruct Hx as (_ & _ & Hx); rewrite Rabs_pos_eq in Hx by lra; exact Hx).
  pose proof ln2_half as L1. pose proof ln2_le1 as L2.
  assert (LX : -60 * ln 2 <= ln (val x) <= 126 * ln 2).
  { split.
    - apply Rnot_lt_le. intros C. apply exp_increasing in C. rewrite exp_ln in C by exact XP. fold (Rpower 2 (-60)) in C.
      replace (-60) with (- INR 60) in C by (rewrite INR_IZR_INZ; simpl; lra). rewrite Rpower_Ropp, Rpower_pow in C by lra.
      assert (/ 2 ^ 60 <= / 10 ^ 18) by (apply Rinv_le_contravar; lra). lra.
    - apply Rnot_lt_le. intros C. apply exp_increasing in C. rewrite exp_ln in C by exact XP. fold (Rpower 2 126) in C.
      replace 126 with (INR 126) in C by (rewrite INR_IZR_INZ; simpl; lra). rewrite Rpower_pow in C by lra. lra. }
  unfold flog2. change (@fln NumSF trig_rounded x) with (of_real (ln (val x))). change (@fln NumSF trig_rounded (@f2 NumSF)) with (of_real (ln (val (@f2 NumSF)))).
  rewrite two_val. assert (B7 : bpow radix2 7 = 128) by (change 7%Z with (Z.of_nat 7); rewrite p2_nat_bpow; lra). assert (B0 : bpow radix2 0 = 1) by reflexivity.
  set (a := ln (val x)) in *. set (l2 := ln 2) in *.
  assert (A1 : Rabs a <= bpow radix2 7) by (rewrite B7; apply Rabs_le; lra). assert (A2 : Rabs l2 <= bpow radix2 0) by (rewrite B0, Rabs_pos_eq; lra).
  destruct (of_real_val 7 a ltac:(lia) A1) as (V1 & F1). destruct (of_real_val 0 l2 ltac:(lia) A2) as (V2 & F2).
  pose proof (rnd_abs a) as E1. pose proof (rnd_abs l2) as E2. rewrite <- V1 in E1. rewrite <- V2 in E2. rewrite (Rabs_pos_eq l2) in E2 by lra.
  set (a' := val (of_real a)) in *. set (b' := val (of_real l2)) in *. rewrite B7 in A1.
  assert (UA : ulp1 * Rabs a <= 128 * ulp1) by (assert (0 <= ulp1) by apply bpow_ge_0; nra).
  assert (U2 : ulp1 * 8192 = delta) by (unfold ulp1, delta; change (-53)%Z with (- Z.of_nat 53)%Z; rewrite bpow_opp, p2_nat_bpow; lra).
  assert (S2 : bpow radix2 (-1075) <= ulp1) by (unfold ulp1; apply bpow_le; lia).
  assert (E1' : Rabs (a' - a) <= 129 * ulp1) by lra. assert (E2' : Rabs (b' - l2) <= 2 * ulp1) by (assert (0 <= ulp1) by apply bpow_ge_0; nra).
  apply Rabs_le_inv in E1'. apply Rabs_le_inv in E2'. apply Rabs_le_inv in A1.
  assert (Bp : 49/100 <= b' <= 101/100) by lra.
  assert (QD : Rabs (a' / b' - a / l2) <= 1200 * ulp1).
  { replace (a' / b' - a / l2) with ((a' - a) / b' - (a / l2) * ((b' - l2) / b')) by (field; lra).
    assert (IB : 0 < / b' <= 21/10). { split; [apply Rinv_0_lt_compat; lra|]. rewrite <- (Rinv_inv (21/10)). apply Rinv_le_contravar; lra. }
    assert (AL : -60 <= a / l2 <= 126). { split; apply (Rmult_le_reg_r l2); try lra; unfold Rdiv; rewrite Rmult_assoc, Rinv_l by lra; lra. }
    assert (T1 : -300 * ulp1 <= (a' - a) / b' <= 300 * ulp1) by (unfold Rdiv; assert (0 <= ulp1) by apply bpow_ge_0; split; nra).
    assert (T2 : -5 * ulp1 <= (b' - l2) / b' <= 5 * ulp1) by (unfold Rdiv; assert (0 <= ulp1) by apply bpow_ge_0; split; nra).
    set (t := (b' - l2) / b') in *. set (w := a / l2) in *. assert (0 <= ulp1) by apply bpow_ge_0. apply Rabs_le. split; nra. }
  assert (AL : -60 <= a / l2 <= 126). { split; apply (Rmult_le_reg_r l2); try lra; unfold Rdiv; rewrite Rmult_assoc, Rinv_l by lra; lra. }
  assert (QB : Rabs (a' / b') <= bpow radix2 7). { rewrite B7. apply Rabs_le_inv in QD. apply Rabs_le. lra. }
  destruct (div_val 7 ltac:(lia) _ _ (of_real a) (of_real l2) F1 F2 ltac:(fold b'; lra) QB) as (QV & QF). fold a' b' in QV. rewrite B7 in QF. split; [exact QF|].
  rewrite QV. pose proof (rnd_abs (a' / b')) as E3. rewrite B7 in QB.
  assert (UQ : ulp1 * Rabs (a' / b') <= 128 * ulp1) by (assert (0 <= ulp1) by apply bpow_ge_0; nra).
  apply Rabs_le_inv in E3. apply Rabs_le_inv in QD. apply Rabs_le. lra.
Qed.
Example C29_binary64_hyp : log2_good trig_rounded /\ exp2_good trig_rounded /\ powi_good trig_rounded /\
  finite_upto (2 ^ 126) (@flit NumSF 1 3) /\ / 10 ^ 18 <= val (@flit NumSF 1 3).
Proof.
  split; [exact trig_rounded_log|]. split; [exact trig_rounded_exp|]. split; [exact trig_rounded_powi|].
  assert (E : (@flit NumSF 1 3 : spec_float) = S754_finite false 6004799503160661 (-54)) by (vm_compute; reflexivity). rewrite E.
  assert (V : val (S754_finite false 6004799503160661 (-54)) = 6004799503160661 * / 2 ^ 54).
  { unfold val, SF2R, F2R. cbn [cond_Zopp Fnum Fexp]. rewrite <- (p2_nat_bpow 54). change (-54)%Z with (- Z.of_nat 54)%Z. rewrite bpow_opp. reflexivity. }
  assert (ONE : 1 <= 2 ^ 126) by (apply pow_R1_Rle; lra).
  split; [split; [reflexivity|]; split; [reflexivity|]; rewrite V, Rabs_pos_eq by lra; lra|]. rewrite V. lra.
Qed.

(** ** C30 in binary64: a picture of such colours survives a file *)
Definition storable (p : @Spectrum NumSF) : Prop :=
  Forall (fun c => finite_upto (2 ^ 126) c /\ 0 <= val c) [sr p; sg p; sb p] /\ / 10 ^ 18 <= Rmax (Rmax (val (sr p)) (val (sg p))) (val (sb p)).
Theorem C30_binary64 : forall T, log2_good T -> exp2_good T -> powi_good T -> forall m : @ImageBuffer NumSF,
  (Z.of_nat (img_width m) < 2 ^ 64)%Z -> (Z.of_nat (img_height m) < 2 ^ 64)%Z -> Forall storable (img_pixels m) ->
  exists m', @from_file NumSF T (@save_hdre NumSF T m) = Ret (Some m') /\ img_width m' = img_width m /\ img_height m' = img_height m /\
    Forall2 (fun p p' : @Spectrum NumSF => let v := Rmax (Rmax (val (sr p)) (val (sg p))) (val (sb p)) in
      reads_back v (sr p) (sr p') /\ reads_back v (sg p) (sg p') /\ reads_back v (sb p) (sb p'))
      (img_pixels m) (img_pixels m').
Proof.
  intros T HL HE HP m Hw Hh Hs. eexists. split; [apply C30_save_load; assumption|]. cbn [img_height img_width img_pixels].
  split; [reflexivity|]. split; [reflexivity|].
  induction Hs as [|p ps (H1 & H2) _ IH]; constructor; [|exact IH]. destruct p as [r g b]. cbn [sr sg sb] in *.
  inversion H1 as [|? ? (Fr & R0) H1' E1]; subst. inversion H1' as [|? ? (Fg & G0) H1'' E1]; subst. inversion H1'' as [|? ? (Fb & B0) _ E1]; subst.
  exact (proj1 (C29_binary64 T HL HE HP r g b Fr Fg Fb R0 G0 B0) H2).
Qed.
Print Assumptions C30_binary64.
Example C30_binary64_hyp : Forall storable [@mkS NumSF (@flit NumSF 1 3) (@flit NumSF 1 3) (@flit NumSF 1 3)].
Proof.
  destruct C29_binary64_hyp as (_ & _ & _ & H1 & H2). constructor; [|constructor]. split; cbn [sr sg sb].
  - assert (0 <= val (@flit NumSF 1 3)) by (assert (0 < / 10 ^ 18) by (apply Rinv_0_lt_compat; lra); lra). exact (Forall_cons _ (conj H1 H) (Forall_cons _ (conj H1 H) (Forall_cons _ (conj H1 H) (Forall_nil _)))).
  - refine (Rle_trans _ _ _ H2 _). refine (Rle_trans _ _ _ (Rmax_l _ _) (Rmax_l _ _)).
Qed.
