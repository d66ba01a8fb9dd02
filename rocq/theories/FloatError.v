(** * FloatError: forward error analysis of binary64 sums and products of numbers of bounded size *)
From Coq Require Import ZArith SpecFloat Reals Lra Lia Psatz.
From Flocq Require Import Core BinarySingleNaN Relative.
From Verif Require Import Num NumSF SFBridge FloatOps FloatRound.
#[local] Existing Instance Hprec.
#[local] Existing Instance Hmax.
#[local] Existing Instance valid64.
Open Scope R_scope.

Notation BIG := (bpow radix2 90).
Lemma BIG_val : BIG = 2 ^ 90. Proof. cbn. lra. Qed.
Lemma ulp1_val : ulp1 = / 2 ^ 53. Proof. unfold ulp1. cbn. lra. Qed.
Lemma ulp1_pos : 0 < ulp1. Proof. rewrite ulp1_val. lra. Qed.
Lemma eta_small : bpow radix2 (-1075) <= ulp1 / 1000000.
Proof.
  apply Rle_trans with (bpow radix2 (-100)); [apply bpow_le; lia|]. rewrite ulp1_val. cbn. lra.
Qed.
Lemma rnd_near x : Rabs (rnd64 x - x) <= ulp1 * Rabs x + ulp1 / 1000000.
Proof. pose proof (rnd_abs x). pose proof eta_small. lra. Qed.

Lemma leb_val B x y : finite_upto B x -> finite_upto B y -> @fleb NumSF x y = Rle_bool (val x) (val y).
Proof.
  intros Hx Hy. destruct (as_b64 _ _ Hx) as (bx & -> & Fx & Vx), (as_b64 _ _ Hy) as (by_ & -> & Fy & Vy).
  rewrite <- Vx, <- Vy. apply (Bleb_correct 53 1024 bx by_ Fx Fy).
Qed.
Lemma abs_val B x : finite_upto B x -> val (@fabs NumSF x) = Rabs (val x) /\ finite_upto B (@fabs NumSF x).
Proof.
  intros H. destruct (as_b64 _ _ H) as (b & -> & Fb & Vb).
  assert (E : @fabs NumSF (B2SF b) = B2SF (Babs b)) by (destruct b; reflexivity). rewrite E, val_B2SF, B2R_Babs, Vb. split; [reflexivity|].
  apply of_b64; [rewrite is_finite_Babs; exact Fb|]. rewrite B2R_Babs, Rabs_Rabsolu, Vb. apply H.
Qed.
Lemma neg_val B x : finite_upto B x -> val (@fneg NumSF x) = - val x /\ finite_upto B (@fneg NumSF x).
Proof.
  intros H. destruct (as_b64 _ _ H) as (b & -> & Fb & Vb).
  assert (E : @fneg NumSF (B2SF b) = B2SF (Bopp b)) by (destruct b; reflexivity). rewrite E, val_B2SF, B2R_Bopp, Vb. split; [reflexivity|].
  apply of_b64; [rewrite is_finite_Bopp; exact Fb|]. rewrite B2R_Bopp, Rabs_Ropp, Vb. apply H.
Qed.

Section Size.
  Variable L : R.
  Hypothesis L1 : 1 <= L.
  Hypothesis L2 : L <= 1024.

  (** x is a float near the exact value r, which is of the size of m L^n; the error is c units in the last place of L^n *)
  Definition near (n : nat) (m c : R) (x : spec_float) (r : R) : Prop :=
    finite_upto BIG x /\ Rabs r <= m * L ^ n /\ Rabs (val x - r) <= c * ulp1 * L ^ n.

  Lemma Ln_lo n : 1 <= L ^ n.
  Proof. apply pow_R1_Rle. exact L1. Qed.
  Lemma Ln_hi n : (n <= 4)%nat -> L ^ n <= 2 ^ 40.
  Proof.
    intros H. apply Rle_trans with (L ^ 4); [apply Rle_pow; [exact L1|exact H]|].
    replace (2 ^ 40) with (1024 ^ 4) by lra. apply pow_incr. lra.
  Qed.
  Lemma near_exact n m x : finite_upto BIG x -> Rabs (val x) <= m * L ^ n -> near n m 0 x (val x).
  Proof. intros H1 H2. repeat split; try apply H1; try assumption. unfold Rminus. rewrite Rplus_opp_r, Rabs_R0. lra. Qed.
  Lemma near_weaken n m c m' c' x r : near n m c x r -> m <= m' -> c <= c' -> near n m' c' x r.
  Proof.
    intros (H1 & H2 & H3) M C. pose proof (Ln_lo n). pose proof ulp1_pos. split; [exact H1|]. split.
    - refine (Rle_trans _ _ _ H2 _). apply Rmult_le_compat_r; lra.
    - refine (Rle_trans _ _ _ H3 _). apply Rmult_le_compat_r; [lra|]. apply Rmult_le_compat_r; lra.
  Qed.

  (** one rounding *)
  Lemma round_step n m c s r : (n <= 4)%nat -> 0 <= m <= 1000000 -> 0 <= c <= 1000000 -> Rabs r <= m * L ^ n ->
    Rabs (s - r) <= c * ulp1 * L ^ n ->
    Rabs s <= bpow radix2 80 /\ Rabs (rnd64 s - r) <= (c + m + 1 / 1000) * ulp1 * L ^ n.
  Proof.
    intros HN HM HC H1 H2. pose proof (Ln_lo n) as W1. pose proof (Ln_hi n HN) as W2. set (W := L ^ n) in *.
    pose proof ulp1_pos as U0. assert (U1 : ulp1 <= 1 / 4000000000000000) by (rewrite ulp1_val; lra).
    assert (S1 : Rabs s <= m * W + c * ulp1 * W).
    { replace s with (r + (s - r)) by ring. refine (Rle_trans _ _ _ (Rabs_triang _ _) _). lra. }
    assert (CU : 0 <= c * ulp1 <= 1 / 4000000000) by (split; [nra|]; replace (1 / 4000000000) with (1000000 * (1 / 4000000000000000)) by lra; apply Rmult_le_compat; lra).
    split.
    - apply Rle_trans with (2000000 * 2 ^ 40); [|cbn; lra]. refine (Rle_trans _ _ _ S1 _). rewrite <- Rmult_plus_distr_r.
      apply Rmult_le_compat; lra.
    - replace (rnd64 s - r) with ((rnd64 s - s) + (s - r)) by ring. refine (Rle_trans _ _ _ (Rabs_triang _ _) _).
      pose proof (rnd_near s) as RN.
      assert (S2 : ulp1 * Rabs s <= ulp1 * (m * W + c * ulp1 * W)) by (apply Rmult_le_compat_l; lra).
      assert (S3 : ulp1 * (c * ulp1 * W) <= ulp1 * (1 / 4000000000 * W)) by (apply Rmult_le_compat_l; [lra|]; apply Rmult_le_compat_r; lra).
      assert (S4 : ulp1 <= ulp1 * W) by nra. nra.
  Qed.
  Lemma finish n m c m' c' x r s : (n <= 4)%nat -> 0 <= m <= 1000000 -> 0 <= c <= 1000000 -> Rabs r <= m * L ^ n ->
    Rabs (s - r) <= c * ulp1 * L ^ n -> m <= m' -> c + m + 1 / 1000 <= c' ->
    (Rabs s <= bpow radix2 80 -> val x = rnd64 s /\ finite_upto (bpow radix2 80) x) -> near n m' c' x r.
  Proof.
    intros HN HM HC H1 H2 M C H. destruct (round_step n m c s r HN HM HC H1 H2) as [B E]. destruct (H B) as [V FX].
    apply (near_weaken n m (c + m + 1/1000)); [|lra|lra]. split; [|split].
    - apply (finite_weaken _ _ _ FX). apply bpow_le. lia.
    - exact H1.
    - rewrite V. exact E.
  Qed.

  Lemma near_add n m1 c1 m2 c2 m c x y r q : near n m1 c1 x r -> near n m2 c2 y q -> (n <= 4)%nat ->
    0 <= m1 -> 0 <= m2 -> 0 <= c1 -> 0 <= c2 -> m1 + m2 <= m -> c1 + c2 + (m1 + m2) + 1 / 1000 <= c -> m <= 1000000 -> c <= 1000000 ->
    near n m c (@fadd NumSF x y) (r + q).
  Proof.
    intros (X1 & X2 & X3) (Y1 & Y2 & Y3) HN A1 A2 A3 A4 HM HC KM KC.
    apply (finish n (m1 + m2) (c1 + c2) m c _ _ (val x + val y)); try assumption; try lra.
    - refine (Rle_trans _ _ _ (Rabs_triang _ _) _). lra.
    - replace (val x + val y - (r + q)) with ((val x - r) + (val y - q)) by ring. refine (Rle_trans _ _ _ (Rabs_triang _ _) _). lra.
    - intros B. apply (add_val 80 ltac:(lia) BIG x y X1 Y1 B).
  Qed.
  Lemma near_sub n m1 c1 m2 c2 m c x y r q : near n m1 c1 x r -> near n m2 c2 y q -> (n <= 4)%nat ->
    0 <= m1 -> 0 <= m2 -> 0 <= c1 -> 0 <= c2 -> m1 + m2 <= m -> c1 + c2 + (m1 + m2) + 1 / 1000 <= c -> m <= 1000000 -> c <= 1000000 ->
    near n m c (@fsub NumSF x y) (r - q).
  Proof.
    intros (X1 & X2 & X3) (Y1 & Y2 & Y3) HN A1 A2 A3 A4 HM HC KM KC.
    apply (finish n (m1 + m2) (c1 + c2) m c _ _ (val x - val y)); try assumption; try lra.
    - unfold Rminus. refine (Rle_trans _ _ _ (Rabs_triang _ _) _). rewrite Rabs_Ropp. lra.
    - replace (val x - val y - (r - q)) with ((val x - r) + - (val y - q)) by ring. refine (Rle_trans _ _ _ (Rabs_triang _ _) _). rewrite Rabs_Ropp. lra.
    - intros B. apply (sub_val 80 ltac:(lia) BIG x y X1 Y1 B).
  Qed.
  Lemma near_mul n1 n2 m1 c1 m2 c2 m c x y r q : near n1 m1 c1 x r -> near n2 m2 c2 y q -> (n1 + n2 <= 4)%nat ->
    0 <= m1 <= 1000 -> 0 <= m2 <= 1000 -> 0 <= c1 <= 1000 -> 0 <= c2 <= 1000 -> m1 * m2 <= m ->
    c1 * m2 + m1 * c2 + m1 * m2 + 2 / 1000 <= c -> c <= 1000000 ->
    near (n1 + n2) m c (@fmul NumSF x y) (r * q).
  Proof.
    intros (X1 & X2 & X3) (Y1 & Y2 & Y3) HN A1 A2 A3 A4 HM HC KC. pose proof ulp1_pos as U0.
    assert (U1 : ulp1 <= 1 / 4000000000000000) by (rewrite ulp1_val; lra).
    pose proof (Ln_lo n1) as W1. pose proof (Ln_lo n2) as W2.
    apply (finish (n1 + n2) (m1 * m2) (c1 * m2 + m1 * c2 + 1 / 1000) m c _ _ (val x * val y)); try assumption; try lra; try nra.
    - rewrite pow_add, Rabs_mult. replace (m1 * m2 * (L ^ n1 * L ^ n2)) with ((m1 * L ^ n1) * (m2 * L ^ n2)) by ring.
      apply Rmult_le_compat; try apply Rabs_pos; assumption.
    - rewrite pow_add. set (a := L ^ n1) in *. set (b := L ^ n2) in *.
      replace (val x * val y - r * q) with ((val x - r) * q + r * (val y - q) + (val x - r) * (val y - q)) by ring.
      refine (Rle_trans _ _ _ (Rabs_triang _ _) _).
      assert (T1 : Rabs ((val x - r) * q + r * (val y - q)) <= (c1 * ulp1 * a) * (m2 * b) + (m1 * a) * (c2 * ulp1 * b)).
      { refine (Rle_trans _ _ _ (Rabs_triang _ _) _). rewrite !Rabs_mult. apply Rplus_le_compat; apply Rmult_le_compat; try apply Rabs_pos; assumption. }
      assert (T2 : Rabs ((val x - r) * (val y - q)) <= (c1 * ulp1 * a) * (c2 * ulp1 * b)).
      { rewrite Rabs_mult. apply Rmult_le_compat; try apply Rabs_pos; assumption. }
      assert (T3 : (c1 * ulp1 * a) * (c2 * ulp1 * b) <= 1 / 1000 * ulp1 * (a * b)).
      { replace ((c1 * ulp1 * a) * (c2 * ulp1 * b)) with ((c1 * c2) * ulp1 * (ulp1 * (a * b))) by ring.
        replace (1 / 1000 * ulp1 * (a * b)) with (1 / 1000 * (ulp1 * (a * b))) by ring.
        apply Rmult_le_compat_r; [|]. { assert (0 <= a * b) by nra. nra. }
        assert (0 <= c1 * c2 <= 1000000) by (split; nra). apply Rle_trans with (1000000 * (1 / 4000000000000000)); [|lra].
        apply Rmult_le_compat; lra. }
      nra.
    - intros B. apply (mul_val 80 ltac:(lia) BIG BIG x y X1 Y1 B).
  Qed.
End Size.

(** a quotient computed as a product with the reciprocal *)
Lemma recip_product a x : finite_upto BIG a -> finite_upto BIG x -> / 2 ^ 17 <= Rabs (val a) -> Rabs (val a) <= 2 ^ 40 -> Rabs (val x) <= 2 ^ 60 ->
  let w := @fmul NumSF (@fdiv NumSF f1 a) x in
  finite_upto BIG w /\ Rabs (val w * val a - val x) <= (201 / 100) * ulp1 * Rabs (val x) + ulp1 / 100000.
Proof.
  intros FA FX A1 A2 X1. cbv zeta. pose proof ulp1_pos as U0. assert (U1 : ulp1 <= 1 / 4000000000000000) by (rewrite ulp1_val; lra).
  assert (FO : finite_upto 1 (@f1 NumSF) /\ val (@f1 NumSF) = 1).
  { change (@f1 NumSF) with (@flit NumSF 1 1). assert (E : (@flit NumSF 1 1 : spec_float) = sf_ofZ 1) by (vm_compute; reflexivity). rewrite E.
    destruct (ofZ_val 1 ltac:(lia)) as [V FI]. rewrite Rabs_R1 in FI. split; [exact FI|exact V]. }
  destruct FO as [FO VO].
  assert (A0 : val a <> 0) by (intros Q; rewrite Q, Rabs_R0 in A1; lra).
  assert (Q1 : Rabs (val (@f1 NumSF) / val a) <= bpow radix2 17).
  { rewrite VO. unfold Rdiv. rewrite Rmult_1_l, Rabs_inv. change (bpow radix2 17) with 131072. replace 131072 with (/ / 2 ^ 17) by lra. apply Rinv_le_contravar; lra. }
  destruct (div_val 17 ltac:(lia) 1 BIG (@f1 NumSF) a FO FA A0 Q1) as (QV & QF). rewrite VO in QV.
  set (f := @fdiv NumSF (@f1 NumSF) a) in *.
  assert (Q2 : bpow radix2 (-1022) <= Rabs (1 / val a)).
  { apply Rle_trans with (bpow radix2 (-40)); [apply bpow_le; lia|]. unfold Rdiv. rewrite Rmult_1_l, Rabs_inv. change (bpow radix2 (-40)) with (/ 1099511627776).
    apply Rinv_le_contravar; lra. }
  pose proof (rnd_rel _ Q2) as RE. rewrite <- QV in RE.
  assert (P1 : Rabs (val f * val x) <= bpow radix2 77).
  { replace (bpow radix2 77) with (bpow radix2 17 * 2 ^ 60) by (cbn; lra). rewrite Rabs_mult. apply Rmult_le_compat; try apply Rabs_pos; [apply QF|exact X1]. }
  destruct (mul_val 77 ltac:(lia) _ BIG f x QF FX P1) as (PV & PF). set (w := @fmul NumSF f x) in *.
  split; [apply (finite_weaken _ _ _ PF); apply bpow_le; lia|].
  pose proof (rnd_abs (val f * val x)) as RA. rewrite <- PV in RA.
  assert (E0 : 0 <= bpow radix2 (-1075)) by apply bpow_ge_0.
  assert (ET : bpow radix2 (-1075) <= ulp1 * bpow radix2 (-100)) by (unfold ulp1; rewrite <- bpow_plus; apply bpow_le; lia).
  set (eta := bpow radix2 (-1075)) in *. set (A := val a) in *. set (X := val x) in *. set (f' := val f) in *. set (w' := val w) in *. clearbody A X f' w' eta f w.
  assert (RE' : Rabs (f' * A - 1) <= ulp1).
  { replace (f' * A - 1) with ((f' - 1 / A) * A) by (field; exact A0). rewrite Rabs_mult.
    apply Rle_trans with (ulp1 * Rabs (1 / A) * Rabs A); [apply Rmult_le_compat_r; [apply Rabs_pos|exact RE]|].
    rewrite Rmult_assoc, <- Rabs_mult. replace (1 / A * A) with 1 by (field; exact A0). rewrite Rabs_R1. lra. }
  replace (w' * A - X) with ((w' - f' * X) * A + X * (f' * A - 1)) by ring.
  refine (Rle_trans _ _ _ (Rabs_triang _ _) _). rewrite !Rabs_mult.
  assert (S1 : Rabs X * Rabs (f' * A - 1) <= Rabs X * ulp1) by (apply Rmult_le_compat_l; [apply Rabs_pos|exact RE']).
  assert (S2 : Rabs (w' - f' * X) * Rabs A <= (ulp1 * Rabs (f' * X) + eta) * Rabs A) by (apply Rmult_le_compat_r; [apply Rabs_pos|exact RA]).
  assert (S3 : Rabs (f' * X) * Rabs A <= Rabs X * (1 + ulp1)).
  { rewrite Rabs_mult. replace (Rabs f' * Rabs X * Rabs A) with (Rabs X * Rabs (f' * A)) by (rewrite Rabs_mult; ring).
    apply Rmult_le_compat_l; [apply Rabs_pos|]. replace (f' * A) with (1 + (f' * A - 1)) by ring.
    refine (Rle_trans _ _ _ (Rabs_triang _ _) _). rewrite Rabs_R1. lra. }
  assert (S4 : eta * Rabs A <= ulp1 / 100000).
  { apply Rle_trans with (ulp1 * bpow radix2 (-100) * 2 ^ 40).
    - apply Rmult_le_compat; try assumption; apply Rabs_pos.
    - replace (bpow radix2 (-100)) with (/ 2 ^ 100) by (cbn; lra). lra. }
  assert (S5 : 0 <= Rabs X) by apply Rabs_pos.
  assert (S6 : ulp1 * (Rabs (f' * X) * Rabs A) <= ulp1 * (Rabs X * (1 + ulp1))) by (apply Rmult_le_compat_l; lra).
  assert (S7 : Rabs X * ulp1 <= Rabs X * (1 / 1000)) by (apply Rmult_le_compat_l; lra).
  nra.
Qed.
