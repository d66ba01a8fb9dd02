(** * Property C97: normalising a vector in binary64 *)
From Coq Require Import ZArith SpecFloat Reals Lra Lia Psatz.
From Flocq Require Import Core BinarySingleNaN Relative.
From Verif Require Import Num NumR NumSF SFBridge FloatOps FloatRound FloatError Geometry Triangle SpecGeom TriangleProofs P_Exact P_FloatHit.
#[local] Existing Instance Hprec.
#[local] Existing Instance Hmax.
#[local] Existing Instance valid64.
Open Scope R_scope.

Lemma sqrt_equiv (x : b64) : SFsqrt 53 1024 (B2SF x) = B2SF (Bsqrt mode_NE x).
Proof.
  destruct x as [s|s| |s m e He]; try reflexivity; try (destruct s; reflexivity). destruct s; [reflexivity|]. cbn.
  rewrite B2SF_SF2B. destruct (SFsqrt_core_binary _ _ _ _) as [[mz ez] lz]. apply round_aux_equiv.
Qed.
Lemma sqrt_val k x : (-1074 <= k <= 1023)%Z -> finite_upto (bpow radix2 k) x -> 0 < val x -> sqrt (val x) <= bpow radix2 k ->
  val (@fsqrt NumSF x) = rnd64 (sqrt (val x)) /\ finite_upto (bpow radix2 k) (@fsqrt NumSF x).
Proof.
  intros Hk H P HB. destruct (as_b64 _ _ H) as (b & -> & Fb & Vb).
  change (@fsqrt NumSF (B2SF b)) with (SFsqrt 53 1024 (B2SF b)). rewrite sqrt_equiv, !val_B2SF. rewrite !val_B2SF in P, HB.
  destruct (Bsqrt_correct 53 1024 Hprec Hmax mode_NE b) as (C1 & C2 & _). cbn [round_mode] in C1. split; [exact C1|].
  apply of_b64.
  - rewrite C2. destruct b as [s|s| |s m e He]; cbn in P; try lra; try reflexivity. destruct s; [|reflexivity]. exfalso.
    assert (F2R (Float radix2 (cond_Zopp true (Zpos m)) e) < 0) by (apply F2R_lt_0; reflexivity). cbn [cond_Zopp] in *. lra.
  - rewrite C1. apply rnd_bound; [lia|]. rewrite Rabs_pos_eq by apply sqrt_pos. exact HB.
Qed.

(** ** the statement's vocabulary: a vector that is neither tiny nor huge (its largest coordinate lies between 2^-400 and 2^400) *)
Definition sizeable (v : VecF) : Prop :=
  finite_upto (bpow radix2 400) (vx v) /\ finite_upto (bpow radix2 400) (vy v) /\ finite_upto (bpow radix2 400) (vz v) /\
  (bpow radix2 (-400) <= Rabs (val (vx v)) \/ bpow radix2 (-400) <= Rabs (val (vy v)) \/ bpow radix2 (-400) <= Rabs (val (vz v))).

Lemma square_le a b : Rabs a <= b -> a * a <= b * b.
Proof. intros H. pose proof (Rabs_pos a). replace (a * a) with (Rabs a * Rabs a) by (rewrite <- Rabs_mult; apply Rabs_pos_eq; nra). nra. Qed.

(** ** relative errors *)
Lemma rel_sum S S' e T e' T' : 0 <= S -> 0 <= T -> Rabs (S' - S) <= e * S -> Rabs (T' - T) <= e' * T -> e <= e' -> Rabs (S' + T' - (S + T)) <= e' * (S + T).
Proof.
  intros HS HT H1 H2 H. replace (S' + T' - (S + T)) with ((S' - S) + (T' - T)) by ring. refine (Rle_trans _ _ _ (Rabs_triang _ _) _).
  assert (e * S <= e' * S) by (apply Rmult_le_compat_r; assumption). lra.
Qed.

Section Unit.
  Variable v : VecF.
  Hypothesis HV : sizeable v.
  Let x := val (vx v).
  Let y := val (vy v).
  Let z := val (vz v).
  Let D := x * x + y * y + z * z.
  Let n := sqrt D.
  Notation u := ulp1.
  Lemma u_small : 0 < u /\ u <= 1 / 4000000000000000.
  Proof. split; [apply ulp1_pos|rewrite ulp1_val; lra]. Qed.
  Lemma D_range : bpow radix2 (-800) <= D <= 3 * bpow radix2 800.
  Proof.
    destruct HV as ((_ & _ & X) & (_ & _ & Y) & (_ & _ & Z) & HM). fold x in X, HM. fold y in Y, HM. fold z in Z, HM.
    assert (E8 : bpow radix2 800 = bpow radix2 400 * bpow radix2 400) by (rewrite <- bpow_plus; reflexivity).
    assert (E8' : bpow radix2 (-800) = bpow radix2 (-400) * bpow radix2 (-400)) by (rewrite <- bpow_plus; reflexivity).
    pose proof (square_le _ _ X). pose proof (square_le _ _ Y). pose proof (square_le _ _ Z).
    assert (0 <= x * x) by nra. assert (0 <= y * y) by nra. assert (0 <= z * z) by nra. split; [|unfold D; lra].
    assert (Q : forall a, bpow radix2 (-400) <= Rabs a -> bpow radix2 (-800) <= a * a).
    { intros a Ha. rewrite E8'. replace (a * a) with (Rabs a * Rabs a) by (rewrite <- Rabs_mult; apply Rabs_pos_eq; nra).
      pose proof (bpow_ge_0 radix2 (-400)). apply Rmult_le_compat; assumption. }
    unfold D. destruct HM as [M|[M|M]]; apply Q in M; lra.
  Qed.
  Lemma eta_D : bpow radix2 (-1075) <= u / 1000 * D.
  Proof.
    pose proof D_range as [L _]. destruct u_small as [U0 _]. apply Rle_trans with (u / 1000 * bpow radix2 (-800)).
    - apply Rle_trans with (bpow radix2 (-10) * bpow radix2 (-53) * bpow radix2 (-800)).
      + rewrite <- !bpow_plus. apply bpow_le. lia.
      + apply Rmult_le_compat_r; [apply bpow_ge_0|]. fold u. change (bpow radix2 (-10)) with (/ 1024). lra.
    - apply Rmult_le_compat_l; lra.
  Qed.
  (** one square, rounded *)
  Lemma square_near a : finite_upto (bpow radix2 400) a -> finite_upto (bpow radix2 800) (@fmul NumSF a a) /\
    Rabs (val (@fmul NumSF a a) - val a * val a) <= u * (val a * val a) + u / 1000 * D.
  Proof.
    intros FA. assert (B : Rabs (val a * val a) <= bpow radix2 800).
    { replace (bpow radix2 800) with (bpow radix2 400 * bpow radix2 400) by (rewrite <- bpow_plus; reflexivity). rewrite Rabs_mult.
      apply Rmult_le_compat; try apply Rabs_pos; apply FA. }
    destruct (mul_val 800 ltac:(lia) _ _ a a FA FA B) as [VM FM]. split; [exact FM|]. rewrite VM. pose proof (rnd_abs (val a * val a)) as R.
    rewrite (Rabs_pos_eq (val a * val a)) in R by nra. pose proof eta_D. lra.
  Qed.
  Lemma sum_near k a b A B ea eb : (800 <= k <= 1000)%Z -> finite_upto (bpow radix2 k) a -> finite_upto (bpow radix2 k) b ->
    0 <= A -> 0 <= B -> A + B <= D -> 0 <= ea <= 1 -> 0 <= eb <= 1 ->
    Rabs (val a - A) <= ea * u * D -> Rabs (val b - B) <= eb * u * D -> finite_upto (bpow radix2 (k + 1)) (@fadd NumSF a b).
  Proof.
    intros Hk FA FB A0 B0 AB Ha Hb EA EB. apply (add_val (k + 1) ltac:(lia) (bpow radix2 k) a b FA FB).
    replace (bpow radix2 (k + 1)) with (bpow radix2 k + bpow radix2 k) by (rewrite bpow_plus; change (bpow radix2 1) with 2; ring).
    refine (Rle_trans _ _ _ (Rabs_triang _ _) _). apply Rplus_le_compat; [apply FA|apply FB].
  Qed.
  Lemma len2_near : finite_upto (bpow radix2 802) (@vlen2 NumSF v) /\ Rabs (val (@vlen2 NumSF v) - D) <= 301 / 100 * u * D.
  Proof.
    destruct HV as (FX & FY & FZ & _). destruct (square_near _ FX) as [F1 E1]. destruct (square_near _ FY) as [F2 E2]. destruct (square_near _ FZ) as [F3 E3].
    fold x in E1. fold y in E2. fold z in E3. unfold vlen2. set (a := @fmul NumSF (vx v) (vx v)) in *. set (b := @fmul NumSF (vy v) (vy v)) in *. set (c := @fmul NumSF (vz v) (vz v)) in *.
    assert (B1 : Rabs (val a + val b) <= bpow radix2 801).
    { replace (bpow radix2 801) with (bpow radix2 800 + bpow radix2 800) by (change 801%Z with (800 + 1)%Z; rewrite bpow_plus; change (bpow radix2 1) with 2; ring).
      refine (Rle_trans _ _ _ (Rabs_triang _ _) _). apply Rplus_le_compat; [apply F1|apply F2]. }
    destruct (add_val 801 ltac:(lia) _ a b F1 F2 B1) as [VS FS]. set (s := @fadd NumSF a b) in *.
    assert (B2 : Rabs (val s + val c) <= bpow radix2 802).
    { replace (bpow radix2 802) with (bpow radix2 801 + bpow radix2 801) by (change 802%Z with (801 + 1)%Z; rewrite bpow_plus; change (bpow radix2 1) with 2; ring).
      refine (Rle_trans _ _ _ (Rabs_triang _ _) _). apply Rplus_le_compat; [apply FS|]. apply Rle_trans with (bpow radix2 800); [apply F3|apply bpow_le; lia]. }
    assert (F3' : finite_upto (bpow radix2 801) c) by (apply (finite_weaken _ _ _ F3); apply bpow_le; lia).
    destruct (add_val 802 ltac:(lia) _ s c FS F3' B2) as [VT FT]. split; [exact FT|]. rewrite VT. clear FT B2 F3'.
    pose proof (rnd_abs (val a + val b)) as R1. rewrite <- VS in R1. pose proof (rnd_abs (val s + val c)) as R2.
    pose proof eta_D as ED. destruct u_small as [U0 U1]. pose proof D_range as [DL _]. pose proof (bpow_gt_0 radix2 (-800)).
    set (w := rnd64 (val s + val c)) in *. clearbody a b c s w. clear VS VT FS F1 F2 F3 B1.
    set (eta := bpow radix2 (-1075)) in *. clearbody eta.
    assert (X0 : 0 <= x * x) by nra. assert (Y0 : 0 <= y * y) by nra. assert (Z0 : 0 <= z * z) by nra.
    set (X := x * x) in *. set (Y := y * y) in *. set (Z := z * z) in *. assert (ED0 : D = X + Y + Z) by reflexivity. clearbody X Y Z D.
    set (A := val a) in *. set (B := val b) in *. set (C := val c) in *. set (S := val s) in *. clearbody A B C S.
    set (t := u / 1000 * D) in *. assert (T : t = u / 1000 * D) by reflexivity. clearbody t.
    assert (UX : 0 <= u * X) by nra. assert (UY : 0 <= u * Y) by nra. assert (UZ : 0 <= u * Z) by nra.
    apply Rabs_le_inv in E1. apply Rabs_le_inv in E2. apply Rabs_le_inv in E3. apply Rabs_le_inv in R1. apply Rabs_le_inv in R2.
    assert (UD : u * D = u * X + u * Y + u * Z) by (rewrite ED0; ring).
    assert (UU : u * (u * D) <= 1 / 4000000000000000 * (u * D)) by (apply Rmult_le_compat_r; lra).
    assert (AB : Rabs (A + B) <= X + Y + (u * X + u * Y + 2 * t)) by (apply Rabs_le; lra).
    assert (UAB : u * Rabs (A + B) <= u * X + u * Y + (u * (u * D) + 2 * (u * t))).
    { apply Rle_trans with (u * (X + Y + (u * X + u * Y + 2 * t))); [apply Rmult_le_compat_l; lra|]. rewrite UD.
      assert (0 <= u * (u * Z)) by nra. lra. }
    assert (UT : u * t <= t / 1000000) by (assert (0 <= t) by nra; assert (u * t <= 1 / 4000000000000000 * t) by (apply Rmult_le_compat_r; lra); lra).
    assert (SC : Rabs (S + C) <= D + 3 * (u * D)).
    { apply Rabs_le. assert (t <= u * D / 1000) by (rewrite T; lra). lra. }
    assert (USC : u * Rabs (S + C) <= u * D + 3 * (u * (u * D))) by (apply Rle_trans with (u * (D + 3 * (u * D))); [apply Rmult_le_compat_l; lra|lra]).
    assert (TT : t = (u * D) / 1000) by (rewrite T; field).
    apply Rabs_le. split; lra.
  Qed.
  Lemma n_pos : 0 < n. Proof. apply sqrt_lt_R0. pose proof D_range as [H _]. pose proof (bpow_gt_0 radix2 (-800)). lra. Qed.
  Lemma n_sq : n * n = D. Proof. apply sqrt_sqrt. pose proof D_range as [H _]. pose proof (bpow_gt_0 radix2 (-800)). lra. Qed.
  Lemma n_range : bpow radix2 (-400) <= n <= 2 * bpow radix2 400.
  Proof.
    pose proof D_range as [H1 H2]. pose proof n_pos. pose proof n_sq as Q.
    assert (E8 : bpow radix2 800 = bpow radix2 400 * bpow radix2 400) by (rewrite <- bpow_plus; reflexivity).
    assert (E8' : bpow radix2 (-800) = bpow radix2 (-400) * bpow radix2 (-400)) by (rewrite <- bpow_plus; reflexivity).
    pose proof (bpow_gt_0 radix2 (-400)). pose proof (bpow_gt_0 radix2 400).
    set (p := bpow radix2 400) in *. set (q := bpow radix2 (-400)) in *. clearbody p q. rewrite E8' in H1. rewrite E8 in H2. rewrite <- Q in H1, H2. split; nra.
  Qed.
  Lemma len_near : finite_upto (bpow radix2 802) (@vlen NumSF v) /\ Rabs (val (@vlen NumSF v) - n) <= 252 / 100 * u * n.
  Proof.
    destruct len2_near as [FL EL]. pose proof D_range as [D1 D2]. pose proof n_pos as N0. pose proof n_sq as NQ. pose proof n_range as [N1 N2]. destruct u_small as [U0 U1].
    pose proof (bpow_gt_0 radix2 (-800)) as B0. unfold vlen. set (l := val (@vlen2 NumSF v)) in *.
    assert (LP : 0 < l). { apply Rabs_le_inv in EL. assert (301/100 * u * D <= 1/2 * D) by (apply Rmult_le_compat_r; lra). lra. }
    set (w := sqrt l). assert (W0 : 0 < w) by (apply sqrt_lt_R0; exact LP). assert (WQ : w * w = l) by (apply sqrt_sqrt; lra).
    assert (WN : Rabs (w - n) <= 1506 / 1000 * u * n).
    { (* |w - n| (w + n) = |l - D| <= 3.01 u n n *)
      assert (P : Rabs (w - n) * (w + n) <= 301 / 100 * u * (n * n)).
      { replace (Rabs (w - n) * (w + n)) with (Rabs (l - D)); [rewrite NQ; exact EL|]. rewrite <- (Rabs_pos_eq (w + n)) at 1 by lra. rewrite <- Rabs_mult. f_equal. rewrite <- WQ, <- NQ. ring. }
      assert (Q1 : Rabs (w - n) <= 301 / 100 * u * n).
      { pose proof (Rabs_pos (w - n)). apply (Rmult_le_reg_r n); [exact N0|]. nra. }
      assert (W1 : n * (1 - 301 / 100 * u) <= w) by (apply Rabs_le_inv in Q1; lra).
      apply (Rmult_le_reg_r (w + n)); [lra|]. refine (Rle_trans _ _ _ P _).
      assert (2 - 301/100 * u <= (w + n) / n).
      { apply (Rmult_le_reg_r n); [exact N0|]. replace ((w + n) / n * n) with (w + n) by (field; lra). lra. }
      replace (1506 / 1000 * u * n * (w + n)) with (1506 / 1000 * u * (n * n) * ((w + n) / n)) by (field; lra).
      apply Rle_trans with (1506 / 1000 * u * (n * n) * (2 - 301/100 * u)).
      - assert (0 < u * (n * n)) by (apply Rmult_lt_0_compat; nra). nra.
      - apply Rmult_le_compat_l; [|assumption]. assert (0 < u * (n * n)) by (apply Rmult_lt_0_compat; nra). lra. }
    assert (WB : sqrt l <= bpow radix2 802).
    { fold w. apply Rabs_le_inv in WN. assert (1506/1000 * u * n <= 1 * n) by (apply Rmult_le_compat_r; lra).
      apply Rle_trans with (4 * bpow radix2 400); [lra|]. change 4 with (bpow radix2 2). rewrite <- bpow_plus. apply bpow_le. lia. }
    destruct (sqrt_val 802 _ ltac:(lia) FL LP WB) as [VS FS]. split; [exact FS|]. rewrite VS. fold l w.
    pose proof (rnd_rel w) as RR. rewrite (Rabs_pos_eq w) in RR by lra.
    assert (WL : bpow radix2 (-1022) <= w).
    { apply Rabs_le_inv in WN. assert (1506/1000 * u * n <= 1/2 * n) by (apply Rmult_le_compat_r; lra).
      apply Rle_trans with (bpow radix2 (-401)); [apply bpow_le; lia|]. assert (bpow radix2 (-401) = 1/2 * bpow radix2 (-400)) by (change (-401)%Z with (-1 + -400)%Z; rewrite bpow_plus; change (bpow radix2 (-1)) with (/2); lra). lra. }
    specialize (RR WL). set (r := rnd64 w) in *. clearbody r. apply Rabs_le_inv in RR. apply Rabs_le_inv in WN.
    assert (UN : 0 < u * n) by (apply Rmult_lt_0_compat; lra).
    assert (UW : u * w <= u * n + 1/1000 * (u * n)).
    { assert (w <= n + 1/1000 * n) by (assert (1506/1000 * u * n <= 1/1000 * n) by (apply Rmult_le_compat_r; lra); lra).
      replace (u * n + 1/1000 * (u * n)) with (u * (n + 1/1000 * n)) by ring. apply Rmult_le_compat_l; lra. }
    apply Rabs_le. lra.
  Qed.
  (** one coordinate of the normalised vector *)
  Lemma coordinate_near a : finite_upto (bpow radix2 400) a -> Rabs (val a) <= n ->
    finite_upto 2 (@fdiv NumSF a (@vlen NumSF v)) /\ Rabs (val (@fdiv NumSF a (@vlen NumSF v)) - val a / n) <= 354 / 100 * u * Rabs (val a / n) + u / 1000.
  Proof.
    intros FA HA. destruct len_near as [FL EL]. pose proof n_pos as N0. destruct u_small as [U0 U1]. set (l := val (@vlen NumSF v)) in *.
    assert (L1 : Rabs (l / n - 1) <= 252 / 100 * u).
    { replace (l / n - 1) with ((l - n) / n) by (field; lra). unfold Rdiv. rewrite Rabs_mult, Rabs_inv, (Rabs_pos_eq n) by lra.
      apply (Rmult_le_reg_r n); [exact N0|]. rewrite Rmult_assoc, Rinv_l, Rmult_1_r by lra. exact EL. }
    assert (LP : 0 < l).
    { apply Rabs_le_inv in L1. assert (0 < l / n) by lra. replace l with (l / n * n) by (field; lra). apply Rmult_lt_0_compat; lra. }
    set (q := l / n) in *. set (c := val a / n).
    assert (C1 : Rabs c <= 1). { unfold c, Rdiv. rewrite Rabs_mult, Rabs_inv, (Rabs_pos_eq n) by lra. apply (Rmult_le_reg_r n); [exact N0|]. rewrite Rmult_assoc, Rinv_l by lra. lra. }
    assert (QC : val a / l = c / q) by (unfold c, q; field; lra). apply Rabs_le_inv in L1.
    assert (QP : 0 < q) by lra.
    assert (CQ : Rabs (c / q - c) <= 2521 / 1000 * u * Rabs c).
    { replace (c / q - c) with (c * ((1 - q) / q)) by (field; lra). rewrite Rabs_mult, Rmult_comm. apply Rmult_le_compat_r; [apply Rabs_pos|].
      unfold Rdiv. rewrite Rabs_mult, Rabs_inv, (Rabs_pos_eq q) by lra. apply (Rmult_le_reg_r q); [exact QP|]. rewrite Rmult_assoc, Rinv_l, Rmult_1_r by lra.
      apply Rabs_le. split; nra. }
    assert (B : Rabs (val a / l) <= bpow radix2 1).
    { rewrite QC. change (bpow radix2 1) with 2. replace (c / q) with (c + (c / q - c)) by ring. refine (Rle_trans _ _ _ (Rabs_triang _ _) _).
      pose proof (Rabs_pos c). assert (2521/1000 * u * Rabs c <= 1 * Rabs c) by (apply Rmult_le_compat_r; lra). lra. }
    destruct (div_val 1 ltac:(lia) _ _ a (@vlen NumSF v) FA FL ltac:(fold l; lra) B) as [VD FD]. fold l in VD. split; [exact FD|]. rewrite VD.
    pose proof (rnd_near (val a / l)) as RN. rewrite QC in *. set (w := c / q) in *. set (r := rnd64 w) in *. clearbody r w c q.
    assert (WB : Rabs w <= Rabs c + 2521 / 1000 * u * Rabs c) by (replace w with (c + (w - c)) by ring; refine (Rle_trans _ _ _ (Rabs_triang _ _) _); lra).
    replace (r - c) with ((r - w) + (w - c)) by ring. refine (Rle_trans _ _ _ (Rabs_triang _ _) _). pose proof (Rabs_pos c) as C0.
    assert (UW : u * Rabs w <= u * (Rabs c + 1 / 1000 * Rabs c)) by (apply Rmult_le_compat_l; [lra|]; assert (2521/1000 * u * Rabs c <= 1/1000 * Rabs c) by (apply Rmult_le_compat_r; lra); lra).
    assert (0 <= u * Rabs c) by nra. lra.
  Qed.
End Unit.

(** ** C97 *)
Theorem C97_unit : forall v : VecF, sizeable v ->
  let w := val_vec (vnormalized v) in let e := val_vec v in
  within 2 (vnormalized v) /\ close (/ 2 ^ 51) w (times (/ norm e) e) /\ Rabs (dot w w - 1) <= / 2 ^ 50.
Proof.
  intros v HV w e. pose proof (n_pos v HV) as N0. pose proof (n_sq v HV) as NQ. pose proof HV as (FX & FY & FZ & _).
  set (x := val (vx v)) in *. set (y := val (vy v)) in *. set (z := val (vz v)) in *. set (D := x * x + y * y + z * z) in *. set (n := sqrt D) in *.
  assert (EN : norm e = n) by reflexivity.
  assert (CB : forall a, a * a <= D -> Rabs a <= n) by (intros a Ha; apply Rabs_le; split; nra).
  assert (X : Rabs x <= n) by (apply CB; unfold D; nra). assert (Y : Rabs y <= n) by (apply CB; unfold D; nra). assert (Z : Rabs z <= n) by (apply CB; unfold D; nra).
  destruct (coordinate_near v HV (vx v) FX X) as [F1 E1]. destruct (coordinate_near v HV (vy v) FY Y) as [F2 E2]. destruct (coordinate_near v HV (vz v) FZ Z) as [F3 E3].
  fold x y z D n in E1, E2, E3. unfold x in E1 at 2. fold x in E1.
  split; [exact (conj F1 (conj F2 F3))|].
  set (a := val (@fdiv NumSF (vx v) (@vlen NumSF v))) in *. set (b := val (@fdiv NumSF (vy v) (@vlen NumSF v))) in *. set (c := val (@fdiv NumSF (vz v) (@vlen NumSF v))) in *.
  assert (W : w = pt a b c) by reflexivity. rewrite W. rewrite EN. destruct u_small as [U0 U1].
  assert (R1 : forall k, Rabs k <= n -> Rabs (k / n) <= 1).
  { intros k Hk. unfold Rdiv. rewrite Rabs_mult, Rabs_inv, (Rabs_pos_eq n) by lra. apply (Rmult_le_reg_r n); [exact N0|]. rewrite Rmult_assoc, Rinv_l by lra. lra. }
  pose proof (R1 _ X) as X1. pose proof (R1 _ Y) as Y1. pose proof (R1 _ Z) as Z1.
  assert (S : x / n * (x / n) + y / n * (y / n) + z / n * (z / n) = 1).
  { replace (x / n * (x / n) + y / n * (y / n) + z / n * (z / n)) with (D / (n * n)) by (unfold D; field; lra). rewrite NQ. field. rewrite <- NQ. nra. }
  assert (T : times (/ n) e = pt (x / n) (y / n) (z / n)) by (unfold times, e, val_vec, pt; cbn [vx vy vz]; f_equal; match goal with |- ?p = ?q => change (@eq R p q) end; unfold x, y, z; field; lra).
  rewrite T. clearbody a b c. set (p := x / n) in *. set (q := y / n) in *. set (r := z / n) in *. clearbody p q r.
  assert (ES : forall k k', Rabs (k - k') <= 354 / 100 * ulp1 * Rabs k' + ulp1 / 1000 -> Rabs k' <= 1 -> Rabs (k - k') <= / 2 ^ 51 /\ Rabs (k * k - k' * k') <= 709 / 100 * ulp1 * (k' * k') + 3 / 1000 * ulp1).
  { intros k k' H1 H2. split.
    - assert (354 / 100 * ulp1 * Rabs k' <= 354 / 100 * ulp1 * 1) by (apply Rmult_le_compat_l; lra). rewrite ulp1_val in *. lra.
    - set (d := k - k') in *. replace (k * k - k' * k') with (d * (2 * k' + d)) by (unfold d; ring). rewrite Rabs_mult. pose proof (Rabs_pos k') as K0. pose proof (Rabs_pos d) as D0.
      assert (T1 : Rabs (2 * k' + d) <= 2 * Rabs k' + Rabs d) by (refine (Rle_trans _ _ _ (Rabs_triang _ _) _); rewrite Rabs_mult, (Rabs_pos_eq 2); lra).
      replace (k' * k') with (Rabs k' * Rabs k') by (rewrite <- Rabs_mult; apply Rabs_pos_eq; nra). set (K := Rabs k') in *. set (m := Rabs d) in *. clearbody K m.
      apply Rle_trans with (m * (2 * K + m)); [apply Rmult_le_compat_l; lra|].
      assert (M1 : m <= 4 * ulp1) by (assert (354 / 100 * ulp1 * K <= 354 / 100 * ulp1 * 1) by (apply Rmult_le_compat_l; lra); lra).
      assert (M2 : m * m <= ulp1 / 10000) by (assert (m * m <= (4 * ulp1) * (4 * ulp1)) by (apply Rmult_le_compat; lra); assert (ulp1 * ulp1 <= 1 / 4000000000000000 * ulp1) by (apply Rmult_le_compat_r; lra); lra).
      assert (M3 : m * (2 * K) <= (354 / 100 * ulp1 * K + ulp1 / 1000) * (2 * K)) by (apply Rmult_le_compat_r; lra).
      assert (M4 : ulp1 * K <= ulp1 * 1) by (apply Rmult_le_compat_l; lra). assert (0 <= ulp1 * (K * K)) by (apply Rmult_le_pos; nra). nra. }
  destruct (ES _ _ E1 X1) as [A1 A2]. destruct (ES _ _ E2 Y1) as [B1 B2]. destruct (ES _ _ E3 Z1) as [C1 C2].
  split; [exact (conj A1 (conj B1 C1))|]. unfold dot, pt. cbn [vx vy vz].
  apply Rabs_le_inv in A2. apply Rabs_le_inv in B2. apply Rabs_le_inv in C2.
  assert (SS : 709/100 * ulp1 * (p * p) + 709/100 * ulp1 * (q * q) + 709/100 * ulp1 * (r * r) = 709/100 * ulp1) by (replace (709/100 * ulp1) with (709/100 * ulp1 * (p * p + q * q + r * r)) at 4 by (rewrite S; ring); ring).
  rewrite ulp1_val in *. apply Rabs_le. split; lra.
Qed.
Print Assumptions C97_unit.
Example C97_hyp : sizeable (@V3 NumSF (sf_ofZ 3) (sf_ofZ (-4)) (sf_ofZ 12)).
Proof.
  assert (I : forall z, (Z.abs z <= 12)%Z -> finite_upto (bpow radix2 400) (sf_ofZ z)).
  { intros z Hz. destruct (small_int z 12 ltac:(lia)) as [_ H]; [rewrite <- abs_IZR; apply IZR_le; exact Hz|]. apply (finite_weaken _ _ _ H).
    apply Rle_trans with (bpow radix2 4); [change (bpow radix2 4) with 16; lra|apply bpow_le; lia]. }
  split; [apply I; lia|]. split; [apply I; lia|]. split; [apply I; lia|]. left. cbn [vx]. destruct (small_int 3 3 ltac:(lia)) as [V _]; [rewrite Rabs_pos_eq; lra|].
  rewrite V, Rabs_pos_eq by lra. apply Rle_trans with (bpow radix2 0); [apply bpow_le; lia|change (bpow radix2 0) with 1; lra].
Qed.
(** outside that range the result is not a unit vector: the squared length underflows to zero or overflows to infinity *)
Theorem C97_extreme_refuted :
  vx (vnormalized (@V3 NumSF (S754_finite false 4503599627370496 (-652)) (sf_ofZ 0) (sf_ofZ 0))) = S754_infinity false /\
  vnormalized (@V3 NumSF (S754_finite false 4503599627370496 548) (sf_ofZ 0) (sf_ofZ 0)) = @V3 NumSF (sf_ofZ 0) (sf_ofZ 0) (sf_ofZ 0).
Proof.
  assert (A : (vx (vnormalized (@V3 NumSF (S754_finite false 4503599627370496 (-652)) (sf_ofZ 0) (sf_ofZ 0))) : spec_float) = S754_infinity false) by (vm_compute; reflexivity).
  assert (B : forall f : VecF -> spec_float, (forall a b c, f (@V3 NumSF a b c) = a) \/ (forall a b c, f (@V3 NumSF a b c) = b) \/ (forall a b c, f (@V3 NumSF a b c) = c) ->
    f (vnormalized (@V3 NumSF (S754_finite false 4503599627370496 548) (sf_ofZ 0) (sf_ofZ 0))) = S754_zero false).
  { intros f [H|[H|H]]; unfold vnormalized, vdivs; rewrite H; cbn [vx vy vz]; vm_compute; reflexivity. }
  split; [exact A|]. pose proof (B (@vx NumSF) (or_introl (fun _ _ _ => eq_refl))) as B1. pose proof (B (@vy NumSF) (or_intror (or_introl (fun _ _ _ => eq_refl)))) as B2.
  pose proof (B (@vz NumSF) (or_intror (or_intror (fun _ _ _ => eq_refl)))) as B3. destruct (vnormalized _) as [a b c]. cbn [vx vy vz] in *.
  exact (f_equal3 (@V3 NumSF) B1 B2 B3).
Qed.
Print Assumptions C97_extreme_refuted.

(** ** C95 continued: the reported normal *)
Lemma reverse_triangle (a b : VecR) : Rabs (norm a - norm b) <= norm (minus a b).
Proof.
  pose proof (norm_plus_le b (minus a b)) as H1. pose proof (norm_plus_le a (minus b a)) as H2.
  replace (plus b (minus a b)) with a in H1 by (clear; dvec; apply vec_ext; vunf; ring). replace (plus a (minus b a)) with b in H2 by (clear; dvec; apply vec_ext; vunf; ring).
  assert (E : norm (minus b a) = norm (minus a b)) by (unfold norm; f_equal; clear; dvec; vunf; ring). rewrite E in H2. apply Rabs_le. lra.
Qed.
Lemma three_squares (x y z n : R) : 0 <= n -> n * n = x * x + y * y + z * z -> Rabs x <= n /\ Rabs y <= n /\ Rabs z <= n.
Proof. intros H0 H. repeat split; apply Rabs_le; split; nra. Qed.
Lemma three_small (x y z n E : R) : 0 <= n -> 0 <= E -> n * n = x * x + y * y + z * z -> x * x <= E * E -> y * y <= E * E -> z * z <= E * E -> n <= 1733 / 1000 * E.
Proof. intros. nra. Qed.
Lemma norm_square (a : VecR) : 0 <= norm a /\ norm a * norm a = vx a * vx a + vy a * vy a + vz a * vz a.
Proof.
  split; [apply sqrt_pos|]. apply (sqrt_sqrt (dot a a)). destruct a as [x y z]. unfold dot. cbn [vx vy vz]. change (0 <= (x * x + y * y + z * z : R)). nra.
Qed.
Lemma coord_le (a : VecR) : Rabs (vx a) <= norm a /\ Rabs (vy a) <= norm a /\ Rabs (vz a) <= norm a.
Proof. destruct (norm_square a) as [H0 H]. exact (three_squares _ _ _ _ H0 H). Qed.
Lemma norm_small (a : VecR) E : 0 <= E -> Rabs (vx a) <= E -> Rabs (vy a) <= E -> Rabs (vz a) <= E -> norm a <= 1733 / 1000 * E.
Proof.
  intros H0 HX HY HZ. destruct (norm_square a) as [N0 N1].
  exact (three_small _ _ _ _ _ N0 H0 N1 (square_le _ _ HX) (square_le _ _ HY) (square_le _ _ HZ)).
Qed.
(** unit vectors of two close vectors *)
Lemma unit_close (a b : VecR) E : 0 <= E -> close E a b -> 0 < norm b -> 1733 / 1000 * E < norm b ->
  0 < norm a /\ close (274 / 100 * (E / norm b)) (times (/ norm a) a) (times (/ norm b) b).
Proof.
  intros H0 (HX & HY & HZ) NB HN. pose proof (reverse_triangle a b) as RT. pose proof (norm_small (minus a b) E H0 HX HY HZ) as NS.
  assert (NA : 0 < norm a) by (apply Rabs_le_inv in RT; lra). split; [exact NA|].
  destruct (coord_le a) as (AX & AY & AZ). set (p := norm a) in *. set (q := norm b) in *. set (m := norm (minus a b)) in *. clearbody p q m.
  assert (C : forall x y, Rabs (x - y) <= E -> Rabs x <= p -> Rabs (/ p * x - / q * y) <= 274 / 100 * (E / q)).
  { intros x y H1 H2. replace (/ p * x - / q * y) with ((x - y) / q + x / p * ((q - p) / q)) by (field; lra).
    refine (Rle_trans _ _ _ (Rabs_triang _ _) _). unfold Rdiv. rewrite !Rabs_mult, !Rabs_inv, (Rabs_pos_eq q), (Rabs_pos_eq p) by lra.
    assert (I : 0 < / q) by (apply Rinv_0_lt_compat; lra). assert (P1 : Rabs x * / p <= 1) by (apply (Rmult_le_reg_r p); [lra|]; rewrite Rmult_assoc, Rinv_l by lra; lra).
    assert (P2 : Rabs (q - p) * / q <= 1733 / 1000 * E * / q) by (apply Rmult_le_compat_r; [lra|]; rewrite Rabs_minus_sym; lra).
    assert (P3 : Rabs (x - y) * / q <= E * / q) by (apply Rmult_le_compat_r; lra).
    assert (P4 : 0 <= Rabs (q - p) * / q) by (apply Rmult_le_pos; [apply Rabs_pos|lra]). assert (P5 : 0 <= Rabs x * / p) by (apply Rmult_le_pos; [apply Rabs_pos|apply Rlt_le, Rinv_0_lt_compat; lra]).
    assert (P6 : Rabs x * / p * (Rabs (q - p) * / q) <= 1 * (Rabs (q - p) * / q)) by (apply Rmult_le_compat_r; assumption). assert (0 <= E * / q) by (apply Rmult_le_pos; lra). lra. }
  unfold close, times, pt. cbn [vx vy vz]. split; [|split]; apply C; assumption.
Qed.
Lemma neg_one_mul B x : finite_upto B x -> B <= BIG -> val (@fmul NumSF x (@fneg NumSF f1)) = - val x /\ finite_upto BIG (@fmul NumSF x (@fneg NumSF f1)).
Proof.
  intros FX HB. assert (E : (@fneg NumSF f1 : spec_float) = sf_ofZ (-1)) by (vm_compute; reflexivity). rewrite E. clear E.
  destruct (small_int (-1) 1 ltac:(lia)) as [V FO]; [rewrite Rabs_left; lra|].
  assert (BB : Rabs (val x * val (sf_ofZ (-1))) <= BIG). { rewrite V, Rabs_mult, (Rabs_left (-1)) by lra. destruct FX as (_ & _ & H). lra. }
  destruct (mul_val 90 ltac:(lia) _ _ x _ FX FO BB) as [VM FM]. split; [|exact FM]. rewrite VM, V.
  replace (val x * -1) with (val (@fneg NumSF x)) by (destruct (neg_val _ _ FX) as [Q _]; rewrite Q; ring).
  destruct (neg_val _ _ FX) as [Q FN]. rewrite (rnd_id _ _ FN). exact Q.
Qed.

Section Normal.
  Variables (L : R) (t : TriF) (ray : RayF).
  Hypothesis HS : at_scale L t ray.
  Let V := volume (val_ray ray) (val_tri t).
  Hypothesis HV : 9 / 1000000 <= Rabs V.
  Let e1 := minus (val_vec (tb t)) (val_vec (ta t)).
  Let e2 := minus (val_vec (tc t)) (val_vec (ta t)).
  Let c := cross e1 e2.
  Let c' := @vcross NumSF (vsub (tb t) (ta t)) (vsub (tc t) (ta t)).
  Let W := ulp1 * L ^ 2.
  Let d := val_vec (direction ray).
  Lemma W_small : 0 < W <= 1 / 8000000000 /\ ulp1 <= W.
  Proof.
    pose proof (W_range _ _ _ HS) as WR. unfold W. rewrite ulp1_val. split; [split|].
    - apply Rmult_lt_0_compat; lra.
    - apply Rle_trans with (/ 2 ^ 53 * 2 ^ 20); [apply Rmult_le_compat_l; lra|lra].
    - assert (/ 2 ^ 53 * 1 <= / 2 ^ 53 * L ^ 2) by (apply Rmult_le_compat_l; lra). lra.
  Qed.
  Lemma cross_near : nearv L 2 8 (333/10) c' c.
  Proof.
    destruct HS as ((L1 & L2) & HA & HB & HC & _).
    pose proof (within_near L L2 _ HA) as NA. pose proof (within_near L L2 _ HB) as NB. pose proof (within_near L L2 _ HC) as NC.
    assert (S : forall p q : VecF, nearv L 1 1 0 p (val_vec p) -> nearv L 1 1 0 q (val_vec q) -> nearv L 1 2 (21/10) (vsub p q) (minus (val_vec p) (val_vec q))).
    { intros p q P Q. apply (nearv_sub L L1 L2 1 1 0 1 0 2 (21/10) p q _ _ P Q); first [lia|lra]. }
    apply (nearv_cross L L1 L2 1 1 2 (21/10) 2 (21/10) 4 (1245/100) _ _ _ _ _ _ (S _ _ NB NA) (S _ _ NC NA)); first [lia|lra].
  Qed.
  Lemma cross_close : close (333/10 * W) (val_vec c') c.
  Proof.
    destruct cross_near as ((_ & _ & X) & (_ & _ & Y) & (_ & _ & Z)). unfold W. rewrite <- Rmult_assoc. exact (conj X (conj Y Z)).
  Qed.
  Lemma d_norm : norm d <= 1001 / 1000.
  Proof.
    destruct HS as (_ & _ & _ & _ & _ & _ & HU). fold d in HU. apply Rabs_le_inv in HU. destruct (norm_square d) as [H0 H].
    change (norm d * norm d = dot d d) in H. nra.
  Qed.
  Lemma V_dot : dot c d = - V.
  Proof. unfold c, e1, e2, d, V. rewrite volume_winding. unfold val_ray, val_tri. cbn [ta tb tc direction]. ring. Qed.
  Lemma c_norm : 8 / 1000000 <= norm c /\ Rabs V <= 1001 / 1000 * norm c /\ norm c <= 139 / 10 * L ^ 2.
  Proof.
    pose proof d_norm as DN. destruct (norm_square d) as [D0 _]. destruct (norm_square c) as [C0 _].
    assert (A : Rabs V <= norm c * norm d).
    { pose proof (cauchy c d) as K1. pose proof (cauchy (times (-1) c) d) as K2. rewrite norm_scaled, (Rabs_left (-1)), dot_times_l in K2 by lra. rewrite V_dot in K1, K2.
      apply Rabs_le. lra. }
    assert (B : norm c * norm d <= norm c * (1001 / 1000)) by (apply Rmult_le_compat_l; assumption).
    split; [lra|]. split; [lra|]. destruct cross_near as ((_ & X & _) & (_ & Y & _) & (_ & Z & _)).
    pose proof (W_range _ _ _ HS) as WR. pose proof (norm_small c (8 * L ^ 2) ltac:(lra) X Y Z). lra.
  Qed.
  Lemma cross_sizeable : sizeable c'.
  Proof.
    destruct cross_near as ((FX & _ & _) & (FY & _ & _) & (FZ & _ & _)). destruct cross_close as (CX & CY & CZ). destruct c_norm as (N1 & _ & _). destruct W_small as [[W0 W1] _].
    assert (B : BIG <= bpow radix2 400) by (apply bpow_le; lia).
    split; [apply (finite_weaken _ _ _ FX B)|]. split; [apply (finite_weaken _ _ _ FY B)|]. split; [apply (finite_weaken _ _ _ FZ B)|].
    assert (T : bpow radix2 (-400) <= 1 / 1000000) by (apply Rle_trans with (bpow radix2 (-20)); [apply bpow_le; lia|cbn; lra]).
    destruct (Rle_or_lt (bpow radix2 (-400)) (Rabs (val (vx c')))) as [|GX]; [auto|]. destruct (Rle_or_lt (bpow radix2 (-400)) (Rabs (val (vy c')))) as [|GY]; [auto|].
    destruct (Rle_or_lt (bpow radix2 (-400)) (Rabs (val (vz c')))) as [|GZ]; [auto|]. exfalso.
    assert (K : forall a b : R, Rabs (a - b) <= 333/10 * W -> Rabs a < bpow radix2 (-400) -> Rabs b <= 2 / 1000000).
    { intros a b H1 H2. apply Rabs_le_inv in H1. assert (H3 : Rabs a <= bpow radix2 (-400)) by lra. apply Rabs_le_inv in H3. apply Rabs_le. lra. }
    pose proof (norm_small c (2 / 1000000) ltac:(lra) (K _ _ CX GX) (K _ _ CY GY) (K _ _ CZ GZ)). lra.
  Qed.
  Let k := W / norm c.
  Let m := @vnormalized NumSF c'.
  Lemma k_range : 0 < k /\ k <= 1 / 60000 /\ ulp1 <= 139/10 * k /\ Rabs V / norm c >= 70000 * k.
  Proof.
    destruct c_norm as (N1 & N2 & N3). destruct W_small as [[W0 W1] W2]. unfold k. assert (I : 0 < / norm c) by (apply Rinv_0_lt_compat; lra).
    assert (I2 : / norm c <= / (8 / 1000000)) by (apply Rinv_le_contravar; lra). unfold Rdiv. split; [apply Rmult_lt_0_compat; lra|]. split.
    { apply Rle_trans with (1 / 8000000000 * / (8 / 1000000)); [apply Rmult_le_compat; lra|lra]. }
    split.
    { apply (Rmult_le_reg_r (norm c)); [lra|]. replace (139 * / 10 * (W * / norm c) * norm c) with (139/10 * W) by (field; lra). unfold W.
      replace (139/10 * (ulp1 * L ^ 2)) with (ulp1 * (139/10 * L ^ 2)) by ring. pose proof ulp1_pos. apply Rmult_le_compat_l; lra. }
    apply Rle_ge. rewrite <- Rmult_assoc. apply Rmult_le_compat_r; lra.
  Qed.
  Lemma normal_close : within 2 m /\ close (147 * k) (val_vec m) (times (/ norm c) c) /\ Rabs (dot (val_vec m) (val_vec m) - 1) <= / 2 ^ 50.
  Proof.
    destruct (C97_unit c' cross_sizeable) as (F1 & C1 & U1). fold m in F1, C1, U1. split; [exact F1|]. split; [|exact U1].
    destruct c_norm as (N1 & N2 & N3). destruct W_small as [[W0 W1] W2]. destruct k_range as (K0 & K1 & K2 & _).
    destruct (unit_close (val_vec c') c (333/10 * W) ltac:(lra) cross_close ltac:(lra) ltac:(lra)) as [_ C2].
    assert (E : 274 / 100 * (333 / 10 * W / norm c) <= 91.3 * k) by (unfold k; replace (333/10 * W / norm c) with (333/10 * (W / norm c)) by (field; lra); fold k; lra).
    assert (U : / 2 ^ 51 <= 55.6 * k) by (rewrite ulp1_val in K2; lra).
    destruct C1 as (A1 & A2 & A3), C2 as (B1 & B2 & B3).
    assert (T : forall a b x : R, Rabs (a - b) <= / 2 ^ 51 -> Rabs (b - x) <= 274 / 100 * (333 / 10 * W / norm c) -> Rabs (a - x) <= 147 * k).
    { intros a b x H1 H2. replace (a - x) with ((a - b) + (b - x)) by ring. refine (Rle_trans _ _ _ (Rabs_triang _ _) _). lra. }
    exact (conj (T _ _ _ A1 B1) (conj (T _ _ _ A2 B2) (T _ _ _ A3 B3))).
  Qed.
  (** the cosine that decides the side, and its exact value *)
  Lemma cosine : Rabs (dot (val_vec m) d - dot (times (/ norm c) c) d) <= 442 * k /\
    finite_upto BIG (@vdot NumSF m (direction ray)) /\ Rabs (val (@vdot NumSF m (direction ray)) - dot (val_vec m) d) <= 128 * k.
  Proof.
    destruct normal_close as (F1 & (C1 & C2 & C3) & U1). destruct k_range as (K0 & K1 & K2 & _).
    destruct HS as ((L1 & L2) & _ & _ & _ & _ & HD & HU). pose proof (direction_near L _ HD HU) as ND. fold d in ND.
    assert (NM : nearv L 0 (1001/1000) 0 m (val_vec m)) by (apply direction_near; [exact F1|lra]).
    split.
    - destruct ND as ((_ & X & _) & (_ & Y & _) & (_ & Z & _)). cbn [pow] in X, Y, Z. rewrite Rmult_1_r in X, Y, Z.
      set (a := val_vec m) in *. set (b := times (/ norm c) c) in *. clearbody a b d. unfold dot.
      assert (T : forall p q r : R, Rabs (p - q) <= 147 * k -> Rabs r <= 1001 / 1000 -> Rabs (p * r - q * r) <= 147.2 * k).
      { intros p q r H1 H2. replace (p * r - q * r) with ((p - q) * r) by ring. rewrite Rabs_mult. apply Rle_trans with (147 * k * (1001/1000)); [apply Rmult_le_compat; try apply Rabs_pos; assumption|lra]. }
      pose proof (T _ _ _ C1 X) as T1. pose proof (T _ _ _ C2 Y) as T2. pose proof (T _ _ _ C3 Z) as T3.
      apply Rabs_le_inv in T1. apply Rabs_le_inv in T2. apply Rabs_le_inv in T3. apply Rabs_le. lra.
    - assert (N : near L (0 + 0) (31/10) (9) (@vdot NumSF m (direction ray)) (dot (val_vec m) d)).
      { apply (near_dot L L1 L2 0 0 (1001/1000) 0 (1001/1000) 0 (101/100) (102/100) (202/100) (407/100) _ _ _ _ _ _ NM ND); first [lia|lra]. }
      destruct N as (F2 & _ & E). split; [exact F2|]. cbn [Nat.add pow] in E. rewrite Rmult_1_r in E. lra.
  Qed.
  Lemma exact_cosine : dot (times (/ norm c) c) d = - V / norm c.
  Proof. rewrite dot_times_l, V_dot. unfold Rdiv. ring. Qed.
End Normal.

Theorem C95_hit_normal : forall L (t : TriF) (ray : RayF) info, at_scale L t ray -> triangle_intersect t ray = Some info ->
  let n := val_vec (i_normal info) in let d := direction (val_ray ray) in
  let c := cross (minus (tb (val_tri t)) (ta (val_tri t))) (minus (tc (val_tri t)) (ta (val_tri t))) in
  Rabs (dot n n - 1) <= / 2 ^ 50 /\ dot n d < 0 /\
  (i_side info = Front <-> dot c d < 0) /\ (i_side info = Back <-> dot c d > 0) /\
  close (blur L ray t) n (times (match i_side info with Back => - / norm c | _ => / norm c end) c).
Proof.
  intros L t ray info HS H n d c. destruct (C95_hit_sound L t ray info HS H) as [BL _].
  assert (HV : 9 / 1000000 <= Rabs (volume (val_ray ray) (val_tri t))) by exact (hit_volume L t ray info HS H).
  unfold triangle_intersect in H. destruct (baricentric_coordinates ray t) as [[[p x] y]|]; [|discriminate H].
  assert (Q : new_info t p x y (direction ray) = info) by (clear -H; congruence). clear H. subst info.
  pose proof (normal_close L t ray HS HV) as (F1 & C1 & U1). pose proof (cosine L t ray HS HV) as (CS1 & FD & CS2). pose proof (exact_cosine t ray) as EC.
  pose proof (V_dot t ray) as VD. pose proof (k_range L t ray HS HV) as (K0 & K1 & K2 & K3). pose proof (c_norm L t ray HS HV) as (N1 & N2 & N3). pose proof (blur_K L t ray HV) as EB.
  change (cross (minus (val_vec (tb t)) (val_vec (ta t))) (minus (val_vec (tc t)) (val_vec (ta t)))) with c in *. change (val_vec (direction ray)) with d in *.
  set (V := volume (val_ray ray) (val_tri t)) in *. set (m := @vnormalized NumSF _) in *. set (D := @vdot NumSF m (direction ray)) in *.
  set (k := ulp1 * L ^ 2 / norm c) in *.
  assert (KB : 147 * k <= blur L ray t).
  { rewrite EB. assert (k <= 1001 / 1000 * (ulp1 * L ^ 2 / Rabs V)).
    { unfold k. apply (Rmult_le_reg_r (norm c * Rabs V)); [apply Rmult_lt_0_compat; lra|].
      replace (ulp1 * L ^ 2 / norm c * (norm c * Rabs V)) with (ulp1 * L ^ 2 * Rabs V) by (field; lra).
      replace (1001 / 1000 * (ulp1 * L ^ 2 / Rabs V) * (norm c * Rabs V)) with (ulp1 * L ^ 2 * (1001 / 1000 * norm c)) by (field; lra).
      apply Rmult_le_compat_l; [|exact N2]. pose proof ulp1_pos. pose proof (W_range _ _ _ HS). nra. }
    pose proof (KR L t ray HS HV) as [[KK _] _]. fold V in KK. lra. }
  assert (DV : Rabs (val D - - V / norm c) <= 570 * k).
  { replace (val D - - V / norm c) with ((val D - dot (val_vec m) d) + (dot (val_vec m) d - - V / norm c)) by ring. rewrite <- EC. refine (Rle_trans _ _ _ (Rabs_triang _ _) _). lra. }
  assert (MV : Rabs (dot (val_vec m) d - - V / norm c) <= 442 * k) by (rewrite <- EC; exact CS1).
  assert (Z0 : val (@f0 NumSF) = 0 /\ finite_upto BIG (@f0 NumSF)).
  { assert (E : (@f0 NumSF : spec_float) = sf_ofZ 0) by (vm_compute; reflexivity). rewrite E. apply small_int; [lia|]. rewrite Rabs_R0, BIG_val. lra. }
  destruct Z0 as [VZ FZ]. rewrite VD.
  apply Rabs_le_inv in DV. apply Rabs_le_inv in MV. 
  assert (SG : (0 < V /\ val D < 0 /\ dot (val_vec m) d < 0) \/ (V < 0 /\ 0 < val D /\ 0 < dot (val_vec m) d)).
  { assert (HA : Rabs V / norm c = Rabs (V / norm c)) by (unfold Rdiv; rewrite Rabs_mult, (Rabs_pos_eq (/ norm c)); [reflexivity|apply Rlt_le, Rinv_0_lt_compat; lra]).
    assert (NV : - V / norm c = - (V / norm c)) by (field; lra). rewrite NV in DV, MV.
    assert (VP : V = V / norm c * norm c) by (field; lra).
    destruct (Rle_or_lt 0 (V / norm c)) as [P|P]; [left; rewrite (Rabs_pos_eq (V / norm c) P) in HA|right; rewrite (Rabs_left (V / norm c) P) in HA].
    - assert (0 < V / norm c) by lra. split; [rewrite VP; apply Rmult_lt_0_compat; lra|]. split; lra.
    - split; [rewrite VP; nra|]. split; lra. }
  subst n. unfold new_info. cbv zeta. unfold get_side. cbv zeta.
  fold m. fold D. rewrite (ltb_val _ _ _ FD FZ), (ltb_val _ _ _ FZ FD), VZ.
  destruct SG as [(S1 & S2 & S3)|(S1 & S2 & S3)].
  - rewrite Rlt_bool_true by exact S2. cbn [i_normal i_side]. split; [exact U1|]. split; [exact S3|]. split; [split; [lra|reflexivity]|]. split; [split; [discriminate|lra]|].
    destruct C1 as (A1 & A2 & A3). split; [|split]; (eapply Rle_trans; [eassumption|exact KB]).
  - rewrite Rlt_bool_false by lra. rewrite Rlt_bool_true by exact S2. cbn [i_normal i_side].
    assert (MN : val_vec (@vscale NumSF m (@fneg NumSF f1)) = times (-1) (val_vec m)).
    { destruct F1 as (M1 & M2 & M3). assert (B2 : 2 <= BIG) by (rewrite BIG_val; lra). unfold val_vec, vscale, times, pt. cbn [vx vy vz].
      rewrite (proj1 (neg_one_mul _ _ M1 B2)), (proj1 (neg_one_mul _ _ M2 B2)), (proj1 (neg_one_mul _ _ M3 B2)).
      f_equal; match goal with |- ?a = ?b => change (@eq R a b) end; ring. }
    rewrite MN. split; [|split; [|split; [|split]]].
    + replace (dot (times (-1) (val_vec m)) (times (-1) (val_vec m))) with (dot (val_vec m) (val_vec m)) by (generalize (val_vec m); clear; intros; dvec; vunf; ring). exact U1.
    + rewrite dot_times_l. lra.
    + split; [discriminate|lra].
    + split; [lra|reflexivity].
    + destruct C1 as (A1 & A2 & A3). 
      assert (T : forall a b : R, Rabs (a - / norm c * b) <= 147 * k -> Rabs (-1 * a - - / norm c * b) <= blur L ray t).
      { intros a b Hab. replace (-1 * a - - / norm c * b) with (- (a - / norm c * b)) by ring. rewrite Rabs_Ropp. lra. }
      exact (conj (T _ _ A1) (conj (T _ _ A2) (T _ _ A3))).
Qed.
Print Assumptions C95_hit_normal.
