(** * Property C103: the directions and points drawn in single precision

    The draws, square roots, sines and cosines of samplers.rs are `f32`; C52 is about the same formulas in exact
    arithmetic.  Here they are in the program's own mixed precision (Mixed.v), for any sine and cosine of `f32` that are
    accurate to one unit in the last place of 1. *)
From Coq Require Import ZArith SpecFloat Reals Lra Lia Psatz List.
From Flocq Require Import Core BinarySingleNaN Relative.
From Verif Require Import Num NumR NumSF NumSF32 SFBridge FloatOps FloatRound FloatError Geometry Samplers Colour Mixed Single.
Import ListNotations.
Open Scope R_scope.

(** ** specification *)
(** the sine and cosine of `f32` are right to within 2^-24, and its pi to within 2^-23 *)
Definition accurate32 (T : Trig NumSF32) : Prop :=
  fin32 (@fpi NumSF32 T) /\ Rabs (val (@fpi NumSF32 T) - PI) <= / 2 ^ 23 /\
  forall x, fin32 x -> 0 <= val x <= 7 ->
    fin32 (@fsin NumSF32 T x) /\ Rabs (val (@fsin NumSF32 T x) - sin (val x)) <= / 2 ^ 24 /\
    fin32 (@fcos NumSF32 T x) /\ Rabs (val (@fcos NumSF32 T x) - cos (val x)) <= / 2 ^ 24.
(** a single precision number between 0 and 1 *)
Definition draw01 (x : @F NumSF32) : Prop := fin32 x /\ 0 <= val x <= 1.

(** ** errors in single precision *)
Definition near32 (e : R) (x : @F NumSF32) (r : R) : Prop := fin32 x /\ Rabs (val x - r) <= e.
Lemma u32_val : u32 = 1 / 16777216. Proof. unfold u32. lra. Qed.
Lemma rerr s t : Rabs s <= t -> Rabs (rnd32 s - s) <= (t + 1 / 1000) * (1 / 16777216).
Proof. intros H. pose proof (rnd32_error s) as E. rewrite u32_val in E. lra. Qed.
Lemma n_tri a b c e e' : Rabs (a - b) <= e -> Rabs (b - c) <= e' -> Rabs (a - c) <= e + e'.
Proof. intros H1 H2. replace (a - c) with ((a - b) + (b - c)) by ring. apply (Rle_trans _ _ _ (Rabs_triang _ _)). lra. Qed.
Lemma n_size a r e m : Rabs (a - r) <= e -> Rabs r <= m -> Rabs a <= m + e.
Proof. intros H1 H2. replace a with (r + (a - r)) by ring. apply (Rle_trans _ _ _ (Rabs_triang _ _)). lra. Qed.
Lemma prod_error a r b q e1 e2 A B : Rabs (a - r) <= e1 -> Rabs (b - q) <= e2 -> Rabs r <= A -> Rabs q <= B -> Rabs (a * b - r * q) <= e1 * B + e2 * A + e1 * e2.
Proof.
  intros H1 H2 H3 H4. replace (a * b - r * q) with ((a - r) * q + (b - q) * r + (a - r) * (b - q)) by ring.
  refine (Rle_trans _ _ _ (Rabs_triang _ _) _). refine (Rle_trans _ _ _ (Rplus_le_compat_r _ _ _ (Rabs_triang _ _)) _). rewrite !Rabs_mult.
  pose proof (Rmult_le_compat _ _ _ _ (Rabs_pos (a - r)) (Rabs_pos q) H1 H4). pose proof (Rmult_le_compat _ _ _ _ (Rabs_pos (b - q)) (Rabs_pos r) H2 H3).
  pose proof (Rmult_le_compat _ _ _ _ (Rabs_pos (a - r)) (Rabs_pos (b - q)) H1 H2). lra.
Qed.
Lemma n_exact x : fin32 x -> near32 0 x (val x).
Proof. intros H. split; [exact H|]. unfold Rminus. rewrite Rplus_opp_r, Rabs_R0. lra. Qed.
Lemma n_weaken e e' x r : near32 e x r -> e <= e' -> near32 e' x r.
Proof. intros [H1 H2] H. split; [exact H1|lra]. Qed.
Lemma n_mul A B e1 e2 e x y r q : near32 e1 x r -> near32 e2 y q -> Rabs r <= A -> Rabs q <= B -> A * B + (e1 * B + e2 * A + e1 * e2) <= 1024 ->
  (e1 * B + e2 * A + e1 * e2) + (A * B + (e1 * B + e2 * A + e1 * e2) + 1 / 1000) * (1 / 16777216) <= e -> near32 e (@fmul NumSF32 x y) (r * q).
Proof.
  intros [X1 X2] [Y1 Y2] HA HB HT HE. pose proof (prod_error _ _ _ _ _ _ _ _ X2 Y2 HA HB) as D.
  assert (PB : Rabs (r * q) <= A * B) by (rewrite Rabs_mult; apply Rmult_le_compat; auto using Rabs_pos).
  pose proof (n_size _ _ _ _ D PB) as Bd. destruct (mul32 x y X1 Y1 ltac:(lra)) as [V FI]. split; [exact FI|].
  rewrite V. pose proof (n_tri _ _ _ _ _ (rerr _ _ Bd) D). lra.
Qed.
Lemma n_add t e1 e2 e x y r q : near32 e1 x r -> near32 e2 y q -> Rabs (r + q) + e1 + e2 <= t -> t <= 1024 -> e1 + e2 + (t + 1 / 1000) * (1 / 16777216) <= e -> near32 e (@fadd NumSF32 x y) (r + q).
Proof.
  intros [X1 X2] [Y1 Y2] HT T2 HE.
  assert (D : Rabs ((val x + val y) - (r + q)) <= e1 + e2).
  { replace (val x + val y - (r + q)) with ((val x - r) + (val y - q)) by ring. apply (Rle_trans _ _ _ (Rabs_triang _ _)). lra. }
  assert (B : Rabs (val x + val y) <= t) by (pose proof (n_size _ _ _ _ D (Rle_refl _)); lra).
  destruct (add32 x y X1 Y1 ltac:(lra)) as [V FI]. split; [exact FI|]. rewrite V. pose proof (n_tri _ _ _ _ _ (rerr _ _ B) D). lra.
Qed.
Lemma one32 : fin32 (@f1 NumSF32) /\ val (@f1 NumSF32) = 1.
Proof.
  assert (E : (@f1 NumSF32 : spec_float) = S754_finite false 8388608 (-23)) by (vm_compute; reflexivity). rewrite E.
  assert (V : val (S754_finite false 8388608 (-23)) = 1). { unfold val, SF2R, F2R. cbn [Fnum Fexp cond_Zopp]. cbn. lra. }
  rewrite V. split; [|reflexivity]. split; [reflexivity|]. split; [reflexivity|]. rewrite V, Rabs_R1. lra.
Qed.
Lemma two32 : fin32 (@f2 NumSF32) /\ val (@f2 NumSF32) = 2.
Proof.
  assert (E : (@f2 NumSF32 : spec_float) = S754_finite false 8388608 (-22)) by (vm_compute; reflexivity). rewrite E.
  assert (V : val (S754_finite false 8388608 (-22)) = 2). { unfold val, SF2R, F2R. cbn [Fnum Fexp cond_Zopp]. cbn. lra. }
  rewrite V. split; [|reflexivity]. split; [reflexivity|]. split; [reflexivity|]. rewrite V, Rabs_pos_eq; lra.
Qed.
Lemma zero32 : fin32 (@f0 NumSF32) /\ val (@f0 NumSF32) = 0.
Proof. split; [|reflexivity]. split; [reflexivity|]. split; [reflexivity|]. cbn. rewrite Rabs_R0. lra. Qed.

(** ** angles *)
Lemma sin_small x : Rabs (sin x) <= Rabs x.
Proof.
  assert (P : forall y, 0 <= y -> Rabs (sin y) <= y).
  { intros y [Hy|<-]; [|rewrite sin_0, Rabs_R0; lra]. apply Rabs_le. pose proof (sin_lt_x y Hy). split; [|lra].
    destruct (Rle_dec y PI) as [L|L]; [pose proof (sin_ge_0 y ltac:(lra) L); lra|]. pose proof (SIN_bound y). pose proof PI_RGT_0. pose proof PI2_1. unfold PI2 in *. lra. }
  destruct (Rle_dec 0 x) as [H|H]; [rewrite (Rabs_pos_eq x) by exact H; apply P; exact H|].
  rewrite (Rabs_left x) by lra. rewrite <- (Rabs_Ropp (sin x)), <- sin_neg. apply P. lra.
Qed.
Lemma sin_close a b : Rabs (sin a - sin b) <= Rabs (a - b).
Proof.
  rewrite form4, !Rabs_mult, (Rabs_pos_eq 2) by lra. pose proof (sin_small ((a - b) / 2)) as H.
  replace (Rabs ((a - b) / 2)) with (Rabs (a - b) / 2) in H by (unfold Rdiv; rewrite Rabs_mult, (Rabs_pos_eq (/ 2)) by lra; reflexivity).
  assert (C : Rabs (cos ((a + b) / 2)) <= 1) by (apply Rabs_le; pose proof (COS_bound ((a + b) / 2)); lra).
  pose proof (Rmult_le_compat _ _ _ _ (Rabs_pos _) (Rabs_pos _) C H). lra.
Qed.
Lemma cos_close a b : Rabs (cos a - cos b) <= Rabs (a - b).
Proof. rewrite <- !sin_shift. rewrite <- (Rabs_Ropp (a - b)). replace (- (a - b)) with ((PI / 2 - a) - (PI / 2 - b)) by ring. apply sin_close. Qed.
Lemma pi_range : 29 / 10 <= PI <= 34 / 10.
Proof.
  pose proof (PI_ineq 2) as [H1 H2]. unfold tg_alt, PI_tg in *. simpl in H1, H2. lra.
Qed.
Lemma angle32 (T : Trig NumSF32) th : accurate32 T -> draw01 th ->
  fin32 (fmul (fmul f2 (@fpi NumSF32 T)) th) /\ 0 <= val (fmul (fmul f2 (@fpi NumSF32 T)) th) <= 7 /\
  Rabs (val (fmul (fmul f2 (@fpi NumSF32 T)) th) - 2 * PI * val th) <= 18 / 16777216.
Proof.
  intros (P1 & P2 & _) [D1 D2]. destruct two32 as [W1 W2]. pose proof pi_range as PR.
  assert (N1 : near32 (2 / 16777216) (@fpi NumSF32 T) PI) by (split; [exact P1|lra]).
  assert (N2 : near32 0 (@f2 NumSF32) 2) by (rewrite <- W2; apply n_exact; exact W1).
  pose proof (n_mul 2 (34 / 10) _ _ (11 / 16777216) _ _ _ _ N2 N1 ltac:(rewrite Rabs_pos_eq; lra) ltac:(rewrite Rabs_pos_eq; lra) ltac:(lra) ltac:(lra)) as N3.
  pose proof (n_mul (68 / 10) 1 _ _ (18 / 16777216) _ _ _ _ N3 (n_exact _ D1) ltac:(rewrite Rabs_pos_eq; lra) ltac:(rewrite Rabs_pos_eq; lra) ltac:(lra) ltac:(lra)) as [N4 N5].
  split; [exact N4|]. split; [|exact N5]. split.
  - destruct N3 as [M1 M2]. assert (A : 0 <= val (@fmul NumSF32 f2 fpi)). { apply Rabs_le_inv in M2. lra. }
    assert (A7 : val (@fmul NumSF32 f2 fpi) <= 7). { apply Rabs_le_inv in M2. lra. }
    destruct (mul32 _ _ M1 D1) as [V _]; [rewrite Rabs_pos_eq; nra|]. rewrite V, <- rnd32_0. apply rnd32_le. nra.
  - apply Rabs_le_inv in N5. nra.
Qed.

(** ** a square root of a number between 0 and 1 *)
Lemma root32 x : fin32 x -> 0 <= val x <= 1 -> fin32 (@fsqrt NumSF32 x) /\ 0 <= val (@fsqrt NumSF32 x) <= 1 /\
  Rabs (val (@fsqrt NumSF32 x) - sqrt (val x)) <= (101 / 100) * (1 / 16777216) /\
  Rabs (val (@fsqrt NumSF32 x) * val (@fsqrt NumSF32 x) - val x) <= (21 / 10) * (1 / 16777216).
Proof.
  intros H R. destruct (sqrt32 x H ltac:(lra)) as [V FI]. rewrite V.
  assert (S0 : 0 <= sqrt (val x)) by apply sqrt_pos. assert (S1 : sqrt (val x) <= 1) by (rewrite <- sqrt_1; apply sqrt_le_1; lra).
  assert (SQ : sqrt (val x) * sqrt (val x) = val x) by (apply sqrt_sqrt; lra).
  assert (E : Rabs (rnd32 (sqrt (val x)) - sqrt (val x)) <= (101 / 100) * (1 / 16777216)).
  { pose proof (rerr (sqrt (val x)) 1 ltac:(rewrite Rabs_pos_eq; lra)). lra. }
  split; [exact FI|]. split; [|split; [exact E|]].
  - split; [rewrite <- rnd32_0; apply rnd32_le; exact S0|rewrite <- rnd32_1; apply rnd32_le; exact S1].
  - assert (A : Rabs (sqrt (val x)) <= 1) by (rewrite Rabs_pos_eq; lra). pose proof (prod_error _ _ _ _ _ _ _ _ E E A A) as D. rewrite SQ in D. lra.
Qed.

(** ** a direction weighted by the cosine *)
Section Cosine.
  Context {T : Trig NumSF32} (HT : accurate32 T).
  Variables r th : @F NumSF32.
  Hypotheses (Hr : draw01 r) (Hth : draw01 th).
  Let q := val (fmul (@f1 NumSF32) (fsqrt r)).
  Let a := val (fmul (fmul f2 (@fpi NumSF32 T)) th).
  Lemma q_facts : fin32 (fmul (@f1 NumSF32) (fsqrt r)) /\ 0 <= q <= 1 /\ Rabs (q - sqrt (val r)) <= (101 / 100) * (1 / 16777216) /\ Rabs (q * q - val r) <= (21 / 10) * (1 / 16777216).
  Proof.
    destruct Hr as [R1 R2]. destruct (root32 r R1 R2) as (S1 & S2 & S3 & S4). destruct one32 as [O1 O2].
    destruct (mul32 _ _ O1 S1) as [V FI]; [rewrite O2, Rmult_1_l; rewrite Rabs_pos_eq; lra|].
    assert (Q : q = val (@fsqrt NumSF32 r)) by (unfold q; rewrite V, O2, Rmult_1_l; apply rnd32_id; exact S1).
    rewrite Q. exact (conj FI (conj S2 (conj S3 S4))).
  Qed.
  Let X := fmul (fmul (@f1 NumSF32) (fsqrt r)) (@fsin NumSF32 T (fmul (fmul f2 (@fpi NumSF32 T)) th)).
  Let Y := fmul (fmul (@f1 NumSF32) (fsqrt r)) (@fcos NumSF32 T (fmul (fmul f2 (@fpi NumSF32 T)) th)).
  Lemma xy_near : near32 ((22 / 10) * (1 / 16777216)) X (q * sin a) /\ near32 ((22 / 10) * (1 / 16777216)) Y (q * cos a).
  Proof.
    destruct q_facts as (Q1 & Q2 & _). destruct (angle32 T th HT Hth) as (A1 & A2 & _). destruct HT as (_ & _ & HS). destruct (HS _ A1 A2) as (S1 & S2 & C1 & C2). fold a in S2, C2.
    assert (AQ : Rabs q <= 1) by (rewrite Rabs_pos_eq; lra).
    assert (AS : Rabs (sin a) <= 1) by (apply Rabs_le; pose proof (SIN_bound a); lra).
    assert (AC : Rabs (cos a) <= 1) by (apply Rabs_le; pose proof (COS_bound a); lra).
    assert (NS : near32 (1 / 16777216) (@fsin NumSF32 T (fmul (fmul f2 (@fpi NumSF32 T)) th)) (sin a)) by (split; [exact S1|lra]).
    assert (NC : near32 (1 / 16777216) (@fcos NumSF32 T (fmul (fmul f2 (@fpi NumSF32 T)) th)) (cos a)) by (split; [exact C1|lra]).
    split.
    - apply (n_mul 1 1 0 (1 / 16777216) _ _ _ _ _ (n_exact _ Q1) NS AQ AS); lra.
    - apply (n_mul 1 1 0 (1 / 16777216) _ _ _ _ _ (n_exact _ Q1) NC AQ AC); lra.
  Qed.
  Lemma xy_exact : Rabs (val X - sqrt (val r) * sin (2 * PI * val th)) <= 23 / 16777216 /\ Rabs (val Y - sqrt (val r) * cos (2 * PI * val th)) <= 23 / 16777216.
  Proof.
    destruct q_facts as (Q1 & Q2 & Q3 & _). destruct (angle32 T th HT Hth) as (A1 & A2 & A3). fold a in A2, A3. destruct xy_near as [[X1 X2] [Y1 Y2]].
    pose proof (sin_close a (2 * PI * val th)) as LS. pose proof (cos_close a (2 * PI * val th)) as LC.
    assert (R1 : Rabs (sqrt (val r)) <= 1). { rewrite Rabs_pos_eq by apply sqrt_pos. rewrite <- sqrt_1. apply sqrt_le_1; destruct Hr; lra. }
    assert (AS : Rabs (sin (2 * PI * val th)) <= 1) by (apply Rabs_le; pose proof (SIN_bound (2 * PI * val th)); lra).
    assert (AC : Rabs (cos (2 * PI * val th)) <= 1) by (apply Rabs_le; pose proof (COS_bound (2 * PI * val th)); lra).
    assert (LS' : Rabs (sin a - sin (2 * PI * val th)) <= 18 / 16777216) by lra. assert (LC' : Rabs (cos a - cos (2 * PI * val th)) <= 18 / 16777216) by lra.
    pose proof (prod_error _ _ _ _ _ _ _ _ Q3 LS' R1 AS) as D1. pose proof (prod_error _ _ _ _ _ _ _ _ Q3 LC' R1 AC) as D2.
    split; [pose proof (n_tri _ _ _ _ _ X2 D1)|pose proof (n_tri _ _ _ _ _ Y2 D2)]; lra.
  Qed.
  Let A := @fclamp NumSF32 (fadd (fmul X X) (fmul Y Y)) f0 f1.
  Lemma squares : Rabs ((val X * val X + val Y * val Y) - q * q) <= 9 / 16777216.
  Proof.
    destruct q_facts as (Q1 & Q2 & _). destruct xy_near as [[X1 X2] [Y1 Y2]].
    pose proof (SIN_bound a) as SB. pose proof (COS_bound a) as CB.
    assert (AS : Rabs (q * sin a) <= 1) by (apply Rabs_le; nra). assert (AC : Rabs (q * cos a) <= 1) by (apply Rabs_le; nra).
    pose proof (prod_error _ _ _ _ _ _ _ _ X2 X2 AS AS) as D1. pose proof (prod_error _ _ _ _ _ _ _ _ Y2 Y2 AC AC) as D2.
    pose proof (sin2_cos2 a) as SC. unfold Rsqr in SC.
    replace (q * q) with (q * sin a * (q * sin a) + q * cos a * (q * cos a)) by (replace (q * q) with (q * q * (sin a * sin a + cos a * cos a)) by (rewrite SC; ring); ring).
    set (x := val X) in *. set (y := val Y) in *. set (s := q * sin a) in *. set (c := q * cos a) in *. clearbody x y s c.
    replace (x * x + y * y - (s * s + c * c)) with ((x * x - s * s) + (y * y - c * c)) by ring. apply (Rle_trans _ _ _ (Rabs_triang _ _)). lra.
  Qed.
  Lemma aux_near : fin32 A /\ 0 <= val A <= 1 /\ Rabs (val A - q * q) <= 13 / 16777216.
  Proof.
    destruct q_facts as (Q1 & Q2 & _). destruct xy_near as [[X1 X2] [Y1 Y2]]. pose proof squares as SQ.
    pose proof (SIN_bound a) as SB. pose proof (COS_bound a) as CB.
    assert (AX : Rabs (val X) <= 1001 / 1000). { apply Rle_trans with (1 + (22 / 10) * (1 / 16777216)); [|lra]. apply (n_size _ _ _ _ X2). apply Rabs_le. nra. }
    assert (AY : Rabs (val Y) <= 1001 / 1000). { apply Rle_trans with (1 + (22 / 10) * (1 / 16777216)); [|lra]. apply (n_size _ _ _ _ Y2). apply Rabs_le. nra. }
    pose proof (n_mul _ _ 0 0 ((11 / 10) * (1 / 16777216)) _ _ _ _ (n_exact _ X1) (n_exact _ X1) AX AX ltac:(lra) ltac:(lra)) as NX.
    pose proof (n_mul _ _ 0 0 ((11 / 10) * (1 / 16777216)) _ _ _ _ (n_exact _ Y1) (n_exact _ Y1) AY AY ltac:(lra) ltac:(lra)) as NY.
    assert (QQ : 0 <= q * q <= 1) by nra.
    assert (SB2 : Rabs (val X * val X + val Y * val Y) <= 11 / 10) by (apply Rabs_le; apply Rabs_le_inv in SQ; lra).
    pose proof (n_add (12 / 10) _ _ ((35 / 10) * (1 / 16777216)) _ _ _ _ NX NY ltac:(lra) ltac:(lra) ltac:(lra)) as [N1 N2].
    destruct zero32 as [Z1 Z2]. destruct one32 as [O1 O2]. assert (LE01 : val (@f0 NumSF32) <= val (@f1 NumSF32)) by (rewrite Z2, O2; lra).
    destruct (clamp32 _ _ _ N1 Z1 O1 LE01) as (F1 & F2 & F3). fold A in F1, F2, F3. rewrite Z2, O2 in *.
    split; [exact F1|]. split; [exact F2|]. pose proof (n_tri _ _ _ _ _ N2 SQ) as D. pose proof (F3 _ QQ). lra.
  Qed.
  Let Zf := @fsqrt NumSF32 (fsub f1 A).
  Lemma z_near : fin32 Zf /\ 0 <= val Zf <= 1 /\ Rabs (val Zf * val Zf - (1 - q * q)) <= 17 / 16777216.
  Proof.
    destruct aux_near as (A1 & A2 & A3). destruct one32 as [O1 O2].
    destruct (sub32 _ _ O1 A1) as [V FI]; [rewrite O2; apply Rabs_le; lra|]. rewrite O2 in V.
    assert (R : 0 <= val (fsub f1 A) <= 1). { rewrite V. split; [apply Rle_trans with (rnd32 0); [rewrite rnd32_0; lra|]|apply Rle_trans with (rnd32 1); [|rewrite rnd32_1; lra]]; apply rnd32_le; lra. }
    assert (E : Rabs (val (fsub f1 A) - (1 - val A)) <= (1001 / 1000) * (1 / 16777216)).
    { rewrite V. pose proof (rerr (1 - val A) 1 ltac:(apply Rabs_le; lra)). lra. }
    destruct (root32 _ FI R) as (S1 & S2 & _ & S4). split; [exact S1|]. split; [exact S2|]. fold Zf in S4.
    apply Rabs_le_inv in S4, E, A3. apply Rabs_le. lra.
  Qed.
  Lemma cosine_facts : let d := @sample_cosine_weighted_horizontal_hemisphere NumSF32 T r th in d = V3 X Y Zf.
  Proof. reflexivity. Qed.
End Cosine.

Definition norm2 (v : @Vec NumSF) : R := val (vx v) * val (vx v) + val (vy v) * val (vy v) + val (vz v) * val (vz v).
(** the direction is a unit vector to within 2 millionths, never points below the surface, and is the direction the exact
    sampler of C52 draws from the same numbers: its horizontal part to within 2 millionths, its height's square likewise *)
Theorem C103_cosine : forall (T : Trig NumSF32) (r theta : @F NumSF32), accurate32 T -> draw01 r -> draw01 theta ->
  let d := cosine_mixed r theta in
  (finite_upto 2 (vx d) /\ finite_upto 2 (vy d) /\ finite_upto 2 (vz d)) /\
  Rabs (norm2 d - 1) <= 2 / 10 ^ 6 /\ 0 <= val (vz d) /\
  Rabs (val (vx d) - sqrt (val r) * sin (2 * PI * val theta)) <= 2 / 10 ^ 6 /\
  Rabs (val (vy d) - sqrt (val r) * cos (2 * PI * val theta)) <= 2 / 10 ^ 6 /\
  Rabs (val (vz d) * val (vz d) - (1 - val r)) <= 2 / 10 ^ 6.
Proof.
  intros T r th HT Hr Hth d. unfold d, cosine_mixed, widen3. rewrite (cosine_facts r th). cbn [vx vy vz].
  destruct (q_facts r Hr) as (_ & Q2 & _ & Q4). destruct (xy_near HT r th Hr Hth) as [[X1 X2] [Y1 Y2]]. destruct (xy_exact HT r th Hr Hth) as [X3 Y3].
  pose proof (squares HT r th Hr Hth) as SQ. destruct (z_near HT r th Hr Hth) as (Z1 & Z2 & Z3).
  destruct (widen_val _ X1) as [VX FX]. destruct (widen_val _ Y1) as [VY FY]. destruct (widen_val _ Z1) as [VZ FZ]. unfold norm2. cbn [vx vy vz].
  rewrite VX, VY, VZ in *. clear VX VY VZ.
  pose proof (SIN_bound (2 * PI * val th)) as SB. pose proof (COS_bound (2 * PI * val th)) as CB.
  assert (R0 : 0 <= sqrt (val r) <= 1). { split; [apply sqrt_pos|]. rewrite <- sqrt_1. apply sqrt_le_1; destruct Hr; lra. }
  split; [split; [|split]|].
  - apply (finite_weaken _ _ _ FX). apply Rle_trans with (1 + 23 / 16777216); [|lra]. apply (n_size _ _ _ _ X3). apply Rabs_le. nra.
  - apply (finite_weaken _ _ _ FY). apply Rle_trans with (1 + 23 / 16777216); [|lra]. apply (n_size _ _ _ _ Y3). apply Rabs_le. nra.
  - apply (finite_weaken _ _ _ FZ). apply Rabs_le. lra.
  - split; [|split; [lra|split; [lra|split; [lra|]]]].
    + apply Rabs_le_inv in SQ, Z3. apply Rabs_le. lra.
    + apply Rabs_le_inv in Z3, Q4. apply Rabs_le. lra.
Qed.
Print Assumptions C103_cosine.

(** ** a point of the unit sphere *)
Lemma rnd32_2 : rnd32 2 = 2.
Proof. destruct two32 as [H V]. rewrite <- V. apply rnd32_id. exact H. Qed.
Lemma rnd32_m1 : rnd32 (-1) = -1.
Proof. replace (-1) with (- (1)) by ring. rewrite round_NE_opp, rnd32_1. reflexivity. Qed.
Lemma in01 x : 0 <= x <= 1 -> 0 <= rnd32 x <= 1.
Proof. intros H. split; [apply Rle_trans with (rnd32 0); [rewrite rnd32_0; lra|]|apply Rle_trans with (rnd32 1); [|rewrite rnd32_1; lra]]; apply rnd32_le; lra. Qed.
Lemma tiny7_32 : fin32 (@TINY7 NumSF32) /\ 0 <= val (@TINY7 NumSF32) <= 12 / 10 ^ 8 /\
  fin32 (fsub (@f1 NumSF32) TINY7) /\ 1 - 12 / 10 ^ 8 <= val (fsub (@f1 NumSF32) TINY7) <= 1.
Proof.
  assert (E1 : (@TINY7 NumSF32 : spec_float) = S754_finite false 14073749 (-47)) by (vm_compute; reflexivity).
  assert (E2 : (fsub (@f1 NumSF32) TINY7 : spec_float) = S754_finite false 16777214 (-24)) by (vm_compute; reflexivity).
  rewrite E2, E1.
  assert (V1 : val (S754_finite false 14073749 (-47)) = 14073749 / 140737488355328). { unfold val, SF2R, F2R. cbn [Fnum Fexp cond_Zopp]. cbn. lra. }
  assert (V2 : val (S754_finite false 16777214 (-24)) = 16777214 / 16777216). { unfold val, SF2R, F2R. cbn [Fnum Fexp cond_Zopp]. cbn. lra. }
  unfold fin32. rewrite V1, V2. split; [split; [reflexivity|split; [reflexivity|rewrite Rabs_pos_eq; lra]]|]. split; [lra|].
  split; [split; [reflexivity|split; [reflexivity|rewrite Rabs_pos_eq; lra]]|]. lra.
Qed.
Lemma clamped x : draw01 x -> draw01 (fclamp x (@TINY7 NumSF32) (fsub f1 TINY7)) /\ Rabs (val (fclamp x (@TINY7 NumSF32) (fsub f1 TINY7)) - val x) <= 24 / 10 ^ 8.
Proof.
  intros [H1 H2]. destruct tiny7_32 as (T1 & T2 & T3 & T4). assert (L : val (@TINY7 NumSF32) <= val (fsub (@f1 NumSF32) TINY7)) by lra.
  destruct (clamp32 x _ _ H1 T1 T3 L) as (C1 & C2 & C3). split; [split; [exact C1|lra]|].
  set (lo := val (@TINY7 NumSF32)) in *. set (hi := val (fsub (@f1 NumSF32) TINY7)) in *. set (c := val (fclamp x (@TINY7 NumSF32) (fsub f1 TINY7))) in *.
  destruct (Rle_dec lo (val x)) as [A|A]; [destruct (Rle_dec (val x) hi) as [B|B]|].
  - pose proof (C3 (val x) (conj A B)) as Q. unfold Rminus in Q at 2. rewrite Rplus_opp_r, Rabs_R0 in Q. lra.
  - pose proof (C3 hi ltac:(lra)) as Q. rewrite (Rabs_pos_eq (val x - hi)) in Q by lra. apply Rabs_le_inv in Q. apply Rabs_le. lra.
  - pose proof (C3 lo ltac:(lra)) as Q. rewrite (Rabs_left1 (val x - lo)) in Q by lra. apply Rabs_le_inv in Q. apply Rabs_le. lra.
Qed.
Theorem C103_sphere : forall (T : Trig NumSF32) (rand1 rand2 : @F NumSF32), accurate32 T -> draw01 rand1 -> draw01 rand2 ->
  let p := sphere_mixed rand1 rand2 in
  (finite_upto 2 (vx p) /\ finite_upto 2 (vy p) /\ finite_upto 2 (vz p)) /\
  Rabs (norm2 p - 1) <= 1 / 10 ^ 6 /\ Rabs (val (vz p) - (1 - 2 * val rand1)) <= 1 / 10 ^ 6 /\
  exists rho, 0 <= rho <= 1 /\ Rabs (val (vx p) - rho * cos (2 * PI * val rand2)) <= 3 / 10 ^ 6 /\ Rabs (val (vy p) - rho * sin (2 * PI * val rand2)) <= 3 / 10 ^ 6.
Proof.
  intros T r1 r2 HT H1 H2 p. unfold p, sphere_mixed. cbv zeta. clear p.
  destruct (clamped r1 H1) as [[D1 D2] D3]. destruct (clamped r2 H2) as [E1 E3].
  set (t1 := fclamp r1 (@TINY7 NumSF32) (fsub f1 TINY7)) in *. set (t2 := fclamp r2 (@TINY7 NumSF32) (fsub f1 TINY7)) in *. clearbody t1 t2.
  destruct two32 as [W1 W2]. destruct one32 as [O1 O2].
  (* height *)
  destruct (mul32 _ _ W1 D1) as [VM FM]; [rewrite W2; apply Rabs_le; lra|]. rewrite W2 in VM.
  assert (M1 : 0 <= rnd32 (2 * val t1) <= 2). { split; [apply Rle_trans with (rnd32 0); [rewrite rnd32_0; lra|]|apply Rle_trans with (rnd32 2); [|rewrite rnd32_2; lra]]; apply rnd32_le; lra. }
  assert (M2 : Rabs (rnd32 (2 * val t1) - 2 * val t1) <= (2001 / 1000) * (1 / 16777216)). { pose proof (rerr (2 * val t1) 2 ltac:(apply Rabs_le; lra)). lra. }
  set (m := fmul (@f2 NumSF32) t1) in *. rewrite <- VM in M1, M2. clearbody m. clear VM.
  destruct (sub32 _ _ O1 FM) as [VZ FZ]; [rewrite O2; apply Rabs_le; lra|]. rewrite O2 in VZ.
  assert (Z1 : -1 <= val (fsub (@f1 NumSF32) m) <= 1).
  { rewrite VZ. split; [apply Rle_trans with (rnd32 (-1)); [rewrite rnd32_m1; lra|]|apply Rle_trans with (rnd32 1); [|rewrite rnd32_1; lra]]; apply rnd32_le; lra. }
  assert (Z2 : Rabs (val (fsub (@f1 NumSF32) m) - (1 - 2 * val t1)) <= (31 / 10) * (1 / 16777216)).
  { rewrite VZ. pose proof (rerr (1 - val m) 1 ltac:(apply Rabs_le; lra)) as Q. apply Rabs_le_inv in Q, M2. apply Rabs_le. lra. }
  set (z := fsub (@f1 NumSF32) m) in *. clearbody z. clear VZ.
  (* radius *)
  assert (ZZ : 0 <= val z * val z <= 1) by nra.
  destruct (mul32 _ _ FZ FZ) as [VS FS]; [apply Rabs_le; lra|]. pose proof (in01 _ ZZ) as S1. pose proof (rerr (val z * val z) 1 ltac:(apply Rabs_le; lra)) as S2. rewrite <- VS in S1, S2.
  set (zz := fmul z z) in *. clearbody zz. clear VS.
  destruct (sub32 _ _ O1 FS) as [VD FD]; [rewrite O2; apply Rabs_le; lra|]. rewrite O2 in VD. pose proof (in01 (1 - val zz) ltac:(lra)) as G1. pose proof (rerr (1 - val zz) 1 ltac:(apply Rabs_le; lra)) as G2. rewrite <- VD in G1, G2.
  set (d := fsub (@f1 NumSF32) zz) in *. clearbody d. clear VD.
  destruct (root32 d FD G1) as (A1 & A2 & _ & A4). set (aux := @fsqrt NumSF32 d) in *. clearbody aux.
  assert (A5 : Rabs (val aux * val aux - (1 - val z * val z)) <= (43 / 10) * (1 / 16777216)). { apply Rabs_le_inv in A4, G2, S2. apply Rabs_le. lra. }
  (* azimuth *)
  destruct (angle32 T t2 HT E1) as (B1 & B2 & B3). destruct HT as (_ & _ & HS). destruct (HS _ B1 B2) as (I1 & I2 & C1 & C2).
  set (a := val (fmul (fmul f2 (@fpi NumSF32 T)) t2)) in *. set (si := @fsin NumSF32 T (fmul (fmul f2 (@fpi NumSF32 T)) t2)) in *. set (co := @fcos NumSF32 T (fmul (fmul f2 (@fpi NumSF32 T)) t2)) in *. clearbody si co.
  pose proof (SIN_bound a) as SB. pose proof (COS_bound a) as CB.
  assert (prod64 : forall c : @F NumSF32, fin32 c -> forall v, Rabs v <= 1 -> Rabs (val c - v) <= / 2 ^ 24 ->
     finite_upto 2 (@fmul NumSF (widen c) (widen aux)) /\ Rabs (val (@fmul NumSF (widen c) (widen aux)) - val aux * v) <= (101 / 100) * (1 / 16777216)).
  { intros c Fc v Hv Hc. destruct (widen_val _ Fc) as [V1 W3]. destruct (widen_val _ A1) as [V2 W4].
    assert (K : Rabs (val c * val aux - v * val aux) <= 1 / 16777216).
    { replace (val c * val aux - v * val aux) with ((val c - v) * val aux) by ring. rewrite Rabs_mult, (Rabs_pos_eq (val aux)) by lra. pose proof (Rabs_pos (val c - v)). nra. }
    assert (VA : Rabs (v * val aux) <= 1). { rewrite Rabs_mult, (Rabs_pos_eq (val aux)) by lra. pose proof (Rabs_pos v). nra. }
    pose proof (n_size _ _ _ _ K VA) as SZ.
    destruct (mul_val 1 ltac:(lia) _ _ _ _ W3 W4) as [V FI]; [rewrite V1, V2; apply Rle_trans with 2; [lra|cbn; lra]|]. rewrite V1, V2 in V.
    split; [apply (finite_weaken _ _ _ FI); cbn; lra|]. rewrite V. pose proof (rnd_abs (val c * val aux)) as RE.
    assert (U : ulp1 <= 1 / 10 ^ 15) by (rewrite ulp1_val; lra). assert (U2 : bpow radix2 (-1075) <= ulp1) by (unfold ulp1; apply bpow_le; lia).
    pose proof (Rabs_pos (val c * val aux)). pose proof ulp1_pos. assert (RE' : Rabs (rnd64 (val c * val aux) - val c * val aux) <= 3 / 10 ^ 15) by nra.
    pose proof (n_tri _ _ _ _ _ RE' K) as Q. rewrite (Rmult_comm v) in Q. lra. }
  destruct (prod64 co C1 (cos a) ltac:(apply Rabs_le; lra) C2) as [FX X2]. destruct (prod64 si I1 (sin a) ltac:(apply Rabs_le; lra) I2) as [FY Y2].
  destruct (widen_val _ FZ) as [VZ FZ']. unfold norm2. cbn [vx vy vz]. rewrite VZ.
  split; [split; [exact FX|split; [exact FY|apply (finite_weaken _ _ _ FZ'); apply Rabs_le; lra]]|].
  set (X := val (@fmul NumSF (widen co) (widen aux))) in *. set (Y := val (@fmul NumSF (widen si) (widen aux))) in *. clearbody X Y.
  assert (AC : Rabs (val aux * cos a) <= 1) by (apply Rabs_le; nra). assert (AS : Rabs (val aux * sin a) <= 1) by (apply Rabs_le; nra).
  pose proof (prod_error _ _ _ _ _ _ _ _ X2 X2 AC AC) as P1. pose proof (prod_error _ _ _ _ _ _ _ _ Y2 Y2 AS AS) as P2.
  pose proof (sin2_cos2 a) as SC. unfold Rsqr in SC.
  assert (QQ : val aux * cos a * (val aux * cos a) + val aux * sin a * (val aux * sin a) = val aux * val aux).
  { replace (val aux * val aux) with (val aux * val aux * (sin a * sin a + cos a * cos a)) by (rewrite SC; ring). ring. }
  split; [apply Rabs_le_inv in P1, P2, A5; apply Rabs_le; lra|]. split; [apply Rabs_le_inv in Z2, D3; apply Rabs_le; lra|].
  exists (val aux). split; [exact A2|].
  assert (L : Rabs (a - 2 * PI * val r2) <= 28 / 10 ^ 7).
  { assert (L2 : Rabs (2 * PI * val t2 - 2 * PI * val r2) <= 17 / 10 ^ 7).
    { replace (2 * PI * val t2 - 2 * PI * val r2) with (2 * PI * (val t2 - val r2)) by ring. pose proof pi_range as PR. rewrite Rabs_mult, (Rabs_pos_eq (2 * PI)) by lra. pose proof (Rabs_pos (val t2 - val r2)). nra. }
    pose proof (n_tri _ _ _ _ _ B3 L2). lra. }
  pose proof (sin_close a (2 * PI * val r2)) as LS. pose proof (cos_close a (2 * PI * val r2)) as LC.
  assert (mv : forall u v, Rabs (u - v) <= 28 / 10 ^ 7 -> Rabs (val aux * u - val aux * v) <= 28 / 10 ^ 7).
  { intros u v H. replace (val aux * u - val aux * v) with (val aux * (u - v)) by ring. rewrite Rabs_mult, (Rabs_pos_eq (val aux)) by lra. pose proof (Rabs_pos (u - v)). nra. }
  pose proof (mv _ _ (Rle_trans _ _ _ LS L)) as MS. pose proof (mv _ _ (Rle_trans _ _ _ LC L)) as MC.
  pose proof (n_tri _ _ _ _ _ X2 MC). pose proof (n_tri _ _ _ _ _ Y2 MS). split; lra.
Qed.
Print Assumptions C103_sphere.

(** ** a point of a disc: inside, up to a millionth of the radius *)
Theorem C103_disc : forall (T : Trig NumSF32) (r theta : @F NumSF32) (radius : @F NumSF), accurate32 T -> draw01 r -> draw01 theta ->
  finite_upto 512 radius -> / 2 ^ 60 <= val radius ->
  exists x y, disc_mixed r theta radius = (x, y) /\ fin32 x /\ fin32 y /\
    val x * val x + val y * val y <= val radius * val radius * (1 + 1 / 10 ^ 6).
Proof.
  intros T r th radius HT [R1 R2] Hth HB HL. unfold disc_mixed, uniform_sample_horizontal_disc. cbv zeta. eexists _, _. split; [reflexivity|].
  assert (T150 : / 2 ^ 150 = / 2 ^ 60 * / 2 ^ 90) by (replace (2 ^ 150) with (2 ^ 60 * 2 ^ 90) by (rewrite <- pow_add; reflexivity); field; split; apply pow_nonzero; lra).
  assert (T90 : 0 < / 2 ^ 90 <= 1 / 10 ^ 20) by (split; [apply Rinv_0_lt_compat; apply pow_lt; lra|lra]).
  assert (T60 : 0 < / 2 ^ 60) by (apply Rinv_0_lt_compat; apply pow_lt; lra).
  assert (HR : val radius <= 512) by (destruct HB as (_ & _ & H); apply Rabs_le_inv in H; lra).
  assert (rel : forall s k, 0 <= k -> Rabs s <= val radius * k -> Rabs (rnd32 s) <= val radius * (k + (k + 1 / 1000) * (1 / 16777216))).
  { intros s k Hk Hs. pose proof (rnd32_error s) as E. rewrite u32_val, T150 in E.
    assert (Q : / 2 ^ 60 * / 2 ^ 90 <= val radius * (1 / 10 ^ 20)) by (apply Rmult_le_compat; lra).
    pose proof (n_size _ _ _ _ E (Rle_refl (Rabs s))) as Z. set (t := / 2 ^ 60 * / 2 ^ 90) in *. clearbody t.
    replace (val radius * (k + (k + 1 / 1000) * (1 / 16777216))) with (val radius * k + (val radius * k + val radius * (1 / 1000)) * (1 / 16777216)) by ring. lra. }
  assert (HB' : finite_upto 1024 radius) by (apply (finite_weaken _ _ _ HB); lra). destruct (narrow_val radius HB') as [VN FN].
  pose proof (rel (val radius) 1 ltac:(lra) ltac:(rewrite Rabs_pos_eq; lra)) as N1. rewrite <- VN in N1.
  assert (N0 : 0 <= val (narrow radius)). { rewrite VN. apply Rle_trans with (rnd32 0); [rewrite rnd32_0; lra|]. apply rnd32_le. lra. }
  rewrite Rabs_pos_eq in N1 by exact N0. set (R := narrow radius) in *. clearbody R. clear VN.
  destruct (root32 r R1 R2) as (S1 & S2 & _). set (q := @fsqrt NumSF32 r) in *. clearbody q.
  assert (PB : 0 <= val R * val q <= val R) by nra.
  destruct (mul32 R q FN S1) as [VP FP]; [rewrite Rabs_pos_eq by lra; nra|].
  pose proof (rel (val R * val q) (1 + (1 + 1 / 1000) * (1 / 16777216)) ltac:(lra) ltac:(rewrite Rabs_pos_eq by lra; lra)) as P1. rewrite <- VP in P1.
  assert (P0 : 0 <= val (fmul R q)). { rewrite VP. apply Rle_trans with (rnd32 0); [rewrite rnd32_0; lra|]. apply rnd32_le. lra. }
  rewrite Rabs_pos_eq in P1 by exact P0. assert (P2 : val (fmul R q) <= val radius * (1 + (21 / 10) * (1 / 16777216))) by nra.
  set (P := fmul R q) in *. clearbody P. clear VP P1.
  destruct (angle32 T th HT Hth) as (A1 & A2 & _). destruct HT as (_ & _ & HS). destruct (HS _ A1 A2) as (I1 & I2 & C1 & C2).
  set (a := val (fmul (fmul f2 (@fpi NumSF32 T)) th)) in *. set (si := @fsin NumSF32 T (fmul (fmul f2 (@fpi NumSF32 T)) th)) in *. set (co := @fcos NumSF32 T (fmul (fmul f2 (@fpi NumSF32 T)) th)) in *. clearbody si co.
  assert (one : forall c v, fin32 c -> Rabs v <= 1 -> Rabs (val c - v) <= / 2 ^ 24 -> fin32 (fmul P c) /\ Rabs (val (fmul P c)) <= val radius * (Rabs v + (45 / 10) * (1 / 16777216))).
  { intros c v Fc Hv Hc. pose proof (n_size _ _ _ _ Hc (Rle_refl (Rabs v))) as CS. pose proof (Rabs_pos v) as V0. pose proof (Rabs_pos (val c)) as K0.
    assert (PQ : Rabs (val P * val c) <= val radius * ((1 + (21 / 10) * (1 / 16777216)) * (Rabs v + / 2 ^ 24))).
    { rewrite Rabs_mult, (Rabs_pos_eq (val P)) by exact P0. rewrite <- Rmult_assoc. apply Rmult_le_compat; lra. }
    destruct (mul32 P c FP Fc) as [V FI]; [nra|]. split; [exact FI|]. rewrite V.
    refine (Rle_trans _ _ _ (rel _ _ _ PQ) _); [nra|]. apply Rmult_le_compat_l; [lra|]. nra. }
  pose proof (SIN_bound a) as SB. pose proof (COS_bound a) as CB.
  destruct (one si (sin a) I1 ltac:(apply Rabs_le; lra) I2) as [FX X2]. destruct (one co (cos a) C1 ltac:(apply Rabs_le; lra) C2) as [FY Y2].
  split; [exact FX|]. split; [exact FY|].
  set (x := val (fmul P si)) in *. set (y := val (fmul P co)) in *. clearbody x y.
  assert (AS : Rabs (sin a) <= 1) by (apply Rabs_le; lra). assert (AC : Rabs (cos a) <= 1) by (apply Rabs_le; lra).
  pose proof (Rabs_pos (sin a)) as S0. pose proof (Rabs_pos (cos a)) as C0.
  assert (SC : Rabs (sin a) * Rabs (sin a) + Rabs (cos a) * Rabs (cos a) = 1). { rewrite <- !Rabs_mult, !Rabs_pos_eq by nra. exact (sin2_cos2 a). }
  assert (XX : x * x = Rabs x * Rabs x) by (rewrite <- Rabs_mult, Rabs_pos_eq; nra). assert (YY : y * y = Rabs y * Rabs y) by (rewrite <- Rabs_mult, Rabs_pos_eq; nra).
  pose proof (Rmult_le_compat _ _ _ _ (Rabs_pos x) (Rabs_pos x) X2 X2) as M1. pose proof (Rmult_le_compat _ _ _ _ (Rabs_pos y) (Rabs_pos y) Y2 Y2) as M2.
  rewrite XX, YY. set (s := Rabs (sin a)) in *. set (c := Rabs (cos a)) in *. clearbody s c.
  assert (K : (s + 45 / 10 * (1 / 16777216)) * (s + 45 / 10 * (1 / 16777216)) + (c + 45 / 10 * (1 / 16777216)) * (c + 45 / 10 * (1 / 16777216)) <= 1 + 1 / 10 ^ 6).
  { assert (s + c <= 15 / 10) by nra. nra. }
  apply Rle_trans with (val radius * val radius * ((s + 45 / 10 * (1 / 16777216)) * (s + 45 / 10 * (1 / 16777216)) + (c + 45 / 10 * (1 / 16777216)) * (c + 45 / 10 * (1 / 16777216)))); [lra|].
  apply Rmult_le_compat_l; [nra|exact K].
Qed.
Print Assumptions C103_disc.
