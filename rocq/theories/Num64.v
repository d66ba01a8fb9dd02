(** * Num64: binary64 as formalised by Flocq

    The same operations as NumSF, on floats that are valid by construction (any finite number, either infinity, NaN): for theorems
    that hold for every value of the type f64.  The lemmas at the end of the first part say that nothing else differs. *)
From Coq Require Import ZArith SpecFloat Reals Lra Lia.
From Flocq Require Import Core Plus_error BinarySingleNaN.
From Verif Require Import Num NumSF SFBridge FloatOps FloatRound.
#[local] Existing Instance Hprec.
#[local] Existing Instance Hmax.
#[local] Existing Instance valid64.

Lemma lit_valid n d : valid_binary 53 1024 (sf_lit n d) = true.
Proof.
  destruct n as [|m|m]; [reflexivity| |]; unfold sf_lit, prec, emax.
  - pose proof (Bdiv_correct_aux 53 1024 Hprec Hmax mode_NE false m 0 false d 0) as [H _].
    destruct (SFdiv_core_binary 53 1024 (Z.pos m) 0 (Z.pos d) 0) as [[q e] l]. rewrite round_aux_equiv. exact H.
  - pose proof (Bdiv_correct_aux 53 1024 Hprec Hmax mode_NE true m 0 false d 0) as [H _].
    destruct (SFdiv_core_binary 53 1024 (Z.pos m) 0 (Z.pos d) 0) as [[q e] l]. rewrite round_aux_equiv. exact H.
Qed.

Definition Num64 : Num := {|
  F := b64;
  fadd := Bplus mode_NE; fsub := Bminus mode_NE; fmul := Bmult mode_NE;
  fdiv := Bdiv mode_NE; fneg := Bopp; fabs := Babs; fsqrt := Bsqrt mode_NE;
  fltb := Bltb; fleb := Bleb; feqb := Beqb;
  flit := fun n d => SF2B (sf_lit n d) (lit_valid n d);
  fofZ := fun z => BinarySingleNaN.binary_normalize 53 1024 Hprec Hmax mode_NE z 0 false;
  ftrunc := fun lo hi x => sf_trunc lo hi (B2SF x) |}.

(** the same results as NumSF *)
Lemma sqrt_equiv (x : b64) : SFsqrt 53 1024 (B2SF x) = B2SF (Bsqrt mode_NE x).
Proof.
  destruct x as [s|[|]| |[|] m e H]; try reflexivity. cbn [SFsqrt Bsqrt B2SF]. rewrite B2SF_SF2B.
  destruct (SFsqrt_core_binary 53 1024 (Z.pos m) e) as [[q e'] l]. apply round_aux_equiv.
Qed.
Theorem Num64_is_NumSF : (forall x y : b64, B2SF (@fadd Num64 x y) = @fadd NumSF (B2SF x) (B2SF y)) /\ (forall x y : b64, B2SF (@fsub Num64 x y) = @fsub NumSF (B2SF x) (B2SF y)) /\
  (forall x y : b64, B2SF (@fmul Num64 x y) = @fmul NumSF (B2SF x) (B2SF y)) /\ (forall x y : b64, B2SF (@fdiv Num64 x y) = @fdiv NumSF (B2SF x) (B2SF y)) /\
  (forall x : b64, B2SF (@fneg Num64 x) = @fneg NumSF (B2SF x)) /\ (forall x : b64, B2SF (@fabs Num64 x) = @fabs NumSF (B2SF x)) /\ (forall x : b64, B2SF (@fsqrt Num64 x) = @fsqrt NumSF (B2SF x)) /\
  (forall x y : b64, @fltb Num64 x y = @fltb NumSF (B2SF x) (B2SF y)) /\ (forall x y : b64, @fleb Num64 x y = @fleb NumSF (B2SF x) (B2SF y)) /\ (forall x y : b64, @feqb Num64 x y = @feqb NumSF (B2SF x) (B2SF y)) /\
  (forall n d, B2SF (@flit Num64 n d) = @flit NumSF n d) /\ (forall z, B2SF (@fofZ Num64 z) = @fofZ NumSF z) /\ (forall lo hi (x : b64), @ftrunc Num64 lo hi x = @ftrunc NumSF lo hi (B2SF x)).
Proof.
  repeat match goal with |- _ /\ _ => split end; intros; symmetry;
    first [apply add_equiv|apply sub_equiv|apply mul_equiv|apply div_equiv|apply sqrt_equiv|reflexivity|symmetry; apply B2SF_SF2B|apply normalize_equiv|idtac].
  - destruct x; reflexivity.
  - destruct x; reflexivity.
Qed.
Print Assumptions Num64_is_NumSF.

(** ** numbers without a minus sign: 0, positive numbers, infinity, and NaN *)
Open Scope R_scope.
Definition U (x : b64) : Prop := Bsign x = false.
(** ... and those that are moreover at most 1 (or NaN); numbers from -1 to 1 (or NaN) *)
Definition I1 (x : b64) : Prop := x = B754_nan \/ (is_finite x = true /\ Bsign x = false /\ B2R x <= 1).
Definition J1 (x : b64) : Prop := x = B754_nan \/ (is_finite x = true /\ Rabs (B2R x) <= 1).

Lemma overflow_sign (x : b64) s : B2SF x = binary_overflow 53 1024 mode_NE s -> x = B754_infinity s.
Proof. destruct x as [t|t| |t m e H]; cbn; intros E; inversion E; reflexivity. Qed.
Lemma U_pos (x : b64) : U x -> 0 <= B2R x.
Proof. destruct x as [s|s| |s m e H]; cbn; intros H0; try lra. unfold U in H0. cbn in H0. subst s. apply F2R_ge_0. cbn. lia. Qed.
Lemma sign_U (x : b64) : 0 < B2R x -> U x.
Proof. destruct x as [s|s| |s m e H]; cbn; intros H0; try lra. unfold U. cbn. destruct s; [|reflexivity]. exfalso. pose proof (F2R_lt_0 radix2 (Float radix2 (cond_Zopp true (Zpos m)) e) ltac:(reflexivity)). lra. Qed.
Lemma U_add (x y : b64) : U x -> U y -> U (Bplus mode_NE x y).
Proof.
  intros HX HY. pose proof (U_pos _ HX) as PX. pose proof (U_pos _ HY) as PY. unfold U in *.
  assert (FC : is_finite x = true -> is_finite y = true -> Bsign (Bplus mode_NE x y) = false).
  { intros FX FY. pose proof (Bplus_correct 53 1024 Hprec Hmax mode_NE x y FX FY) as C. destruct (Rlt_bool _ _).
    - destruct C as (_ & _ & ->). destruct (Rcompare_spec (B2R x + B2R y) 0); [lra|rewrite HX; reflexivity|reflexivity].
    - destruct C as [C _]. apply overflow_sign in C. rewrite C. cbn. exact HX. }
  destruct x as [s|s| |s m e H], y as [t|t| |t n d K]; try (apply FC; reflexivity); cbn in *; subst; reflexivity.
Qed.
Lemma U_mul_sign (x y : b64) : Bsign x = Bsign y -> U (Bmult mode_NE x y).
Proof.
  intros E. unfold U. pose proof (Bmult_correct 53 1024 Hprec Hmax mode_NE x y) as C. destruct (Rlt_bool _ _).
  - destruct C as (_ & _ & C). destruct (Bmult mode_NE x y) eqn:Q; try (rewrite C by reflexivity; rewrite E; apply xorb_nilpotent). reflexivity.
  - apply overflow_sign in C. rewrite C. cbn. rewrite E. apply xorb_nilpotent.
Qed.
Lemma U_mul (x y : b64) : U x -> U y -> U (Bmult mode_NE x y).
Proof. intros HX HY. apply U_mul_sign. unfold U in *. congruence. Qed.
Lemma U_div (x y : b64) : U x -> U y -> U (Bdiv mode_NE x y).
Proof.
  intros HX HY. unfold U in *.
  assert (FC : B2R y <> 0 -> Bsign (Bdiv mode_NE x y) = false).
  { intros NY. pose proof (Bdiv_correct 53 1024 Hprec Hmax mode_NE x y NY) as C. destruct (Rlt_bool _ _).
    - destruct C as (_ & _ & C). destruct (Bdiv mode_NE x y) eqn:Q; try (rewrite C by reflexivity; rewrite HX, HY; reflexivity). reflexivity.
    - apply overflow_sign in C. rewrite C. cbn. rewrite HX, HY. reflexivity. }
  destruct y as [t|t| |t n d K].
  1-3: destruct x as [s|s| |s m e H]; cbn in *; subst; reflexivity.
  apply FC. cbn. intros Z. apply eq_0_F2R in Z. destruct t; discriminate.
Qed.
Lemma U_abs (x : b64) : U (Babs x).
Proof. destruct x; reflexivity. Qed.
Lemma U_sqrt (x : b64) : x <> B754_zero true -> U (Bsqrt mode_NE x).
Proof.
  intros HX. unfold U. pose proof (Bsqrt_correct 53 1024 Hprec Hmax mode_NE x) as (_ & FI & C).
  destruct x as [[|]|[|]| |[|] m e H]; try reflexivity; [congruence|].
  destruct (Bsqrt mode_NE (B754_finite false m e H)) eqn:Q; try (rewrite C by reflexivity; reflexivity). reflexivity.
Qed.
Lemma one64 : B2R (@f1 Num64) = 1 /\ is_finite (@f1 Num64) = true /\ U (@f1 Num64).
Proof.
  assert (E : B2SF (@f1 Num64) = S754_finite false 4503599627370496 (-52)) by (unfold f1; cbn [flit Num64]; rewrite B2SF_SF2B; vm_compute; reflexivity).
  destruct (@f1 Num64 : b64) as [s|s| |s m e H]; cbn in E; try discriminate. inversion E; subst. split; [|split; reflexivity].
  cbn [B2R cond_Zopp]. unfold F2R. cbn [Fnum Fexp]. cbn. lra.
Qed.
Lemma rnd_id z : (Z.abs z <= 2 ^ 53)%Z -> rnd64 (IZR z) = IZR z.
Proof. intros H. apply round_generic; [apply valid_rnd_N|apply small_format; exact H]. Qed.
Lemma rnd_le' x y : x <= y -> rnd64 x <= rnd64 y.
Proof. apply round_le; [exact valid64|apply valid_rnd_N]. Qed.
Lemma rnd_1 : rnd64 1 = 1. Proof. apply (rnd_id 1). lia. Qed.
Lemma rnd_2 : rnd64 2 = 2. Proof. apply (rnd_id 2). lia. Qed.
Lemma rnd_z : rnd64 0 = 0. Proof. apply round_0. apply valid_rnd_N. Qed.
Lemma rnd_in a b x : (Z.abs a <= 2 ^ 53)%Z -> (Z.abs b <= 2 ^ 53)%Z -> IZR a <= x <= IZR b -> IZR a <= rnd64 x <= IZR b.
Proof. intros HA HB [H1 H2]. rewrite <- (rnd_id a), <- (rnd_id b) by assumption. split; apply rnd_le'; assumption. Qed.
Lemma rnd_in1 x : Rabs x <= 1 -> Rabs (rnd64 x) <= 1.
Proof. intros H. apply Rabs_le_inv in H. apply Rabs_le. apply (rnd_in (-1) 1); try lia. exact H. Qed.
Lemma small_lt x k : (k <= 1023)%Z -> Rabs x <= bpow radix2 k -> Rlt_bool (Rabs x) (bpow radix2 1024) = true.
Proof. intros Hk H. apply Rlt_bool_true. apply Rle_lt_trans with (1 := H). apply bpow_lt. lia. Qed.

(** multiplication by a number that is finite, at most 2 *)
Lemma add_fin (x y : b64) : is_finite x = true -> is_finite y = true -> Rabs (B2R x + B2R y) <= 2 ->
  B2R (Bplus mode_NE x y) = rnd64 (B2R x + B2R y) /\ is_finite (Bplus mode_NE x y) = true /\ Bsign (Bplus mode_NE x y) = match Rcompare (B2R x + B2R y) 0 with Eq => (Bsign x && Bsign y)%bool | Lt => true | Gt => false end.
Proof.
  intros FX FY B. pose proof (Bplus_correct 53 1024 Hprec Hmax mode_NE x y FX FY) as C. cbn [round_mode] in C. rewrite (small_lt _ 1) in C; [exact C|lia|].
  apply rnd_bound; [lia|]. exact B.
Qed.
Lemma sub_fin (x y : b64) : is_finite x = true -> is_finite y = true -> Rabs (B2R x - B2R y) <= 2 ->
  B2R (Bminus mode_NE x y) = rnd64 (B2R x - B2R y) /\ is_finite (Bminus mode_NE x y) = true /\ Bsign (Bminus mode_NE x y) = match Rcompare (B2R x - B2R y) 0 with Eq => (Bsign x && negb (Bsign y))%bool | Lt => true | Gt => false end.
Proof.
  intros FX FY B. pose proof (Bminus_correct 53 1024 Hprec Hmax mode_NE x y FX FY) as C. cbn [round_mode] in C. rewrite (small_lt _ 1) in C; [exact C|lia|].
  apply rnd_bound; [lia|]. exact B.
Qed.
Lemma mul_fin (x y : b64) : is_finite x = true -> is_finite y = true -> Rabs (B2R x * B2R y) <= 2 ->
  B2R (Bmult mode_NE x y) = rnd64 (B2R x * B2R y) /\ is_finite (Bmult mode_NE x y) = true.
Proof.
  intros FX FY B. pose proof (Bmult_correct 53 1024 Hprec Hmax mode_NE x y) as C. cbn [round_mode] in C. rewrite (small_lt _ 1) in C; [|lia|apply rnd_bound; [lia|exact B]].
  destruct C as (C1 & C2 & _). rewrite FX, FY in C2. split; assumption.
Qed.
Lemma nan_mul_l (y : b64) : Bmult mode_NE B754_nan y = B754_nan. Proof. destruct y; reflexivity. Qed.
Lemma nan_mul_r (x : b64) : Bmult mode_NE x B754_nan = B754_nan. Proof. destruct x; reflexivity. Qed.
Lemma nan_add_l (y : b64) : Bplus mode_NE B754_nan y = B754_nan. Proof. destruct y; reflexivity. Qed.
Lemma nan_add_r (x : b64) : Bplus mode_NE x B754_nan = B754_nan. Proof. destruct x; reflexivity. Qed.
Lemma nan_sub_l (y : b64) : Bminus mode_NE B754_nan y = B754_nan. Proof. destruct y; reflexivity. Qed.
Lemma nan_sub_r (x : b64) : Bminus mode_NE x B754_nan = B754_nan. Proof. destruct x; reflexivity. Qed.

Lemma I_U x : I1 x -> U x.
Proof. intros [->|(_ & H & _)]; [reflexivity|exact H]. Qed.
Lemma I_J x : I1 x -> J1 x.
Proof. intros [->|(A & B & C)]; [left; reflexivity|right]. split; [exact A|]. pose proof (U_pos x B). apply Rabs_le. lra. Qed.
Lemma I_mul x y : I1 x -> I1 y -> I1 (Bmult mode_NE x y).
Proof.
  intros [->|(A & B & C)]; [rewrite nan_mul_l; left; reflexivity|]. intros [->|(A' & B' & C')]; [rewrite nan_mul_r; left; reflexivity|]. right.
  pose proof (U_pos x B) as P. pose proof (U_pos y B') as P'. assert (Q : 0 <= B2R x * B2R y <= 1) by nra.
  destruct (mul_fin x y A A' ltac:(rewrite Rabs_pos_eq; lra)) as [V FV]. split; [exact FV|]. split; [apply U_mul; assumption|].
  rewrite V, <- rnd_1. apply rnd_le'. lra.
Qed.
Lemma J_mul x y : J1 x -> J1 y -> J1 (Bmult mode_NE x y).
Proof.
  intros [->|(A & B)]; [rewrite nan_mul_l; left; reflexivity|]. intros [->|(A' & B')]; [rewrite nan_mul_r; left; reflexivity|]. right.
  assert (Q : Rabs (B2R x * B2R y) <= 1) by (rewrite Rabs_mult; pose proof (Rabs_pos (B2R x)); pose proof (Rabs_pos (B2R y)); nra).
  destruct (mul_fin x y A A' ltac:(lra)) as [V FV]. split; [exact FV|]. rewrite V. apply rnd_in1. exact Q.
Qed.
Lemma J_square x : J1 x -> I1 (Bmult mode_NE x x).
Proof.
  intros H. destruct (J_mul x x H H) as [->|(A & B)]; [left; reflexivity|]. right. split; [exact A|]. split; [apply U_mul_sign; reflexivity|]. apply Rabs_le_inv in B. lra.
Qed.
Lemma I_one_minus x : I1 x -> I1 (@fsub Num64 f1 x).
Proof.
  change (@fsub Num64 f1 x) with (Bminus mode_NE (@f1 Num64 : b64) x). destruct one64 as (V1 & F1 & U1). intros [->|(A & B & C)]; [rewrite nan_sub_r; left; reflexivity|]. right.
  pose proof (U_pos x B) as P. assert (BD : Rabs (B2R (@f1 Num64) - B2R x) <= 2) by (rewrite V1; apply Rabs_le; lra). destruct (sub_fin (@f1 Num64) x F1 A BD) as (V & FV & S). rewrite V1 in V, S. split; [exact FV|]. split.
  - rewrite S. destruct (Rcompare_spec (1 - B2R x) 0); [lra|unfold U in U1; rewrite U1; reflexivity|reflexivity].
  - rewrite V. apply Rle_trans with (rnd64 1); [apply rnd_le'; lra|rewrite rnd_1; lra].
Qed.
Lemma one_plus_J x : J1 x -> U (@fadd Num64 f1 x).
Proof.
  change (@fadd Num64 f1 x) with (Bplus mode_NE (@f1 Num64 : b64) x). destruct one64 as (V1 & F1 & U1). intros [->|(A & B)]; [rewrite nan_add_r; reflexivity|].
  apply Rabs_le_inv in B. assert (BD : Rabs (B2R (@f1 Num64) + B2R x) <= 2) by (rewrite V1; apply Rabs_le; lra). destruct (add_fin (@f1 Num64) x F1 A BD) as (V & FV & S). rewrite V1 in V, S. unfold U. rewrite S.
  destruct (Rcompare_spec (1 + B2R x) 0); [lra|unfold U in U1; rewrite U1; reflexivity|reflexivity].
Qed.
(** 1 - x is never the negative zero *)
Lemma one_minus_zero x : @fsub Num64 f1 x <> B754_zero true.
Proof.
  change (@fsub Num64 f1 x) with (Bminus mode_NE (@f1 Num64 : b64) x). destruct one64 as (V1 & F1 & U1). unfold U in U1. set (o := (@f1 Num64 : b64)) in *. clearbody o. intros E.
  destruct (is_finite x) eqn:FX.
  - pose proof (Bminus_correct 53 1024 Hprec Hmax mode_NE o x F1 FX) as C. cbn [round_mode] in C. rewrite V1 in C. destruct (Rlt_bool _ _).
    + destruct C as (C1 & _ & C3). rewrite E in C1, C3. cbn in C1, C3. destruct (Rcompare_spec (1 - B2R x) 0) as [H|H|H]; [|rewrite U1 in C3; discriminate|discriminate].
      assert (X : generic_format radix2 fexp64 (B2R x)) by apply generic_format_B2R.
      (* x > 1, so the exact difference does not round to zero *)
      assert (R0 : rnd64 (1 - B2R x) <> 0); [|congruence].
      assert (NU : rnd64 (1 + - B2R x) <> 0); [|exact NU].
      change fexp64 with (FLT_exp (3 - 1024 - 53) 53) in X |- *. apply round_plus_neq_0; [apply FLT_exp_valid; exact Hprec|apply monotone_exp_not_FTZ; [apply FLT_exp_valid; exact Hprec|apply FLT_exp_monotone]|apply valid_rnd_N| | |lra].
      * apply (small_format 1). lia.
      * apply generic_format_opp. exact X.
    + destruct C as [C _]. apply overflow_sign in C. rewrite C in E. discriminate.
  - destruct o as [s|s| |s m e H], x as [t|t| |t n d K]; try discriminate; cbn in *; discriminate.
Qed.
(** (a - b) / (a + b) lies between -1 and 1 *)
Lemma J_ratio a b : U a -> U b -> J1 (Bdiv mode_NE (Bminus mode_NE a b) (Bplus mode_NE a b)).
Proof.
  intros HA HB. pose proof (U_pos a HA) as PA. pose proof (U_pos b HB) as PB.
  destruct (is_finite a) eqn:FA; [destruct (is_finite b) eqn:FB|].
  2:{ destruct b as [t|t| |t n d K]; try discriminate; destruct a as [s|s| |s m e H]; try discriminate; unfold U in *; cbn in HA, HB; subst; try (left; reflexivity). }
  2:{ destruct a as [s|s| |s m e H]; try discriminate; destruct b as [t|t| |t n d K]; unfold U in *; cbn in HA, HB; subst; try (left; reflexivity). }
  pose proof (Bminus_correct 53 1024 Hprec Hmax mode_NE a b FA FB) as CM. cbn [round_mode] in CM.
  pose proof (Bplus_correct 53 1024 Hprec Hmax mode_NE a b FA FB) as CP. cbn [round_mode] in CP.
  destruct (Rlt_bool (Rabs (rnd64 (B2R a - B2R b))) (bpow radix2 1024)).
  2:{ destruct CM as [_ CM]. unfold U in *. rewrite HA, HB in CM. discriminate. }
  destruct CM as (M1 & M2 & _). set (m := Bminus mode_NE a b) in *. set (p := Bplus mode_NE a b) in *. clearbody m p.
  destruct (Rlt_bool (Rabs (rnd64 (B2R a + B2R b))) (bpow radix2 1024)).
  - destruct CP as (P1 & P2 & P3).
    assert (LE : Rabs (B2R m) <= B2R p).
    { rewrite M1, P1. apply Rabs_le. split; [|apply rnd_le'; lra]. rewrite <- (round_NE_opp radix2 fexp64). apply rnd_le'. lra. }
    destruct (Req_dec (B2R p) 0) as [Z|NZ].
    + assert (ZM : B2R m = 0) by (rewrite Z in LE; apply Rabs_le_inv in LE; lra). left.
      destruct m as [s|s| |s mm me mH], p as [t|t| |t n d K]; try discriminate; try reflexivity; exfalso.
      * cbn in Z. apply eq_0_F2R in Z. destruct t; discriminate.
      * cbn in ZM. apply eq_0_F2R in ZM. destruct s; discriminate.
      * cbn in Z. apply eq_0_F2R in Z. destruct t; discriminate.
    + assert (PP : 0 < B2R p) by (pose proof (Rabs_pos (B2R m)); lra).
      assert (Q : Rabs (B2R m / B2R p) <= 1).
      { unfold Rdiv. rewrite Rabs_mult, Rabs_inv, (Rabs_pos_eq (B2R p)) by lra. apply (Rmult_le_reg_r (B2R p)); [exact PP|]. rewrite Rmult_assoc, Rinv_l by lra. lra. }
      pose proof (Bdiv_correct 53 1024 Hprec Hmax mode_NE m p NZ) as C. cbn [round_mode] in C. pose proof (rnd_in1 _ Q) as Q'.
      rewrite (small_lt _ 0) in C; [|lia|exact Q']. destruct C as (C1 & C2 & _). right. split; [congruence|]. rewrite C1. exact Q'.
  - destruct CP as [CP _]. apply overflow_sign in CP. rewrite CP. right. destruct m as [s|s| |s mm me mH]; try discriminate; cbn; (split; [reflexivity|rewrite Rabs_R0; lra]).
Qed.
