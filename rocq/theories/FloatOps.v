(** * FloatOps: binary64 operations of NumSF on finite numbers, through Flocq's correctness theorems *)
From Coq Require Import ZArith SpecFloat Reals Lra Lia.
From Flocq Require Import Core BinarySingleNaN Relative.
From Verif Require Import Num NumSF SFBridge.
#[local] Existing Instance Hprec.
#[local] Existing Instance Hmax.
Open Scope R_scope.
(** the value of a float *)
Definition val (x : spec_float) : R := SF2R radix2 x.
(** a finite binary64 number, of magnitude at most B *)
Definition finite_upto (B : R) (x : spec_float) : Prop :=
  valid_binary 53 1024 x = true /\ is_finite_SF x = true /\ Rabs (val x) <= B.
Lemma as_b64 B x : finite_upto B x -> exists b : b64, x = B2SF b /\ is_finite b = true /\ B2R b = val x.
Proof.
  intros (HV & HF & _). exists (SF2B x HV). rewrite B2SF_SF2B. split; [reflexivity|]. split; [rewrite is_finite_SF2B; exact HF|apply B2R_SF2B].
Qed.
Lemma of_b64 B (b : b64) : is_finite b = true -> Rabs (B2R b) <= B -> finite_upto B (B2SF b).
Proof.
  intros HF HB. split; [apply valid_binary_B2SF|]. split; [rewrite is_finite_SF_B2SF; exact HF|]. unfold val. rewrite SF2R_B2SF. exact HB.
Qed.
Lemma val_B2SF (b : b64) : val (B2SF b) = B2R b.
Proof. apply SF2R_B2SF. Qed.
Lemma ltb_val B x y : finite_upto B x -> finite_upto B y -> @fltb NumSF x y = Rlt_bool (val x) (val y).
Proof.
  intros Hx Hy. destruct (as_b64 _ _ Hx) as (bx & -> & Fx & Vx), (as_b64 _ _ Hy) as (by_ & -> & Fy & Vy).
  rewrite <- Vx, <- Vy. apply (Bltb_correct 53 1024 bx by_ Fx Fy).
Qed.

Lemma add_equiv (x y : b64) : SFadd 53 1024 (B2SF x) (B2SF y) = B2SF (Bplus mode_NE x y).
Proof.
  destruct x as [sx|sx| |sx mx ex Bx], y as [sy|sy| |sy my ey By]; try reflexivity; try (cbn; destruct (Bool.eqb _ _); reflexivity).
  cbn. rewrite normalize_equiv. f_equal.
Qed.
Lemma sub_equiv (x y : b64) : SFsub 53 1024 (B2SF x) (B2SF y) = B2SF (Bminus mode_NE x y).
Proof.
  destruct x as [sx|sx| |sx mx ex Bx], y as [sy|sy| |sy my ey By]; try reflexivity; try (cbn; destruct (Bool.eqb _ _); reflexivity).
  cbn. rewrite normalize_equiv. f_equal. unfold Fplus_naive. f_equal. unfold Z.sub. f_equal. destruct sy; reflexivity.
Qed.

Lemma bpow_format k : (-1074 <= k)%Z -> generic_format radix2 fexp64 (bpow radix2 k).
Proof. intros H. change fexp64 with (FLT_exp (3 - 1024 - 53) 53). apply generic_format_FLT_bpow; [reflexivity|lia]. Qed.
Lemma valid64 : Valid_exp fexp64.
Proof. apply fexp_correct. exact Hprec. Qed.
#[local] Existing Instance valid64.
(** rounding does not leave a power-of-two bound *)
Lemma rnd_bound k x : (-1074 <= k)%Z -> Rabs x <= bpow radix2 k -> Rabs (rnd64 x) <= bpow radix2 k.
Proof. intros Hk H. apply abs_round_le_generic; [exact valid64|apply valid_rnd_N|apply bpow_format; exact Hk|exact H]. Qed.

Section Ops.
  Variable k : Z.
  Hypothesis Hk : (-1074 <= k <= 1023)%Z.
  Lemma no_overflow x : Rabs x <= bpow radix2 k -> Rlt_bool (Rabs (rnd64 x)) (bpow radix2 1024) = true.
  Proof.
    intros H. apply Rlt_bool_true. apply Rle_lt_trans with (bpow radix2 k); [apply rnd_bound; [lia|exact H]|apply bpow_lt; lia].
  Qed.
  Lemma sub_val B x y : finite_upto B x -> finite_upto B y -> Rabs (val x - val y) <= bpow radix2 k ->
    val (@fsub NumSF x y) = rnd64 (val x - val y) /\ finite_upto (bpow radix2 k) (@fsub NumSF x y).
  Proof.
    intros Hx Hy HB. destruct (as_b64 _ _ Hx) as (bx & -> & Fx & Vx), (as_b64 _ _ Hy) as (b' & -> & Fy & Vy).
    change (@fsub NumSF (B2SF bx) (B2SF b')) with (SFsub 53 1024 (B2SF bx) (B2SF b')). rewrite sub_equiv, !val_B2SF.
    rewrite !val_B2SF in HB. pose proof (Bminus_correct 53 1024 Hprec Hmax mode_NE bx b' Fx Fy) as C. cbn [round_mode] in C.
    rewrite (no_overflow _ HB) in C. destruct C as (C1 & C2 & _). split; [exact C1|].
    apply of_b64; [exact C2|]. rewrite C1. apply rnd_bound; [lia|exact HB].
  Qed.
  Lemma add_val B x y : finite_upto B x -> finite_upto B y -> Rabs (val x + val y) <= bpow radix2 k ->
    val (@fadd NumSF x y) = rnd64 (val x + val y) /\ finite_upto (bpow radix2 k) (@fadd NumSF x y).
  Proof.
    intros Hx Hy HB. destruct (as_b64 _ _ Hx) as (bx & -> & Fx & Vx), (as_b64 _ _ Hy) as (b' & -> & Fy & Vy).
    change (@fadd NumSF (B2SF bx) (B2SF b')) with (SFadd 53 1024 (B2SF bx) (B2SF b')). rewrite add_equiv, !val_B2SF.
    rewrite !val_B2SF in HB. pose proof (Bplus_correct 53 1024 Hprec Hmax mode_NE bx b' Fx Fy) as C. cbn [round_mode] in C.
    rewrite (no_overflow _ HB) in C. destruct C as (C1 & C2 & _). split; [exact C1|].
    apply of_b64; [exact C2|]. rewrite C1. apply rnd_bound; [lia|exact HB].
  Qed.
  Lemma mul_val B B' x y : finite_upto B x -> finite_upto B' y -> Rabs (val x * val y) <= bpow radix2 k ->
    val (@fmul NumSF x y) = rnd64 (val x * val y) /\ finite_upto (bpow radix2 k) (@fmul NumSF x y).
  Proof.
    intros Hx Hy HB. destruct (as_b64 _ _ Hx) as (bx & -> & Fx & Vx), (as_b64 _ _ Hy) as (b' & -> & Fy & Vy).
    change (@fmul NumSF (B2SF bx) (B2SF b')) with (SFmul 53 1024 (B2SF bx) (B2SF b')). rewrite mul_equiv, !val_B2SF.
    rewrite !val_B2SF in HB. pose proof (Bmult_correct 53 1024 Hprec Hmax mode_NE bx b') as C. cbn [round_mode] in C.
    rewrite (no_overflow _ HB) in C. destruct C as (C1 & C2 & _). rewrite Fx, Fy in C2. split; [exact C1|].
    apply of_b64; [exact C2|]. rewrite C1. apply rnd_bound; [lia|exact HB].
  Qed.
  Lemma div_val B B' x y : finite_upto B x -> finite_upto B' y -> val y <> 0 -> Rabs (val x / val y) <= bpow radix2 k ->
    val (@fdiv NumSF x y) = rnd64 (val x / val y) /\ finite_upto (bpow radix2 k) (@fdiv NumSF x y).
  Proof.
    intros Hx Hy H0 HB. destruct (as_b64 _ _ Hx) as (bx & -> & Fx & Vx), (as_b64 _ _ Hy) as (b' & -> & Fy & Vy).
    change (@fdiv NumSF (B2SF bx) (B2SF b')) with (SFdiv 53 1024 (B2SF bx) (B2SF b')). rewrite div_equiv, !val_B2SF.
    rewrite !val_B2SF in HB. rewrite val_B2SF in H0. pose proof (Bdiv_correct 53 1024 Hprec Hmax mode_NE bx b' H0) as C. cbn [round_mode] in C.
    rewrite (no_overflow _ HB) in C. destruct C as (C1 & C2 & _). rewrite Fx in C2. split; [exact C1|].
    apply of_b64; [exact C2|]. rewrite C1. apply rnd_bound; [lia|exact HB].
  Qed.
End Ops.
(** an overflowing product of positive numbers is plus infinity *)
Lemma mul_overflow B B' x y : finite_upto B x -> finite_upto B' y -> 0 < val x -> 0 < val y -> bpow radix2 1024 <= Rabs (rnd64 (val x * val y)) ->
  @fmul NumSF x y = S754_infinity false.
Proof.
  intros Hx Hy X0 Y0 HB. destruct (as_b64 _ _ Hx) as (bx & -> & Fx & Vx), (as_b64 _ _ Hy) as (b' & -> & Fy & Vy).
  change (@fmul NumSF (B2SF bx) (B2SF b')) with (SFmul 53 1024 (B2SF bx) (B2SF b')). rewrite mul_equiv.
  rewrite !val_B2SF in *. pose proof (Bmult_correct 53 1024 Hprec Hmax mode_NE bx b') as C. cbn [round_mode] in C.
  rewrite Rlt_bool_false in C by exact HB. rewrite C.
  assert (S : forall b : b64, 0 < B2R b -> Bsign b = false).
  { intros b Hb. destruct b as [s|s| |s m e He]; cbn in Hb |- *; try lra. destruct s; [|reflexivity]. exfalso.
    assert (F2R (Float radix2 (cond_Zopp true (Zpos m)) e) < 0) by (apply F2R_lt_0; reflexivity). cbn [cond_Zopp] in *. lra. }
  rewrite (S _ X0), (S _ Y0). reflexivity.
Qed.
Lemma finite_weaken B B' x : finite_upto B x -> B <= B' -> finite_upto B' x.
Proof. intros (H1 & H2 & H3) H. split; [exact H1|]. split; [exact H2|]. lra. Qed.
(** the only finite floats of value zero are the two zeros *)
Lemma val_zero B x : finite_upto B x -> val x = 0 -> exists s, x = S754_zero s.
Proof.
  intros (HV & HF & _) V. destruct x as [s|s| |s m e]; try discriminate; [eauto|]. exfalso. unfold val, SF2R in V.
  apply eq_0_F2R in V. destruct s; discriminate.
Qed.
