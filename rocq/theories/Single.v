(** * Single: the binary32 operations of NumSF32 on numbers of moderate size, through Flocq's correctness theorems, and the
    casts between f32 and f64 *)
From Coq Require Import ZArith SpecFloat Reals Lra Lia Psatz.
From Flocq Require Import Core BinarySingleNaN Relative.
From Verif Require Import Num NumSF NumSF32 SFBridge FloatOps Mixed.
Open Scope R_scope.

Lemma Hprec32 : Prec_gt_0 24. Proof. reflexivity. Qed.
Lemma Hmax32 : Prec_lt_emax 24 128. Proof. reflexivity. Qed.
#[local] Existing Instance Hprec32.
#[local] Existing Instance Hmax32.
Notation b32 := (binary_float 24 128).
Notation fexp32 := (SpecFloat.fexp 24 128).
Notation rnd32 := (round radix2 fexp32 ZnearestE).

(** ** the operations of the standard library are Flocq's *)
Lemma round_aux_equiv32 sx mx ex lx : SpecFloat.binary_round_aux 24 128 sx mx ex lx = BinarySingleNaN.binary_round_aux 24 128 mode_NE sx mx ex lx.
Proof.
  unfold SpecFloat.binary_round_aux, BinarySingleNaN.binary_round_aux. destruct (shr_fexp _ _ _) as [mrs e']. rewrite (round_nearest_even_equiv sx). reflexivity.
Qed.
Lemma round_equiv32 s m e : SpecFloat.binary_round 24 128 s m e = BinarySingleNaN.binary_round 24 128 mode_NE s m e.
Proof. unfold SpecFloat.binary_round, BinarySingleNaN.binary_round, shl_align_fexp. destruct (shl_align _ _ _). apply round_aux_equiv32. Qed.
Lemma normalize_equiv32 m e sz : SpecFloat.binary_normalize 24 128 m e sz = B2SF (BinarySingleNaN.binary_normalize 24 128 Hprec32 Hmax32 mode_NE m e sz).
Proof. destruct m; cbn; [reflexivity| |]; rewrite B2SF_SF2B; apply round_equiv32. Qed.
Lemma mul_equiv32 (x y : b32) : SFmul 24 128 (B2SF x) (B2SF y) = B2SF (Bmult mode_NE x y).
Proof. destruct x as [sx|sx| |sx mx ex Bx], y as [sy|sy| |sy my ey By]; try reflexivity. cbn. rewrite B2SF_SF2B. apply round_aux_equiv32. Qed.
Lemma add_equiv32 (x y : b32) : SFadd 24 128 (B2SF x) (B2SF y) = B2SF (Bplus mode_NE x y).
Proof.
  destruct x as [sx|sx| |sx mx ex Bx], y as [sy|sy| |sy my ey By]; try reflexivity; try (cbn; destruct (Bool.eqb _ _); reflexivity).
  cbn. rewrite normalize_equiv32. f_equal.
Qed.
Lemma sub_equiv32 (x y : b32) : SFsub 24 128 (B2SF x) (B2SF y) = B2SF (Bminus mode_NE x y).
Proof.
  destruct x as [sx|sx| |sx mx ex Bx], y as [sy|sy| |sy my ey By]; try reflexivity; try (cbn; destruct (Bool.eqb _ _); reflexivity).
  cbn. rewrite normalize_equiv32. f_equal. unfold Fplus_naive. f_equal. unfold Z.sub. f_equal. destruct sy; reflexivity.
Qed.
Lemma sqrt_equiv32 (x : b32) : SFsqrt 24 128 (B2SF x) = B2SF (Bsqrt mode_NE x).
Proof.
  destruct x as [s|[]| |s m e He]; try reflexivity. destruct s; [reflexivity|]. cbn [B2SF SFsqrt Bsqrt].
  rewrite B2SF_SF2B. destruct (SFsqrt_core_binary _ _ _ _) as [[mz ez] lz]. apply round_aux_equiv32.
Qed.

(** ** moderate numbers *)
Definition u32 : R := / 2 ^ 24.
Definition fin32 (x : @F NumSF32) : Prop := valid_binary 24 128 x = true /\ is_finite_SF x = true /\ Rabs (val x) <= 1024.
Lemma as_b32 x : fin32 x -> exists b : b32, x = B2SF b /\ is_finite b = true /\ B2R b = val x.
Proof.
  intros (HV & HF & _). exists (SF2B x HV). rewrite B2SF_SF2B. split; [reflexivity|]. split; [rewrite is_finite_SF2B; exact HF|apply B2R_SF2B].
Qed.
Lemma of_b32 (b : b32) : is_finite b = true -> Rabs (B2R b) <= 1024 -> fin32 (B2SF b).
Proof.
  intros HF HB. split; [apply valid_binary_B2SF|]. split; [rewrite is_finite_SF_B2SF; exact HF|]. unfold val. rewrite SF2R_B2SF. exact HB.
Qed.
Lemma val32 (b : b32) : val (B2SF b) = B2R b.
Proof. apply SF2R_B2SF. Qed.
Lemma valid32 : Valid_exp fexp32.
Proof. apply fexp_correct. exact Hprec32. Qed.
#[local] Existing Instance valid32.
Lemma k10 : bpow radix2 10 = 1024. Proof. cbn. lra. Qed.
Lemma rnd32_bound x : Rabs x <= 1024 -> Rabs (rnd32 x) <= 1024.
Proof.
  rewrite <- k10. intros H. apply abs_round_le_generic; [exact valid32|apply valid_rnd_N| |exact H].
  change fexp32 with (FLT_exp (3 - 128 - 24) 24). apply generic_format_FLT_bpow; [reflexivity|lia].
Qed.
Lemma rnd32_fits x : Rabs x <= 1024 -> Rlt_bool (Rabs (rnd32 x)) (bpow radix2 128) = true.
Proof. intros H. apply Rlt_bool_true. apply Rle_lt_trans with 1024; [apply rnd32_bound; exact H|]. rewrite <- k10. apply bpow_lt. lia. Qed.
Lemma rnd32_error x : Rabs (rnd32 x - x) <= u32 * Rabs x + / 2 ^ 150.
Proof.
  destruct (error_N_FLT radix2 (3 - 128 - 24) 24 ltac:(lia) (fun x => negb (Z.even x)) x) as (eps & eta & E1 & E2 & _ & E).
  change (FLT_exp (3 - 128 - 24) 24) with fexp32 in E. change (Znearest (fun x => negb (Z.even x))) with ZnearestE in E.
  rewrite E. replace (x * (1 + eps) + eta - x) with (x * eps + eta) by ring.
  apply Rle_trans with (Rabs (x * eps) + Rabs eta); [apply Rabs_triang|]. apply Rplus_le_compat.
  - rewrite Rabs_mult, Rmult_comm. apply Rmult_le_compat_r; [apply Rabs_pos|]. refine (Rle_trans _ _ _ E1 _).
    unfold u32. change (- (24) + 1)%Z with (Z.opp 23). cbn. lra.
  - refine (Rle_trans _ _ _ E2 _). change (3 - 128 - 24)%Z with (Z.opp 149). apply Req_le.
    replace (bpow radix2 (Z.opp 149)) with (2 * / 2 ^ 150); [lra|]. rewrite bpow_opp.
    replace (bpow radix2 149) with (2 ^ 149); [field; split; apply pow_nonzero; lra|]. change 149%Z with (Z.of_nat 149). rewrite bpow_powerRZ, <- pow_powerRZ. reflexivity.
Qed.
Lemma rnd32_le x y : x <= y -> rnd32 x <= rnd32 y.
Proof. apply round_le; [exact valid32|apply valid_rnd_N]. Qed.
Lemma rnd32_0 : rnd32 0 = 0. Proof. apply round_0, valid_rnd_N. Qed.
Lemma rnd32_1 : rnd32 1 = 1.
Proof.
  apply round_generic; [apply valid_rnd_N|]. change 1 with (bpow radix2 0). change fexp32 with (FLT_exp (3 - 128 - 24) 24). apply generic_format_FLT_bpow; [reflexivity|lia].
Qed.
Lemma rnd32_id x : fin32 x -> rnd32 (val x) = val x.
Proof. intros H. destruct (as_b32 _ H) as (b & -> & _ & V). rewrite <- V. apply round_generic; [apply valid_rnd_N|apply generic_format_B2R]. Qed.

Lemma add32 x y : fin32 x -> fin32 y -> Rabs (val x + val y) <= 1024 -> val (@fadd NumSF32 x y) = rnd32 (val x + val y) /\ fin32 (@fadd NumSF32 x y).
Proof.
  intros Hx Hy HB. destruct (as_b32 _ Hx) as (bx & -> & Fx & Vx), (as_b32 _ Hy) as (b' & -> & Fy & Vy).
  change (@fadd NumSF32 (B2SF bx) (B2SF b')) with (SFadd 24 128 (B2SF bx) (B2SF b')). rewrite add_equiv32, !val32.
  rewrite !val32 in HB. pose proof (Bplus_correct 24 128 Hprec32 Hmax32 mode_NE bx b' Fx Fy) as C. cbn [round_mode] in C.
  rewrite (rnd32_fits _ HB) in C. destruct C as (C1 & C2 & _). split; [exact C1|].
  apply of_b32; [exact C2|]. rewrite C1. apply rnd32_bound; exact HB.
Qed.
Lemma sub32 x y : fin32 x -> fin32 y -> Rabs (val x - val y) <= 1024 -> val (@fsub NumSF32 x y) = rnd32 (val x - val y) /\ fin32 (@fsub NumSF32 x y).
Proof.
  intros Hx Hy HB. destruct (as_b32 _ Hx) as (bx & -> & Fx & Vx), (as_b32 _ Hy) as (b' & -> & Fy & Vy).
  change (@fsub NumSF32 (B2SF bx) (B2SF b')) with (SFsub 24 128 (B2SF bx) (B2SF b')). rewrite sub_equiv32, !val32.
  rewrite !val32 in HB. pose proof (Bminus_correct 24 128 Hprec32 Hmax32 mode_NE bx b' Fx Fy) as C. cbn [round_mode] in C.
  rewrite (rnd32_fits _ HB) in C. destruct C as (C1 & C2 & _). split; [exact C1|].
  apply of_b32; [exact C2|]. rewrite C1. apply rnd32_bound; exact HB.
Qed.
Lemma mul32 x y : fin32 x -> fin32 y -> Rabs (val x * val y) <= 1024 -> val (@fmul NumSF32 x y) = rnd32 (val x * val y) /\ fin32 (@fmul NumSF32 x y).
Proof.
  intros Hx Hy HB. destruct (as_b32 _ Hx) as (bx & -> & Fx & Vx), (as_b32 _ Hy) as (b' & -> & Fy & Vy).
  change (@fmul NumSF32 (B2SF bx) (B2SF b')) with (SFmul 24 128 (B2SF bx) (B2SF b')). rewrite mul_equiv32, !val32.
  rewrite !val32 in HB. pose proof (Bmult_correct 24 128 Hprec32 Hmax32 mode_NE bx b') as C. cbn [round_mode] in C.
  rewrite (rnd32_fits _ HB) in C. destruct C as (C1 & C2 & _). rewrite Fx, Fy in C2. split; [exact C1|].
  apply of_b32; [exact C2|]. rewrite C1. apply rnd32_bound; exact HB.
Qed.
Lemma sqrt32 x : fin32 x -> 0 <= val x -> val (@fsqrt NumSF32 x) = rnd32 (sqrt (val x)) /\ fin32 (@fsqrt NumSF32 x).
Proof.
  intros H P. destruct (as_b32 _ H) as (b & -> & FI & V). rewrite val32 in P. destruct H as (_ & _ & HB). rewrite val32 in HB.
  change (@fsqrt NumSF32 (B2SF b)) with (SFsqrt 24 128 (B2SF b)). rewrite sqrt_equiv32, !val32.
  destruct (Bsqrt_correct 24 128 Hprec32 Hmax32 mode_NE b) as (C1 & C2 & _). cbn [round_mode] in C1. split; [exact C1|].
  apply of_b32.
  - rewrite C2. destruct b as [s|s| |s m e He]; try discriminate; [reflexivity|]. destruct s; [|reflexivity]. exfalso. cbn [B2R] in P.
    assert (F2R (Float radix2 (cond_Zopp true (Zpos m)) e) < 0) by (apply F2R_lt_0; reflexivity). lra.
  - rewrite C1. apply rnd32_bound. rewrite Rabs_pos_eq by apply sqrt_pos. rewrite Rabs_pos_eq in HB by exact P.
    assert (S : sqrt (B2R b) * sqrt (B2R b) = B2R b) by (apply sqrt_sqrt; exact P). pose proof (sqrt_pos (B2R b)). nra.
Qed.
Lemma ltb32 x y : fin32 x -> fin32 y -> @fltb NumSF32 x y = Rlt_bool (val x) (val y).
Proof.
  intros Hx Hy. destruct (as_b32 _ Hx) as (bx & -> & Fx & Vx), (as_b32 _ Hy) as (by_ & -> & Fy & Vy).
  rewrite <- Vx, <- Vy. apply (Bltb_correct 24 128 bx by_ Fx Fy).
Qed.
Lemma clamp32 x lo hi : fin32 x -> fin32 lo -> fin32 hi -> val lo <= val hi ->
  fin32 (@fclamp NumSF32 x lo hi) /\ val lo <= val (@fclamp NumSF32 x lo hi) <= val hi /\
  (forall t, val lo <= t <= val hi -> Rabs (val (@fclamp NumSF32 x lo hi) - t) <= Rabs (val x - t)).
Proof.
  intros Hx Hl Hh L. unfold fclamp. rewrite (ltb32 _ _ Hx Hl), (ltb32 _ _ Hh Hx).
  destruct (Rlt_bool_spec (val x) (val lo)).
  { split; [exact Hl|]. split; [lra|]. intros t Ht. rewrite !Rabs_left1; lra. }
  destruct (Rlt_bool_spec (val hi) (val x)); [split; [exact Hh|]; split; [lra|]; intros t Ht; rewrite !Rabs_pos_eq; lra|].
  split; [exact Hx|]. split; [lra|]. intros t _. apply Rle_refl.
Qed.

(** ** the casts `as f32` and `as f64` *)
Lemma valid_parts s m e : valid_binary 24 128 (S754_finite s m e) = true -> (Zpos m < 2 ^ 24)%Z /\ (-149 <= e)%Z.
Proof.
  cbn [valid_binary]. unfold bounded. intros H. apply andb_prop in H as [H _]. unfold canonical_mantissa in H. apply Zeq_bool_eq in H.
  unfold SpecFloat.fexp, SpecFloat.emin in H. rewrite Digits.Zpos_digits2_pos in H. split; [|lia].
  pose proof (Digits.Zdigits_correct radix2 (Zpos m)) as [_ D]. rewrite Z.abs_eq in D by lia. apply Z.lt_le_trans with (1 := D).
  change (Zpower radix2 (Digits.Zdigits radix2 (Z.pos m)) <= Zpower radix2 24)%Z. apply Zpower_le. lia.
Qed.
Lemma widen_val x : fin32 x -> val (widen x) = val x /\ finite_upto (Rabs (val x)) (widen x).
Proof.
  intros (HV & HF & HB). destruct x as [s|s| |s m e]; try discriminate; [split; [reflexivity|]; split; [reflexivity|]; split; [reflexivity|apply Rle_refl]|].
  unfold widen, cast. replace (if s then Zneg m else Zpos m) with (cond_Zopp s (Zpos m)) by (destruct s; reflexivity). rewrite normalize_equiv. destruct (valid_parts _ _ _ HV) as [HM HE].
  pose proof (binary_normalize_correct 53 1024 Hprec Hmax mode_NE (cond_Zopp s (Zpos m)) e s) as C. cbv zeta in C.
  assert (V : F2R (Float radix2 (cond_Zopp s (Zpos m)) e) = val (S754_finite s m e)) by reflexivity. rewrite V in C.
  rewrite round_generic in C.
  - rewrite Rlt_bool_true in C by (apply Rle_lt_trans with (1 := HB); rewrite <- k10; apply bpow_lt; lia). destruct C as (C1 & C2 & _).
    rewrite val_B2SF. rewrite C1. split; [reflexivity|]. apply of_b64; [exact C2|rewrite C1; apply Rle_refl].
  - apply valid_rnd_N.
  - change fexp64 with (FLT_exp (3 - 1024 - 53) 53). apply generic_format_FLT. exists (Float radix2 (cond_Zopp s (Zpos m)) e); [symmetry; exact V| |cbn [Fexp]; lia].
    cbn [Fnum]. change (Zpower radix2 53) with (2 ^ 53)%Z. rewrite abs_cond_Zopp. cbn [Z.abs]. lia.
Qed.
Lemma narrow_val x : finite_upto 1024 x -> val (narrow x) = rnd32 (val x) /\ fin32 (narrow x).
Proof.
  intros (HV & HF & HB). destruct x as [s|s| |s m e]; try discriminate.
  - split; [symmetry; apply rnd32_0|]. split; [reflexivity|]. split; [reflexivity|exact HB].
  - unfold narrow, cast. replace (if s then Zneg m else Zpos m) with (cond_Zopp s (Zpos m)) by (destruct s; reflexivity). rewrite normalize_equiv32.
    pose proof (binary_normalize_correct 24 128 Hprec32 Hmax32 mode_NE (cond_Zopp s (Zpos m)) e s) as C. cbv zeta in C.
    assert (V : F2R (Float radix2 (cond_Zopp s (Zpos m)) e) = val (S754_finite s m e)) by reflexivity. rewrite V in C. cbn [round_mode] in C.
    rewrite (rnd32_fits _ HB) in C. destruct C as (C1 & C2 & _). rewrite val32. split; [exact C1|].
    apply of_b32; [exact C2|]. rewrite C1. apply rnd32_bound. exact HB.
Qed.
