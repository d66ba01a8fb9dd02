(** * FloatRound: rounding errors, floors and comparisons of binary64 numbers *)
From Coq Require Import ZArith SpecFloat Reals Lra Lia.
From Flocq Require Import Core BinarySingleNaN Relative.
From Verif Require Import Num NumSF SFBridge FloatOps.
#[local] Existing Instance Hprec.
#[local] Existing Instance Hmax.
#[local] Existing Instance valid64.
Open Scope R_scope.

Definition ulp1 : R := bpow radix2 (-53).
(** a rounded number, in the range where binary64 numbers have all their digits *)
Lemma rnd_rel x : bpow radix2 (-1022) <= Rabs x -> Rabs (rnd64 x - x) <= ulp1 * Rabs x.
Proof.
  intros H. pose proof (relative_error_N_FLT radix2 (3 - 1024 - 53) 53 ltac:(lia) (fun x => negb (Z.even x)) x) as RE.
  change (3 - 1024 - 53 + 53 - 1)%Z with (-1022)%Z in RE. specialize (RE H).
  change (FLT_exp (3 - 1024 - 53) 53) with fexp64 in RE. change (Znearest (fun x => negb (Z.even x))) with ZnearestE in RE.
  replace (/ 2 * bpow radix2 (- (53) + 1)) with ulp1 in RE; [exact RE|].
  unfold ulp1. change (- (53) + 1)%Z with (1 + -53)%Z. rewrite bpow_plus. change (bpow radix2 1) with 2. field.
Qed.
(** in any range *)
Lemma rnd_abs x : Rabs (rnd64 x - x) <= ulp1 * Rabs x + bpow radix2 (-1075).
Proof.
  destruct (error_N_FLT radix2 (3 - 1024 - 53) 53 ltac:(lia) (fun x => negb (Z.even x)) x) as (eps & eta & E1 & E2 & _ & E).
  change (FLT_exp (3 - 1024 - 53) 53) with fexp64 in E. change (Znearest (fun x => negb (Z.even x))) with ZnearestE in E.
  rewrite E. replace (x * (1 + eps) + eta - x) with (x * eps + eta) by ring.
  apply Rle_trans with (Rabs (x * eps) + Rabs eta); [apply Rabs_triang|]. apply Rplus_le_compat.
  - rewrite Rabs_mult, Rmult_comm. apply Rmult_le_compat_r; [apply Rabs_pos|]. refine (Rle_trans _ _ _ E1 _).
    unfold ulp1. change (- (53) + 1)%Z with (1 + -53)%Z. rewrite bpow_plus. change (bpow radix2 1) with 2. apply Req_le. field.
  - refine (Rle_trans _ _ _ E2 _). change (3 - 1024 - 53)%Z with (1 + -1075)%Z. rewrite bpow_plus. change (bpow radix2 1) with 2. apply Req_le. field.
Qed.
Lemma rnd_le x y : x <= y -> rnd64 x <= rnd64 y.
Proof. apply round_le; [exact valid64|apply valid_rnd_N]. Qed.
Lemma rnd_int z : (Z.abs z <= 2 ^ 53)%Z -> rnd64 (IZR z) = IZR z.
Proof. intros H. apply round_generic; [apply valid_rnd_N|apply small_format; exact H]. Qed.
Lemma rnd_id B x : finite_upto B x -> rnd64 (val x) = val x.
Proof.
  intros H. destruct (as_b64 _ _ H) as (b & -> & _ & V). rewrite <- V. apply round_generic; [apply valid_rnd_N|apply generic_format_B2R].
Qed.

(** integers *)
Lemma ofZ_val z : (Z.abs z <= 2 ^ 53)%Z -> val (@fofZ NumSF z) = IZR z /\ finite_upto (Rabs (IZR z)) (@fofZ NumSF z).
Proof.
  intros H. destruct (ofZ_exact z H) as (b & E & V & FI). change (@fofZ NumSF z) with (sf_ofZ z). rewrite E, val_B2SF. split; [exact V|].
  apply of_b64; [exact FI|]. rewrite V. lra.
Qed.

(** a float to integer cast: truncation towards zero, saturated *)
Lemma trunc_val B lo hi x : finite_upto B x -> (lo <= 0 <= hi)%Z -> @ftrunc NumSF lo hi x = Z.max lo (Z.min hi (Ztrunc (val x))).
Proof.
  intros H HB. destruct (Rle_or_lt 0 (val x)) as [P|P].
  - destruct (as_b64 _ _ H) as (b & -> & FI & V). change (@ftrunc NumSF lo hi (B2SF b)) with (sf_trunc lo hi (B2SF b)). rewrite <- V in P |- *.
    rewrite (trunc_floor lo hi b HB FI P). rewrite Ztrunc_floor by exact P. assert (0 <= Zfloor (B2R b))%Z by (apply Zfloor_lub; exact P). lia.
  - destruct x as [s|s| |s m e]; try (unfold val in P; cbn [SF2R] in P; lra).
    assert (s = true). { destruct s; [reflexivity|]. exfalso. unfold val, SF2R in P. assert (0 < F2R (Float radix2 (Zpos m) e)) by (apply F2R_gt_0; reflexivity). cbn [cond_Zopp] in P. lra. }
    subst s.
    assert (N : finite_upto B (S754_finite false m e)).
    { destruct H as (H1 & H2 & H3). split; [exact H1|]. split; [reflexivity|]. unfold val, SF2R in *. cbn [cond_Zopp] in *.
      replace (Z.neg m) with (- Z.pos m)%Z in H3 by reflexivity. rewrite F2R_Zopp, Rabs_Ropp in H3. exact H3. }
    assert (V : val (S754_finite true m e) = - val (S754_finite false m e)).
    { unfold val, SF2R. cbn [cond_Zopp]. rewrite <- F2R_Zopp. reflexivity. }
    destruct (as_b64 _ _ N) as (b & Q & FI & W). rewrite V, Ztrunc_opp, <- W.
    assert (P' : 0 <= B2R b) by (rewrite V in P; lra).
    pose proof (trunc_floor 0 (Zfloor (B2R b)) b ltac:(split; [lia|apply Zfloor_lub; exact P']) FI P') as TF. rewrite <- Q in TF. cbn [sf_trunc] in TF.
    assert (P2 : (0 <= Zfloor (B2R b))%Z) by (apply Zfloor_lub; exact P').
    change (@ftrunc NumSF lo hi (S754_finite true m e)) with (sf_trunc lo hi (S754_finite true m e)). cbn [sf_trunc].
    rewrite Ztrunc_floor by exact P'.
    pose proof (trunc_floor 0 (Zfloor (B2R b) + 1) b ltac:(split; lia) FI P') as TF2. rewrite <- Q in TF2. cbn [sf_trunc] in TF2.
    set (a := if (e >=? 0)%Z then (Z.pos m * 2 ^ e)%Z else (Z.pos m / 2 ^ (- e))%Z) in *.
    assert (A0 : (0 <= a)%Z).
    { unfold a. destruct (Z.geb_spec e 0); [apply Z.mul_nonneg_nonneg; [lia|apply Z.pow_nonneg; lia]|].
      apply Z.div_pos; [lia|apply Z.pow_pos_nonneg; lia]. }
    lia.
Qed.

(** f64::floor, as modelled in Image.v *)
From Verif Require Import Image.
Lemma floorZ_val B x : finite_upto B x -> B <= bpow radix2 52 -> @floorZ NumSF x = Zfloor (val x).
Proof.
  intros H HB. unfold floorZ.
  assert (R1 : Rabs (val x) <= bpow radix2 52) by (destruct H as (_ & _ & H); lra).
  assert (BZ : bpow radix2 52 = IZR (2 ^ 52)) by (change (2 ^ 52)%Z with (Zpower radix2 52); rewrite IZR_Zpower by lia; reflexivity).
  assert (T1 : (Z.abs (Ztrunc (val x)) <= 2 ^ 52)%Z).
  { rewrite <- Ztrunc_abs. apply le_IZR. rewrite BZ in R1.
    refine (Rle_trans _ _ _ _ R1). rewrite (Ztrunc_floor (Rabs (val x))) by apply Rabs_pos. apply Zfloor_lb. }
  assert (TE : @ftrunc NumSF (- 2 ^ 1100) (2 ^ 1100) x = Ztrunc (val x)).
  { rewrite (trunc_val B) by (first [exact H|split; [apply Z.opp_nonpos_nonneg|]; apply Z.pow_nonneg; lia]).
    assert (2 ^ 52 <= 2 ^ 1100)%Z by (apply Z.pow_le_mono_r; lia). lia. }
  rewrite TE. assert (T53 : (Z.abs (Ztrunc (val x)) <= 2 ^ 53)%Z) by (assert (2 ^ 52 <= 2 ^ 53)%Z by (apply Z.pow_le_mono_r; lia); lia).
  destruct (ofZ_val _ T53) as (V & FV).
  assert (M : B <= Rmax B (Rabs (IZR (Ztrunc (val x))))) by apply Rmax_l.
  assert (M' : Rabs (IZR (Ztrunc (val x))) <= Rmax B (Rabs (IZR (Ztrunc (val x))))) by apply Rmax_r.
  rewrite (ltb_val _ _ _ (finite_weaken _ _ _ H M) (finite_weaken _ _ _ FV M')). rewrite V.
  destruct (Rle_or_lt 0 (val x)) as [P|P].
  - rewrite Ztrunc_floor by exact P. rewrite Rlt_bool_false; [reflexivity|apply Zfloor_lb].
  - rewrite Ztrunc_ceil by lra. destruct (Req_dec (IZR (Zfloor (val x))) (val x)) as [Q|Q].
    + assert (C : Zceil (val x) = Zfloor (val x)) by (rewrite <- Q at 1; apply Zceil_IZR). rewrite C, Rlt_bool_false; [reflexivity|apply Zfloor_lb].
    + rewrite Zceil_floor_neq by exact Q. rewrite Rlt_bool_true; [lia|]. rewrite plus_IZR. apply Zfloor_ub.
Qed.
Lemma eqb_refl_finite B x : finite_upto B x -> @feqb NumSF x x = true.
Proof.
  intros (_ & H & _). change (@feqb NumSF x x) with (SFeqb x x). unfold SFeqb. destruct x as [[]|[]| |[] m e]; try discriminate H; cbn; try reflexivity; rewrite Z.compare_refl; rewrite Pcompare_refl; reflexivity.
Qed.
Lemma ffloor_val B x : finite_upto B x -> B <= bpow radix2 52 -> val (@ffloor NumSF x) = IZR (Zfloor (val x)) /\ finite_upto (bpow radix2 52) (@ffloor NumSF x).
Proof.
  intros H HB. unfold ffloor. rewrite (eqb_refl_finite B) by assumption. rewrite (floorZ_val B) by assumption.
  assert (BZ : bpow radix2 52 = IZR (2 ^ 52)) by (change (2 ^ 52)%Z with (Zpower radix2 52); rewrite IZR_Zpower by lia; reflexivity).
  assert (R1 : Rabs (val x) <= bpow radix2 52) by (destruct H as (_ & _ & H); lra). rewrite BZ in R1. apply Rabs_le_inv in R1.
  assert (A : (- 2 ^ 52 <= Zfloor (val x) <= 2 ^ 52)%Z).
  { split; [apply Zfloor_lub; rewrite opp_IZR; lra|]. apply le_IZR. refine (Rle_trans _ _ _ (Zfloor_lb _) _). lra. }
  destruct (ofZ_val (Zfloor (val x))) as (V & FV); [lia|]. split; [exact V|]. refine (finite_weaken _ _ _ FV _). rewrite BZ, <- abs_IZR. apply IZR_le. lia.
Qed.
