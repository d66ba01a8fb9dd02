(** * SFBridge: what the binary64 operations of NumSF compute, through Flocq's correctness theorems *)
From Coq Require Import ZArith Reals SpecFloat Lia Lra Psatz.
From Flocq Require Import Core BinarySingleNaN Relative.
From Verif Require Import NumSF.
Open Scope Z_scope.

Lemma Hprec : Prec_gt_0 53. Proof. reflexivity. Qed.
Lemma Hmax : Prec_lt_emax 53 1024. Proof. reflexivity. Qed.
#[local] Existing Instance Hprec.
#[local] Existing Instance Hmax.
Notation b64 := (binary_float 53 1024).
Notation fexp64 := (SpecFloat.fexp 53 1024).
Notation rnd64 := (round radix2 fexp64 ZnearestE).

Lemma round_nearest_even_equiv s m l : round_nearest_even m l = choice_mode mode_NE s m l.
Proof. destruct l as [|[]]; try reflexivity. cbn. unfold Round.cond_incr. destruct (Z.even m); reflexivity. Qed.
Lemma round_aux_equiv sx mx ex lx : SpecFloat.binary_round_aux 53 1024 sx mx ex lx = BinarySingleNaN.binary_round_aux 53 1024 mode_NE sx mx ex lx.
Proof.
  unfold SpecFloat.binary_round_aux, BinarySingleNaN.binary_round_aux. destruct (shr_fexp _ _ _) as [mrs e']. rewrite (round_nearest_even_equiv sx). reflexivity.
Qed.
Lemma round_equiv s m e : SpecFloat.binary_round 53 1024 s m e = BinarySingleNaN.binary_round 53 1024 mode_NE s m e.
Proof. unfold SpecFloat.binary_round, BinarySingleNaN.binary_round, shl_align_fexp. destruct (shl_align _ _ _). apply round_aux_equiv. Qed.
Lemma normalize_equiv m e sz : SpecFloat.binary_normalize 53 1024 m e sz = B2SF (BinarySingleNaN.binary_normalize 53 1024 Hprec Hmax mode_NE m e sz).
Proof. destruct m; cbn; [reflexivity| |]; rewrite B2SF_SF2B; apply round_equiv. Qed.
Lemma div_equiv (x y : b64) : SFdiv 53 1024 (B2SF x) (B2SF y) = B2SF (Bdiv mode_NE x y).
Proof.
  destruct x as [sx|sx| |sx mx ex Bx], y as [sy|sy| |sy my ey By]; try reflexivity.
  cbn. rewrite B2SF_SF2B. destruct (SFdiv_core_binary _ _ _ _ _ _) as [[mz ez] lz]. apply round_aux_equiv.
Qed.
Lemma mul_equiv (x y : b64) : SFmul 53 1024 (B2SF x) (B2SF y) = B2SF (Bmult mode_NE x y).
Proof. destruct x as [sx|sx| |sx mx ex Bx], y as [sy|sy| |sy my ey By]; try reflexivity. cbn. rewrite B2SF_SF2B. apply round_aux_equiv. Qed.

(** small integers are exact *)
Lemma small_format z : Z.abs z <= 2 ^ 53 -> generic_format radix2 fexp64 (IZR z).
Proof.
  intros H. change fexp64 with (FLT_exp (3 - 1024 - 53) 53). destruct (Z.eq_dec (Z.abs z) (2 ^ 53)) as [E|E].
  - assert (G : generic_format radix2 (FLT_exp (3 - 1024 - 53) 53) (IZR (2 ^ 53))).
    { change (IZR (2 ^ 53)) with (IZR (Zpower radix2 53)). rewrite IZR_Zpower by lia. apply generic_format_FLT_bpow; [reflexivity|lia]. }
    destruct (Zabs_spec z) as [[_ Q]|[_ Q]]; [rewrite <- Q, E; exact G|].
    replace z with (- 2 ^ 53)%Z by lia. rewrite opp_IZR. apply generic_format_opp. exact G.
  - apply generic_format_FLT. exists (Float radix2 z 0).
    + unfold F2R. cbn [Fnum Fexp bpow]. ring.
    + cbn [Fnum]. change (Zpower radix2 53) with (2 ^ 53). lia.
    + cbn [Fexp]. lia.
Qed.
Lemma ofZ_exact z : Z.abs z <= 2 ^ 53 -> exists b : b64, sf_ofZ z = B2SF b /\ B2R b = IZR z /\ is_finite b = true.
Proof.
  intros H. exists (BinarySingleNaN.binary_normalize 53 1024 Hprec Hmax mode_NE z 0 false). split; [apply normalize_equiv|].
  pose proof (binary_normalize_correct 53 1024 Hprec Hmax mode_NE z 0 false) as C. cbv zeta in C.
  assert (V : F2R (Float radix2 z 0) = IZR z) by (unfold F2R; cbn [Fnum Fexp bpow]; ring). rewrite V in C.
  rewrite round_generic in C; [|apply valid_rnd_round_mode|apply small_format; exact H].
  rewrite Rlt_bool_true in C.
  - destruct C as (C1 & C2 & _). split; assumption.
  - rewrite <- abs_IZR. apply Rle_lt_trans with (IZR (2 ^ 53)); [apply IZR_le; exact H|].
    change (IZR (2 ^ 53)) with (IZR (Zpower radix2 53)). rewrite IZR_Zpower by lia. apply bpow_lt. lia.
Qed.

(** `as usize` of a non-negative finite float: its floor, saturated *)
Lemma trunc_floor lo hi (b : b64) : lo <= 0 <= hi -> is_finite b = true -> (0 <= B2R b)%R -> sf_trunc lo hi (B2SF b) = Z.min hi (Zfloor (B2R b)).
Proof.
  intros HB HF HP. destruct b as [s|s| |s m e He]; try discriminate.
  - cbn [B2R B2SF sf_trunc]. change 0%R with (IZR 0). rewrite Zfloor_IZR. lia.
  - assert (Z0 : 0 <= Zfloor (B2R (B754_finite s m e He))) by (apply Zfloor_lub; exact HP).
    assert (s = false). { destruct s; [|reflexivity]. exfalso. cbn [B2R] in HP. assert (F2R (Float radix2 (cond_Zopp true (Zpos m)) e) < 0)%R by (apply F2R_lt_0; reflexivity). lra. }
    subst s. cbn [B2SF sf_trunc]. assert (V : (if e >=? 0 then Z.pos m * 2 ^ e else Z.pos m / 2 ^ (- e)) = Zfloor (B2R (B754_finite false m e He))).
    2:{ rewrite V. lia. }
    cbn [B2R cond_Zopp]. unfold F2R. cbn [Fnum Fexp]. destruct (Z.geb_spec e 0) as [G|G].
    + rewrite <- IZR_Zpower by lia. rewrite <- mult_IZR. rewrite Zfloor_IZR. reflexivity.
    + rewrite <- Zfloor_div by (apply Z.pow_nonzero; lia). f_equal. unfold Rdiv. f_equal.
      change (2 ^ (- e)) with (Zpower radix2 (- e)). rewrite IZR_Zpower by lia. rewrite <- bpow_opp. f_equal. lia.
Qed.

(** floor of the quotient of two small naturals *)
Lemma div_floor (p w : Z) : 0 <= p < 2 ^ 53 -> 0 < w <= 2 ^ 53 ->
  exists b : b64, SFdiv 53 1024 (sf_ofZ p) (sf_ofZ w) = B2SF b /\ is_finite b = true /\ (0 <= B2R b)%R /\ Zfloor (B2R b) = p / w.
Proof.
  intros Hp Hw. destruct (ofZ_exact p ltac:(lia)) as (bp & -> & Vp & Fp), (ofZ_exact w ltac:(lia)) as (bw & -> & Vw & Fw).
  exists (Bdiv mode_NE bp bw). split; [apply div_equiv|].
  assert (W0 : (0 < IZR w)%R) by (apply (IZR_lt 0); lia).
  pose proof (Bdiv_correct 53 1024 Hprec Hmax mode_NE bp bw) as C. rewrite Vp, Vw in C. specialize (C ltac:(lra)). cbn [round_mode] in C.
  set (x := (IZR p / IZR w)%R) in *. set (q := p / w) in *.
  pose proof (Z.div_mod p w ltac:(lia)) as DM. pose proof (Z.mod_pos_bound p w ltac:(lia)) as MB. fold q in DM. assert (Q0 : 0 <= q) by (apply Z.div_pos; lia).
  assert (Qp : q <= p) by nia.
  assert (X : (IZR p = x * IZR w)%R) by (unfold x; field; lra).
  assert (L1 : (IZR q <= x)%R). { apply (Rmult_le_reg_r (IZR w)); [exact W0|]. rewrite <- X, <- mult_IZR. apply IZR_le. nia. }
  assert (U1 : (x + 1 / IZR w <= IZR (q + 1))%R).
  { apply (Rmult_le_reg_r (IZR w)); [exact W0|]. replace ((x + 1 / IZR w) * IZR w)%R with (x * IZR w + 1)%R by (field; lra).
    rewrite <- X, <- mult_IZR, <- plus_IZR. apply IZR_le. nia. }
  assert (I0 : (0 < 1 / IZR w)%R) by (apply Rdiv_lt_0_compat; lra).
  assert (V : Valid_exp fexp64) by (apply fexp_correct; exact Hprec).
  assert (L2 : (IZR q <= rnd64 x)%R). { apply round_ge_generic; [exact V|apply valid_rnd_N|apply small_format; lia|exact L1]. }
  assert (U2 : (rnd64 x <= IZR (q + 1))%R). { apply round_le_generic; [exact V|apply valid_rnd_N|apply small_format; lia|lra]. }
  assert (P0 : (0 <= IZR q)%R) by (apply (IZR_le 0); exact Q0).
  assert (B : (IZR (q + 1) < bpow radix2 1024)%R).
  { apply Rle_lt_trans with (IZR (2 ^ 53)); [apply IZR_le; lia|]. change (IZR (2 ^ 53)) with (IZR (Zpower radix2 53)). rewrite IZR_Zpower by lia. apply bpow_lt. lia. }
  rewrite Rlt_bool_true in C by (rewrite Rabs_pos_eq by lra; lra). destruct C as (C1 & C2 & _). rewrite Fp in C2.
  split; [exact C2|]. rewrite C1. split; [lra|].
  apply Zfloor_imp. split; [exact L2|].
  destruct (Rle_lt_or_eq_dec _ _ U2) as [S|S]; [exact S|exfalso].
  destruct (Z.eq_dec p 0) as [->|Hp0].
  { assert (X0 : x = 0%R) by (unfold x; change (IZR 0) with 0%R; field; lra). rewrite X0, round_0 in S by apply valid_rnd_N. assert (H : 0 < q + 1) by lia. apply IZR_lt in H. lra. }
  assert (P1 : (1 <= IZR p)%R) by (apply (IZR_le 1); lia).
  assert (W1 : (IZR w <= IZR (2 ^ 53))%R) by (apply IZR_le; lia).
  assert (XL : (bpow radix2 (3 - 1024 - 53 + 53 - 1) <= Rabs x)%R).
  { apply Rle_trans with (bpow radix2 (Z.opp 53)); [apply bpow_le; lia|]. rewrite Rabs_pos_eq by lra. rewrite (bpow_opp radix2 53).
    replace (bpow radix2 53) with (IZR (2 ^ 53)) by (change (IZR (2 ^ 53)) with (IZR (Zpower radix2 53)); rewrite IZR_Zpower by lia; reflexivity).
    apply Rle_trans with (/ IZR w)%R; [apply Rinv_le; [exact W0|exact W1]|]. unfold x, Rdiv. assert (0 < / IZR w)%R by (apply Rinv_0_lt_compat; exact W0). nra. }
  pose proof (relative_error_N_FLT radix2 (3 - 1024 - 53) 53 ltac:(lia) (fun x => negb (Z.even x)) x XL) as RE.
  change (FLT_exp (3 - 1024 - 53) 53) with fexp64 in RE. change (Znearest (fun x => negb (Z.even x))) with ZnearestE in RE. rewrite S in RE.
  rewrite (Rabs_pos_eq x) in RE by lra. rewrite Rabs_pos_eq in RE by lra.
  assert (K : (1 / IZR w <= / 2 * bpow radix2 (- (53) + 1) * x)%R) by lra.
  assert (K2 : (1 <= / 2 * bpow radix2 (- (53) + 1) * IZR p)%R).
  { rewrite X. apply (Rmult_le_compat_r (IZR w)) in K; [|lra]. replace (1 / IZR w * IZR w)%R with 1%R in K by (field; lra). lra. }
  assert (K3 : (/ 2 * bpow radix2 (- (53) + 1) = / IZR (2 ^ 53))%R).
  { change (- (53) + 1) with (Z.opp 52). rewrite (bpow_opp radix2 52). replace (bpow radix2 52) with (IZR (2 ^ 52)) by (change (IZR (2 ^ 52)) with (IZR (Zpower radix2 52)); rewrite IZR_Zpower by lia; reflexivity).
    change (2 ^ 53) with (2 * 2 ^ 52). rewrite mult_IZR. field. apply IZR_neq. discriminate. }
  rewrite K3 in K2. assert (HP : (IZR p < IZR (2 ^ 53))%R) by (apply IZR_lt; lia). assert (P53 : (0 < IZR (2 ^ 53))%R) by (apply (IZR_lt 0); reflexivity).
  apply (Rmult_le_compat_l (IZR (2 ^ 53))) in K2; [|lra]. rewrite <- Rmult_assoc, Rinv_r, Rmult_1_l in K2 by lra. lra.
Qed.
