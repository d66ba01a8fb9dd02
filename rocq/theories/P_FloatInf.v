(** * Properties C29, C30 in binary64: what becomes of infinite and NaN pixels, and C56: the bytes of a colour in binary64 *)
From Coq Require Import ZArith SpecFloat Reals Lra Lia Psatz List.
From Flocq Require Import Core BinarySingleNaN Sterbenz.
From Verif Require Import Num NumR NumSF SFBridge FloatOps FloatRound FloatError Colour Text TextProofs Image SpecImage ImageProofs P_Image P_FloatImage.
Import ListNotations.
#[local] Existing Instance Hprec.
#[local] Existing Instance Hmax.
#[local] Existing Instance valid64.
Open Scope R_scope.

(** ** the vocabulary of the statements *)
Definition INF : @F NumSF := S754_infinity false.
Definition NAN : @F NumSF := S754_nan.
(** what IEEE 754 prescribes of log2 and exp2 on these values *)
Definition libm_specials (T : Trig NumSF) : Prop :=
  @flog2 NumSF T INF = INF /\ @flog2 NumSF T NAN = NAN /\ @fexp2 NumSF T NAN = NAN.
(** a channel is infinite, or the first channel is not a number *)
Definition blown (p : @Spectrum NumSF) : Prop := sr p = INF \/ sg p = INF \/ sb p = INF \/ sr p = NAN.

(** ** the lemmas *)
Lemma mul_nan (x : @F NumSF) : @fmul NumSF x NAN = NAN. Proof. destruct x as [[]|[]| |[] m e]; reflexivity. Qed.
Lemma mul_nan_l (x : @F NumSF) : @fmul NumSF NAN x = NAN. Proof. destruct x as [[]|[]| |[] m e]; reflexivity. Qed.
Lemma byte_nan : @sat_u8 NumSF (@ffloor NumSF NAN) = 0%Z. Proof. reflexivity. Qed.
Lemma frexp_inf T : libm_specials T -> @rusty_frexp NumSF T INF = (NAN, 2 ^ 31 - 1)%Z.
Proof.
  intros (H1 & _ & H3). unfold rusty_frexp. replace (@feqb NumSF f0 INF) with false by reflexivity. cbv zeta. change (@fabs NumSF INF) with INF. rewrite H1.
  assert (E : @ffloor NumSF INF = INF) by (vm_compute; reflexivity). rewrite E.
  change (@fsub NumSF (@fsub NumSF INF INF) f1) with NAN. rewrite H3, mul_nan. reflexivity.
Qed.
Lemma frexp_nan T : libm_specials T -> @rusty_frexp NumSF T NAN = (NAN, 0)%Z.
Proof.
  intros (_ & H2 & H3). unfold rusty_frexp. replace (@feqb NumSF f0 NAN) with false by reflexivity. cbv zeta. change (@fabs NumSF NAN) with NAN. rewrite H2.
  assert (E : @ffloor NumSF NAN = NAN) by (vm_compute; reflexivity). rewrite E.
  change (@fsub NumSF (@fsub NumSF NAN NAN) f1) with NAN. rewrite H3, mul_nan. reflexivity.
Qed.
(** the brightest channel, as the encoder picks it *)
Definition picked (r g b : @F NumSF) : @F NumSF :=
  let v := if @fltb NumSF r g then g else r in if @fltb NumSF v b then b else v.
Lemma above_inf (x : @F NumSF) : @fltb NumSF INF x = false. Proof. destruct x as [[]|[]| |[] m e]; reflexivity. Qed.
Lemma above_nan (x : @F NumSF) : @fltb NumSF NAN x = false. Proof. destruct x as [[]|[]| |[] m e]; reflexivity. Qed.
Lemma below_inf (x : @F NumSF) : @fltb NumSF x INF = true \/ x = INF \/ x = NAN.
Proof. destruct x as [[]|[]| |[] m e]; unfold INF, NAN; first [left; reflexivity|right; left; reflexivity|right; right; reflexivity]. Qed.
Lemma picked_blown p : blown p -> picked (sr p) (sg p) (sb p) = INF \/ picked (sr p) (sg p) (sb p) = NAN.
Proof.
  destruct p as [r g b]. unfold blown, picked. cbn [sr sg sb]. cbv zeta. intros [->|[->|[->| ->]]].
  - rewrite above_inf, above_inf. left. reflexivity.
  - destruct (below_inf r) as [->|[->| ->]].
    + rewrite above_inf. left. reflexivity.
    + rewrite !above_inf. left. reflexivity.
    + rewrite !above_nan. right. reflexivity.
  - destruct (below_inf (if @fltb NumSF r g then g else r)) as [->|[->| ->]].
    + left. reflexivity.
    + rewrite above_inf. left. reflexivity.
    + rewrite above_nan. right. reflexivity.
  - rewrite !above_nan. right. reflexivity.
Qed.
Lemma encode_picked (T : Trig NumSF) r g b : @colour_to_rgbe NumSF T r g b =
  let v := picked r g b in
  if @fltb NumSF v (@flit NumSF 1 (10 ^ 19)) then [byte_of 0; byte_of 0; byte_of 0; byte_of 0]
  else let '(mantissa, e) := @rusty_frexp NumSF T v in
    let mantissa := @fmul NumSF mantissa (@fdiv NumSF (@flit NumSF 256 1) v) in
    [byte_of (@sat_u8 NumSF (@ffloor NumSF (@fmul NumSF r mantissa))); byte_of (@sat_u8 NumSF (@ffloor NumSF (@fmul NumSF g mantissa)));
     byte_of (@sat_u8 NumSF (@ffloor NumSF (@fmul NumSF b mantissa))); byte_of (e + 128)].
Proof. reflexivity. Qed.
Lemma encode_blown T p : libm_specials T -> blown p -> exists e, (e = 127 \/ e = 128)%Z /\
  @colour_to_rgbe NumSF T (sr p) (sg p) (sb p) = [byte_of 0; byte_of 0; byte_of 0; byte_of e].
Proof.
  intros HT HB. rewrite encode_picked. cbv zeta. destruct (picked_blown p HB) as [-> | ->].
  - exists 127%Z. split; [left; reflexivity|]. rewrite above_inf. rewrite (frexp_inf T HT). rewrite mul_nan_l, !mul_nan, !byte_nan. reflexivity.
  - exists 128%Z. split; [right; reflexivity|]. rewrite above_nan. rewrite (frexp_nan T HT). rewrite mul_nan_l, !mul_nan, !byte_nan. reflexivity.
Qed.
Lemma positive_shape B (x : @F NumSF) : finite_upto B x -> 0 < val x -> exists m e, x = S754_finite false m e.
Proof.
  intros (_ & H1 & _) H2. destruct x as [s|s| |[] m e]; try discriminate H1; [| |exists m, e; reflexivity].
  - cbn in H2. lra.
  - exfalso. assert (val (S754_finite true m e) < 0); [|lra]. unfold val, SF2R. apply F2R_lt_0. reflexivity.
Qed.
Lemma decode_black T e : powi_good T -> (e = 127 \/ e = 128)%Z -> @rgbe_to_colour NumSF T (byte_of 0) (byte_of 0) (byte_of 0) (byte_of e) = BLACK.
Proof.
  intros HP He. unfold rgbe_to_colour. assert (BV : byte_val (byte_of e) = e) by (rewrite byte_val_of, Z.mod_small by lia; reflexivity). rewrite BV.
  destruct (Z.eqb_spec e 0) as [Z|_]; [lia|]. cbv zeta. unfold rusty_ldexp. set (n := (e - (128 + 8))%Z). assert (Hn : (-135 <= n <= 119)%Z) by (unfold n; lia).
  destruct (HP n Hn) as [FP VP]. assert (P : 0 < val (@fexp2 NumSF T (@fofZ NumSF n))) by (rewrite VP; apply exp_pos).
  destruct (positive_shape _ _ FP P) as (m & x & EX). rewrite EX in *. clear EX.
  assert (Q : exists y, @fmul NumSF f1 (S754_finite false m x) = y /\ (exists m' x', y = S754_finite false m' x')).
  { eexists. split; [reflexivity|].
    assert (V1 : val (@f1 NumSF) = 1). { unfold val, SF2R. change (@f1 NumSF) with (S754_finite false 4503599627370496 (-52)). unfold F2R. cbn [Fnum Fexp cond_Zopp]. cbn. lra. }
    assert (F1 : finite_upto 1 (@f1 NumSF)) by (split; [reflexivity|split; [reflexivity|rewrite V1, Rabs_pos_eq; lra]]).
    assert (B : Rabs (val (@f1 NumSF) * val (S754_finite false m x)) <= bpow radix2 119).
    { rewrite V1, Rmult_1_l. destruct FP as (_ & _ & FP'). apply (Rle_trans _ _ _ FP'). rewrite <- (p2_nat_bpow 119). apply Rle_refl. }
    destruct (mul_val 119 ltac:(lia) _ _ _ _ F1 FP B) as [V FV]. apply (positive_shape _ _ FV). rewrite V, V1, Rmult_1_l.
    replace (rnd64 (val (S754_finite false m x))) with (val (S754_finite false m x)); [exact P|]. symmetry. apply round_generic; [apply valid_rnd_N|].
    destruct (as_b64 _ _ FP) as (bb & EB & _ & VB). rewrite <- VB. apply generic_format_B2R. }
  destruct Q as (y & -> & (m' & x' & ->)). reflexivity.
Qed.

(** ** C29 - the claim fails for infinite channels: such a pixel, and one whose red channel is NaN, is stored and read back as
    black - for every value of the other channels, and for every implementation of log2 and exp2 with the prescribed special values *)
Theorem C29_infinite_refuted : forall T, libm_specials T -> powi_good T -> forall p, blown p ->
  (exists e, (e = 127 \/ e = 128)%Z /\ @colour_to_rgbe NumSF T (sr p) (sg p) (sb p) = [byte_of 0; byte_of 0; byte_of 0; byte_of e]) /\
  @through_rgbe NumSF T p = BLACK.
Proof.
  intros T HT HP p HB. destruct (encode_blown T p HT HB) as (e & He & E). split; [exists e; exact (conj He E)|].
  unfold through_rgbe. rewrite E. apply (decode_black T e HP He).
Qed.
(** a NaN in the green or in the blue channel is stored as a zero there, and leaves the other channels as they would be *)
Theorem C29_nan_channel : forall T r c, @fltb NumSF r f0 = false ->
  @colour_to_rgbe NumSF T r NAN c = @colour_to_rgbe NumSF T r f0 c /\
  (@fltb NumSF c f0 = false -> @colour_to_rgbe NumSF T r c NAN = @colour_to_rgbe NumSF T r c f0).
Proof.
  intros T r c Hr.
  assert (Z : forall m : @F NumSF, @sat_u8 NumSF (@ffloor NumSF (@fmul NumSF NAN m)) = @sat_u8 NumSF (@ffloor NumSF (@fmul NumSF f0 m))).
  { intros m. rewrite mul_nan_l. destruct m as [[]|[]| |[] q e]; vm_compute; reflexivity. }
  assert (N0 : forall x : @F NumSF, @fltb NumSF x NAN = false) by (intros x; destruct x as [[]|[]| |[] q e]; reflexivity).
  assert (PG : picked r NAN c = picked r f0 c) by (unfold picked; rewrite N0, Hr; reflexivity).
  split.
  - rewrite !encode_picked. cbv zeta. rewrite PG. destruct (@fltb NumSF (picked r f0 c) _); [reflexivity|]. destruct (@rusty_frexp NumSF T _) as [m e]. rewrite Z. reflexivity.
  - intros Hc. assert (PB : picked r c NAN = picked r c f0).
    { unfold picked. cbv zeta. rewrite N0. destruct (@fltb NumSF r c); [rewrite Hc|rewrite Hr]; reflexivity. }
    rewrite !encode_picked. cbv zeta. rewrite PB. destruct (@fltb NumSF (picked r c f0) _); [reflexivity|]. destruct (@rusty_frexp NumSF T _) as [m e]. rewrite Z. reflexivity.
Qed.
(** ** C30 - so an image with such pixels is saved and loaded without a complaint, and those pixels are black *)
Theorem C30_nonfinite : forall T, libm_specials T -> powi_good T -> forall m : @ImageBuffer NumSF,
  (Z.of_nat (img_width m) < 2 ^ 64)%Z -> (Z.of_nat (img_height m) < 2 ^ 64)%Z ->
  exists m', @from_file NumSF T (@save_hdre NumSF T m) = Ret (Some m') /\
    forall i p, nth_error (img_pixels m) i = Some p -> blown p -> nth_error (img_pixels m') i = Some BLACK.
Proof.
  intros T HT HP m Hw Hh. eexists. split; [apply C30_save_load; assumption|]. cbn [img_pixels]. intros i p Hi HB. rewrite nth_error_map, Hi. cbn [option_map].
  rewrite (proj2 (C29_infinite_refuted T HT HP p HB)). reflexivity.
Qed.
(** there is an implementation that meets the assumptions of these theorems and those of C29_binary64 at once *)
Definition trig_full : Trig NumSF := {|
  fpi := @fpi _ trig_rounded; fcos := @fcos _ trig_rounded; fsin := @fsin _ trig_rounded; ftan := @ftan _ trig_rounded;
  facos := @facos _ trig_rounded; fexp := @fexp _ trig_rounded;
  fln := fun x => match (x : spec_float) with S754_infinity false => INF | S754_nan => NAN | _ => @fln _ trig_rounded x end;
  fpow := fun x y => match (y : spec_float) with S754_nan => NAN | _ => @fpow _ trig_rounded x y end |}.
Lemma full_log (x : @F NumSF) B : finite_upto B x -> @flog2 NumSF trig_full x = @flog2 NumSF trig_rounded x.
Proof. intros (_ & H & _). unfold flog2. destruct x as [[]|[]| |[] m e]; try discriminate H; reflexivity. Qed.
Lemma full_exp (x : @F NumSF) B : finite_upto B x -> @fexp2 NumSF trig_full x = @fexp2 NumSF trig_rounded x.
Proof. intros (_ & H & _). unfold fexp2. destruct x as [[]|[]| |[] m e]; try discriminate H; reflexivity. Qed.
Example C29_infinite_hyp : libm_specials trig_full /\ log2_good trig_full /\ exp2_good trig_full /\ powi_good trig_full.
Proof.
  split; [split; [|split; reflexivity]|split; [|split]].
  - unfold flog2. change (@fln NumSF trig_full INF) with INF. change (@fln NumSF trig_full (@f2 NumSF)) with (of_real (ln (val (@f2 NumSF)))). rewrite two_val.
    pose proof ln2_half as L1. pose proof ln2_le1 as L2. assert (B0 : bpow radix2 0 = 1) by reflexivity.
    assert (A2 : Rabs (ln 2) <= bpow radix2 0) by (rewrite B0, Rabs_pos_eq; lra). destruct (of_real_val 0 _ ltac:(lia) A2) as (V2 & F2).
    assert (P : 0 < val (of_real (ln 2))).
    { rewrite V2. apply Rlt_le_trans with (/ 2); [lra|]. replace (/ 2) with (rnd64 (bpow radix2 (-1))) by (rewrite round_generic; [cbn; lra|apply valid_rnd_N|apply bpow_format; lia]).
      apply round_le; [exact valid64|apply valid_rnd_N|]. cbn. lra. }
    destruct (positive_shape _ _ F2 P) as (m & e & ->). reflexivity.
  - intros x Hx X0. rewrite (full_log _ _ Hx). apply trig_rounded_log; assumption.
  - intros y Hy Y0. rewrite (full_exp _ _ Hy). apply trig_rounded_exp; assumption.
  - intros n Hn. destruct (ofZ_val n ltac:(lia)) as (_ & NF). rewrite (full_exp _ _ NF). apply trig_rounded_powi; assumption.
Qed.
Example C29_infinite_case : blown (@mkS NumSF f1 INF f0) /\ blown (@mkS NumSF NAN f1 f1) /\ ~ blown (@mkS NumSF f1 NAN f1).
Proof. split; [right; left; reflexivity|]. split; [right; right; right; reflexivity|]. intros [H|[H|[H|H]]]; discriminate H. Qed.

(** ** C56 - the bytes of a colour, in binary64: exactly the nearest integers (halves up) to 256 times the components, at most 255 *)
Lemma format_256 x : generic_format radix2 fexp64 x -> generic_format radix2 fexp64 (x * 256).
Proof.
  intros H. change (generic_format radix2 (FLT_exp (-1074) 53) x) in H. change (generic_format radix2 (FLT_exp (-1074) 53) (x * 256)).
  apply FLT_format_generic in H; [|reflexivity]. destruct H as [f E1 E2 E3]. apply generic_format_FLT. exists (Float radix2 (Fnum f) (Fexp f + 8)).
  - rewrite E1. unfold F2R. cbn [Fnum Fexp]. rewrite bpow_plus. replace (bpow radix2 8) with 256 by (cbn; lra). ring.
  - exact E2.
  - cbn [Fexp]. lia.
Qed.
Lemma format_frac x : generic_format radix2 fexp64 x -> 0 <= x <= 1024 -> generic_format radix2 fexp64 (x - IZR (Zfloor x)).
Proof.
  intros H [H0 H1]. pose proof (Zfloor_lb x) as L. pose proof (Zfloor_ub x) as U. assert (P : (0 <= Zfloor x <= 1024)%Z) by (split; [apply Zfloor_lub; exact H0|apply le_IZR; lra]).
  destruct (Z.eq_dec (Zfloor x) 0) as [->|N]; [rewrite Rminus_0_r; exact H|]. assert (1 <= IZR (Zfloor x)) by (apply IZR_le; lia).
  apply sterbenz; [exact valid64|apply FLT_exp_monotone|exact H| |lra].
  destruct (ofZ_val (Zfloor x)) as (V & FV); [lia|]. rewrite <- V. destruct (as_b64 _ _ FV) as (bb & _ & _ & VB). rewrite <- VB. apply generic_format_B2R.
Qed.
Lemma finite_format B x : finite_upto B x -> generic_format radix2 fexp64 (val x).
Proof. intros H. destruct (as_b64 _ _ H) as (bb & _ & _ & VB). rewrite <- VB. apply generic_format_B2R. Qed.
(** the nearest integer (halves up) to 256 times a component, as a byte *)
Definition to_byte (x : R) : Z := Z.max 0 (Z.min 255 (Zfloor (x * 256 + 1 / 2))).
Lemma round_byte_binary64 (c : @F NumSF) : finite_upto 4 c ->
  byte_val (byte_of (@round_u8 NumSF (@fmul NumSF c (@flit NumSF 256 1)))) = to_byte (val c).
Proof.
  intros HC. unfold to_byte. assert (C1 : -4 <= val c <= 4) by (destruct HC as (_ & _ & HC); apply Rabs_le_inv in HC; lra).
  assert (V2 : val (@flit NumSF 256 1) = 256). { unfold val, SF2R. change (@flit NumSF 256 1) with (S754_finite false 4503599627370496 (-44)). unfold F2R. cbn [Fnum Fexp cond_Zopp]. cbn. lra. }
  assert (F2 : finite_upto 256 (@flit NumSF 256 1)) by (split; [reflexivity|split; [reflexivity|rewrite V2, Rabs_pos_eq; lra]]).
  assert (B8 : bpow radix2 10 = 1024) by (cbn; lra). assert (B9 : bpow radix2 11 = 2048) by (cbn; lra).
  assert (B : Rabs (val c * val (@flit NumSF 256 1)) <= bpow radix2 10) by (rewrite V2, B8; apply Rabs_le; lra).
  destruct (mul_val 10 ltac:(lia) _ _ _ _ HC F2 B) as [V FV]. rewrite V2 in V. rewrite round_generic in V; [|apply valid_rnd_N|apply format_256, (finite_format _ _ HC)].
  set (x := @fmul NumSF c (@flit NumSF 256 1)) in *. clearbody x. rewrite B8 in FV. rewrite <- V. assert (X0 : -1024 <= val x <= 1024) by lra. clear V B HC C1 c.
  unfold round_u8. cbv zeta. assert (M : 1024 <= bpow radix2 52) by (rewrite <- B8; apply bpow_le; lia). destruct (ffloor_val _ _ FV M) as [TV TF]. set (t := @ffloor NumSF x) in *.
  pose proof (Zfloor_lb (val x)) as L. pose proof (Zfloor_ub (val x)) as U.
  assert (P : (-1024 <= Zfloor (val x) <= 1024)%Z) by (split; [apply Zfloor_lub; lra|apply le_IZR; lra]).
  assert (TF' : finite_upto 1024 t). { destruct TF as (T1 & T2 & _). split; [exact T1|]. split; [exact T2|]. rewrite TV. apply Rabs_le. split; [apply (IZR_le (-1024))|apply IZR_le]; lia. }
  assert (V1 : val (@f1 NumSF) = 1). { unfold val, SF2R. change (@f1 NumSF) with (S754_finite false 4503599627370496 (-52)). unfold F2R. cbn [Fnum Fexp cond_Zopp]. cbn. lra. }
  assert (F1 : finite_upto 1024 (@f1 NumSF)) by (split; [reflexivity|split; [reflexivity|rewrite V1, Rabs_pos_eq; lra]]).
  assert (BA : Rabs (val t + val (@f1 NumSF)) <= bpow radix2 11) by (rewrite TV, V1, B9; apply Rabs_le; split; [apply Rle_trans with (IZR (-1024)); [lra|apply Rle_trans with (IZR (Zfloor (val x))); [apply IZR_le; lia|lra]]|apply Rle_trans with (IZR 1024 + 1); [apply Rplus_le_compat_r, IZR_le; lia|lra]]).
  destruct (add_val 11 ltac:(lia) _ _ _ TF' F1 BA) as [AV AF]. rewrite TV, V1 in AV.
  assert (AV' : val (@fadd NumSF t f1) = IZR (Zfloor (val x) + 1)).
  { rewrite AV. replace (IZR (Zfloor (val x)) + 1) with (IZR (Zfloor (val x) + 1)) by (rewrite plus_IZR; reflexivity). apply round_generic; [apply valid_rnd_N|].
    destruct (ofZ_val (Zfloor (val x) + 1)) as (V & FZ); [lia|]. rewrite <- V. apply (finite_format _ _ FZ). }
  assert (S1 : @sat_u8 NumSF t = Z.max 0 (Z.min 255 (Zfloor (val x)))) by (unfold sat_u8; rewrite (trunc_val _ _ _ _ TF) by lia; rewrite TV, Ztrunc_IZR; reflexivity).
  assert (S2 : @sat_u8 NumSF (@fadd NumSF t f1) = Z.max 0 (Z.min 255 (Zfloor (val x) + 1))) by (unfold sat_u8; rewrite (trunc_val _ _ _ _ AF) by lia; rewrite AV', Ztrunc_IZR; reflexivity).
  rewrite byte_val_of. destruct (Rle_or_lt 0 (val x)) as [XP|XN].
  - assert (BS : Rabs (val x - val t) <= bpow radix2 10) by (rewrite TV, B8; apply Rabs_le; lra).
    destruct (sub_val 10 ltac:(lia) _ _ _ FV TF' BS) as [SV SF]. rewrite TV in SV. rewrite round_generic in SV; [|apply valid_rnd_N|apply format_frac; [apply (finite_format _ _ FV)|lra]].
    assert (VH : val (@flit NumSF 1 2) = 1 / 2). { unfold val, SF2R. change (@flit NumSF 1 2) with (S754_finite false 4503599627370496 (-53)). unfold F2R. cbn [Fnum Fexp cond_Zopp]. cbn. lra. }
    assert (FH : finite_upto (bpow radix2 10) (@flit NumSF 1 2)) by (split; [reflexivity|split; [reflexivity|rewrite VH, B8, Rabs_pos_eq; lra]]).
    rewrite (leb_val _ _ _ FH SF), VH, SV.
    assert (K : forall z : Z, IZR z <= val x + 1 / 2 < IZR z + 1 -> Zfloor (val x + 1 / 2) = z) by (intros z Hz; apply Zfloor_imp; rewrite plus_IZR; exact Hz).
    destruct (Rle_bool_spec (1 / 2) (val x - IZR (Zfloor (val x)))) as [C|C].
    + rewrite S2. rewrite (K (Zfloor (val x) + 1)%Z) by (rewrite plus_IZR; lra). apply Z.mod_small. lia.
    + rewrite S1. rewrite (K (Zfloor (val x))) by lra. apply Z.mod_small. lia.
  - assert (N1 : (Zfloor (val x) <= -1)%Z). { apply Zlt_succ_le. apply lt_IZR. change (IZR (Z.succ (-1))) with 0. lra. }
    assert (N2 : (Zfloor (val x + 1 / 2) <= 0)%Z). { apply Zlt_succ_le. apply lt_IZR. change (IZR (Z.succ 0)) with 1. pose proof (Zfloor_lb (val x + 1 / 2)). lra. }
    destruct (@fleb NumSF _ _); [rewrite S2|rewrite S1]; rewrite Z.mod_small by lia; lia.
Qed.
Definition shown (c : @Spectrum NumSF) : Prop := Forall (fun x => finite_upto 1 x /\ 0 <= val x) [sr c; sg c; sb c].
Theorem C56_bytes_binary64 : forall c, shown c ->
  map byte_val (@data_of NumSF c) = map (fun x => Z.min 255 (Zfloor (val x * 256 + 1 / 2))) [sr c; sg c; sb c].
Proof.
  assert (K : forall x, 0 <= x -> to_byte x = Z.min 255 (Zfloor (x * 256 + 1 / 2))).
  { intros x Hx. unfold to_byte. assert (0 <= Zfloor (x * 256 + 1 / 2))%Z by (apply Zfloor_lub; lra). lia. }
  assert (L14 : 1 <= 4) by lra.
  intros c H. unfold shown in H. inversion H as [|? ? [R1 R2] H']; subst. inversion H' as [|? ? [G1 G2] H'']; subst. inversion H'' as [|? ? [B1 B2] _]; subst.
  unfold data_of. cbn [map]. rewrite !round_byte_binary64 by (apply (finite_weaken 1); assumption). rewrite !K by assumption. reflexivity.
Qed.
Example C56_bytes_binary64_case : shown (@mkS NumSF (@flit NumSF 1 2) f1 f0).
Proof.
  assert (V1 : val (@f1 NumSF) = 1). { unfold val, SF2R. change (@f1 NumSF) with (S754_finite false 4503599627370496 (-52)). unfold F2R. cbn [Fnum Fexp cond_Zopp]. cbn. lra. }
  assert (VH : val (@flit NumSF 1 2) = 1 / 2). { unfold val, SF2R. change (@flit NumSF 1 2) with (S754_finite false 4503599627370496 (-53)). unfold F2R. cbn [Fnum Fexp cond_Zopp]. cbn. lra. }
  assert (V0 : val (@f0 NumSF) = 0) by reflexivity.
  repeat (apply Forall_cons || apply Forall_nil); cbn [sr sg sb]; (split; [split; [reflexivity|split; [reflexivity|]]|]); rewrite ?V1, ?VH, ?V0, ?Rabs_pos_eq; lra.
Qed.
Print Assumptions C56_bytes_binary64.
Print Assumptions C29_infinite_refuted.
Print Assumptions C29_nan_channel.
Print Assumptions C30_nonfinite.
