(** * Property C33 in the program's own arithmetic: away from the last few ulps below the maximum the colour scales are total and accurate *)
From Coq Require Import ZArith SpecFloat Reals Lra Lia Psatz List.
From Flocq Require Import Core BinarySingleNaN Relative.
From Verif Require Import Num NumR NumSF SFBridge FloatOps FloatRound FloatError Geometry Colour Colourmap ColourTables SpecColour ColourProofs ColourmapProofs Ray Camera
  P_FloatHit P_FloatDir P_FloatCamera P_FloatPixel.
Import ListNotations.
#[local] Existing Instance Hprec.
#[local] Existing Instance Hmax.
#[local] Existing Instance valid64.
Open Scope R_scope.

(** ** the vocabulary *)
Definition val_spec (a : @Spectrum NumSF) : SpecR := @mkS NumR (val (sr a)) (val (sg a)) (val (sb a)).
(** a colour whose channels are numbers between 0 and 1 *)
Definition shade (a : @Spectrum NumSF) : Prop :=
  (finite_upto 1 (sr a) /\ 0 <= val (sr a)) /\ (finite_upto 1 (sg a) /\ 0 <= val (sg a)) /\ (finite_upto 1 (sb a) /\ 0 <= val (sb a)).
Definition colours_within (e : R) (a b : SpecR) : Prop := Rabs (sr a - sr b) <= e /\ Rabs (sg a - sg b) <= e /\ Rabs (sb a - sb b) <= e.

(** ** the loop *)
Section Loop.
  Context {N : Num}.
  Definition bin_start (mn delta : F) (i : nat) : F := fadd mn (fmul (fofZ (Z.of_nat (i - 1))) delta).
  Definition bin_end (mn delta : F) (i : nat) : F := fadd (bin_start mn delta i) delta.
  Lemma find_first (x mn delta : F) : forall fuel i, (exists j, (i <= j < i + fuel)%nat /\ fleb x (bin_end mn delta j) = true) ->
    exists j, find_bin fuel i x mn delta = Some (j, fdiv (fsub x (bin_start mn delta j)) delta) /\ (i <= j < i + fuel)%nat /\ fleb x (bin_end mn delta j) = true /\
      (j = i \/ fleb x (bin_end mn delta (j - 1)) = false).
  Proof.
    induction fuel as [|fuel IH]; intros i (j & HJ & LE); [lia|]. cbn [find_bin].
    change (fadd mn (fmul (fofZ (Z.of_nat (i - 1))) delta)) with (bin_start mn delta i). change (fadd (bin_start mn delta i) delta) with (bin_end mn delta i).
    destruct (fleb x (bin_end mn delta i)) eqn:Ei.
    - exists i. split; [reflexivity|]. split; [lia|]. split; [exact Ei|left; reflexivity].
    - destruct (IH (S i)) as (k & E & HK & LK & FK).
      { exists j. split; [|exact LE]. destruct (Nat.eq_dec j i) as [->|]; [congruence|lia]. }
      exists k. split; [exact E|]. split; [lia|]. split; [exact LK|]. right. destruct FK as [->|FK]; [|exact FK]. replace (S i - 1)%nat with i by lia. exact Ei.
  Qed.
End Loop.

(** ** the exact scale near a bin *)
Lemma nth_some {A} (l : list A) i : (i < length l)%nat -> exists a, nth_error l i = Some a.
Proof. intros H. destruct (nth_error l i) eqn:E; [eauto|]. apply nth_error_None in E. lia. Qed.
Definition light_of (e : SpecR) : Prop := 0 <= sr e <= 1 /\ 0 <= sg e <= 1 /\ 0 <= sb e <= 1.
Lemma stray (a b c t q : R) : 0 <= a <= 1 -> 0 <= b <= 1 -> 0 <= c <= 1 -> 0 <= t <= q -> Rabs (b + (c - b) * t - (b + (b - a) * t)) <= 2 * q.
Proof.
  intros A B C T. replace (b + (c - b) * t - (b + (b - a) * t)) with (t * (c - 2 * b + a)) by ring. rewrite Rabs_mult, (Rabs_pos_eq t) by lra.
  assert (Rabs (c - 2 * b + a) <= 2) by (apply Rabs_le; lra). pose proof (Rabs_pos (c - 2 * b + a)). nra.
Qed.
Lemma scale_near (x mn mx : R) (m : list SpecR) (k : nat) (a b : SpecR) (eta : R) : mn < mx -> mn <= x <= mx ->
  (forall e, In e m -> light_of e) -> nth_error m k = Some a -> nth_error m (S k) = Some b -> 0 <= eta <= 1 ->
  let t := (x - mn) / ((mx - mn) / INR (length m - 1)) - INR k in - eta <= t <= 1 + eta ->
  exists e, map_linear_colour x mn mx m = Ok_ e /\ colours_within (2 * eta) (lerp a b t) e.
Proof.
  intros Hm Hx HL Ha Hb He t Ht. assert (HN : (S k < length m)%nat) by (apply nth_error_Some; congruence).
  assert (N0 : 0 < INR (length m - 1)) by (apply lt_0_INR; lia). set (D := (mx - mn) / INR (length m - 1)) in *.
  assert (D0 : 0 < D) by (apply Rdiv_lt_0_compat; lra).
  assert (TX : x = mn + (INR k + t) * D) by (unfold t; field; lra).
  assert (KN : forall j, knot mn mx (length m) j = mn + INR j * D) by reflexivity.
  assert (LA : light_of a) by (apply HL; eapply nth_error_In; eassumption). assert (LB : light_of b) by (apply HL; eapply nth_error_In; eassumption).
  destruct (Rlt_or_le t 0) as [Tn|Tp]; [|destruct (Rle_or_lt t 1) as [T1|T1]].
  - (* in the bin before *)
    destruct k as [|k]. { cbn [INR] in TX. nra. }
    destruct (nth_some m k ltac:(lia)) as [z Hz]. assert (LZ : light_of z) by (apply HL; eapply nth_error_In; eassumption).
    assert (KS : INR (S k) = INR k + 1) by apply S_INR.
    pose proof (map_polyline x mn mx m k z a Hm Hz Ha) as P. rewrite !KN, KS in P. assert (PX : mn + INR k * D <= x <= mn + (INR k + 1) * D) by (rewrite TX, KS; nra).
    specialize (P PX). eexists. split; [exact P|]. replace ((x - (mn + INR k * D)) / (mn + (INR k + 1) * D - (mn + INR k * D))) with (1 + t) by (rewrite TX, KS; field; lra).
    unfold colours_within, lerp. cbn [sr sg sb]. destruct LA as (A1 & A2 & A3), LB as (B1 & B2 & B3), LZ as (Z1 & Z2 & Z3).
    assert (G : forall p q r : R, 0 <= p <= 1 -> 0 <= q <= 1 -> 0 <= r <= 1 -> Rabs ((1 - t) * p + t * q - ((1 - (1 + t)) * r + (1 + t) * p)) <= 2 * eta).
    { intros p q r HP HQ HR. pose proof (stray q p r (- t) eta HQ HP HR ltac:(lra)) as S0. rewrite Rabs_minus_sym in S0.
      replace ((1 - t) * p + t * q - ((1 - (1 + t)) * r + (1 + t) * p)) with (p + (p - q) * - t - (p + (r - p) * - t)) by ring. exact S0. }
    exact (conj (G _ _ _ A1 B1 Z1) (conj (G _ _ _ A2 B2 Z2) (G _ _ _ A3 B3 Z3))).
  - pose proof (map_polyline x mn mx m k a b Hm Ha Hb) as P. rewrite !KN, S_INR in P. assert (PX : mn + INR k * D <= x <= mn + (INR k + 1) * D) by (rewrite TX; nra).
    specialize (P PX). eexists. split; [exact P|]. replace ((x - (mn + INR k * D)) / (mn + (INR k + 1) * D - (mn + INR k * D))) with t by (rewrite TX; field; lra).
    unfold colours_within, Rminus. rewrite !Rplus_opp_r, Rabs_R0. lra.
  - (* in the bin after *)
    assert (MX : mx = mn + INR (length m - 1) * D) by (unfold D; field; lra).
    assert (HS : (S (S k) < length m)%nat).
    { destruct (Nat.eq_dec (S (S k)) (length m)) as [E|]; [exfalso|lia]. replace (length m - 1)%nat with (S k) in MX by lia. rewrite S_INR in MX. rewrite TX in Hx. nra. }
    destruct (nth_some m (S (S k)) HS) as [z Hz]. assert (LZ : light_of z) by (apply HL; eapply nth_error_In; eassumption).
    pose proof (map_polyline x mn mx m (S k) b z Hm Hb Hz) as P. rewrite !KN, !S_INR in P. assert (PX : mn + (INR k + 1) * D <= x <= mn + (INR k + 1 + 1) * D) by (rewrite TX; nra).
    specialize (P PX). eexists. split; [exact P|]. replace ((x - (mn + (INR k + 1) * D)) / (mn + (INR k + 1 + 1) * D - (mn + (INR k + 1) * D))) with (t - 1) by (rewrite TX; field; lra).
    unfold colours_within, lerp. cbn [sr sg sb]. destruct LA as (A1 & A2 & A3), LB as (B1 & B2 & B3), LZ as (Z1 & Z2 & Z3).
    assert (G : forall p q r : R, 0 <= p <= 1 -> 0 <= q <= 1 -> 0 <= r <= 1 -> Rabs ((1 - t) * p + t * q - ((1 - (t - 1)) * q + (t - 1) * r)) <= 2 * eta).
    { intros p q r HP HQ HR. pose proof (stray p q r (t - 1) eta HP HQ HR ltac:(lra)) as S0. rewrite Rabs_minus_sym in S0.
      replace ((1 - t) * p + t * q - ((1 - (t - 1)) * q + (t - 1) * r)) with (q + (q - p) * (t - 1) - (q + (r - q) * (t - 1))) by ring. exact S0. }
    exact (conj (G _ _ _ A1 B1 Z1) (conj (G _ _ _ A2 B2 Z2) (G _ _ _ A3 B3 Z3))).
Qed.

(** ** the bins in binary64 *)
Section Bins.
  Variables (M : R) (x mn mx : @F NumSF) (n : nat).
  Notation u := ulp1.
  Hypothesis HM : / 2 ^ 10 <= M <= 2 ^ 30.
  Hypothesis Fx : finite_upto M x.
  Hypothesis Fmn : finite_upto M mn.
  Hypothesis Fmx : finite_upto M mx.
  Hypothesis Wide : M / 2 ^ 10 <= val mx - val mn.
  Hypothesis Hn : (2 <= n <= 257)%nat.
  Hypothesis Lo : val mn < val x.
  Hypothesis Hi : val x <= val mx - M / 2 ^ 48.
  Let K := INR (n - 1).
  Let D := (val mx - val mn) / K.
  Let delta := @fdiv NumSF (@fsub NumSF mx mn) (fofZ (Z.of_nat (n - 1))).

  Definition off (c : R) (a : @F NumSF) (r : R) : Prop := finite_upto BIG a /\ Rabs (val a - r) <= c * u * M.
  Lemma u_M : 0 < u /\ u = / 2 ^ 53 /\ 0 < u * M. Proof. pose proof ulp1_pos. split; [assumption|]. split; [exact ulp1_val|]. nra. Qed.
  Lemma off_exact a : finite_upto M a -> off 0 a (val a).
  Proof. intros H. split; [apply (finite_weaken _ _ _ H); rewrite BIG_val; lra|]. unfold Rminus. rewrite Rplus_opp_r, Rabs_R0. lra. Qed.
  Lemma round_M s t : Rabs s <= t * M -> Rabs (rnd64 s - s) <= (t + 1 / 900) * u * M.
  Proof.
    intros H. destruct u_M as (U0 & U1 & U2). pose proof (rnd_near s) as R0. assert (u * Rabs s <= u * (t * M)) by (apply Rmult_le_compat_l; lra). nra.
  Qed.
  Lemma done c t c' (s r : R) (a : @F NumSF) : Rabs (s - r) <= c * u * M -> 0 <= c <= 1000 -> Rabs r <= t * M -> 0 <= t <= 100 -> c + t + 2 / 900 <= c' ->
    (Rabs s <= bpow radix2 80 -> val a = rnd64 s /\ finite_upto (bpow radix2 80) a) -> off c' a r.
  Proof.
    intros H1 HC H2 HT H3 H. destruct u_M as (U0 & U1 & U2).
    assert (S1 : Rabs s <= (t + c * u) * M) by (pose proof (size_of _ _ _ _ H1 H2); lra).
    assert (CU : 0 <= c * u <= 1 / 900000) by (rewrite U1; lra).
    assert (S2 : Rabs s <= bpow radix2 80). { apply Rle_trans with (101 * 2 ^ 30); [|cbn; lra]. apply (Rle_trans _ _ _ S1). apply Rmult_le_compat; lra. }
    destruct (H S2) as [V FI]. split; [apply big_of; exact FI|]. rewrite V. pose proof (tri _ _ _ _ _ (round_M _ _ S1) H1) as T0.
    apply (Rle_trans _ _ _ T0). replace ((t + c * u + 1 / 900) * u * M + c * u * M) with ((t + c * u + 1 / 900 + c) * (u * M)) by ring. replace (c' * u * M) with (c' * (u * M)) by ring.
    apply Rmult_le_compat_r; lra.
  Qed.
  Lemma K_range : 1 <= K <= 256 /\ (Z.of_nat (n - 1) <= 65536)%Z.
  Proof.
    unfold K. assert (A : (1 <= n - 1 <= 256)%nat) by lia. destruct A as [A B]. split; [|lia]. split; [apply (le_INR 1) in A; exact A|].
    rewrite INR_IZR_INZ. apply IZR_le. lia.
  Qed.
  Lemma D_range : M / 2 ^ 18 <= D /\ D <= 2 * M /\ val mx = val mn + K * D /\ Rabs (val mn) <= M /\ Rabs (val mx) <= M.
  Proof.
    destruct K_range as [KR _]. assert (IK : / 256 <= / K <= 1). { split; [apply Rinv_le_contravar; lra|]. apply Rle_trans with (/ 1); [apply Rinv_le_contravar; lra|lra]. }
    assert (A : Rabs (val mn) <= M) by apply Fmn. assert (B : Rabs (val mx) <= M) by apply Fmx. pose proof A as A'. pose proof B as B'. apply Rabs_le_inv in A', B'.
    unfold D, Rdiv in *. split; [|split; [|split; [field; lra|split; assumption]]].
    - apply Rle_trans with (M * / 2 ^ 10 * / 256); [lra|]. apply Rmult_le_compat; lra.
    - apply Rle_trans with (2 * M * 1); [|lra]. apply Rmult_le_compat; lra.
  Qed.
  Lemma delta_off : finite_upto BIG delta /\ Rabs (val delta - D) <= (41 / 10 * / K + 1 / 400) * u * M.
  Proof.
    destruct u_M as (U0 & U1 & U2). destruct K_range as [KR KZ]. destruct D_range as (D1 & D2 & D3 & A & B). destruct (count_near _ KZ) as (VK & FK & _). fold K in VK.
    assert (IK : / 256 <= / K <= 1). { split; [apply Rinv_le_contravar; lra|]. apply Rle_trans with (/ 1); [apply Rinv_le_contravar; lra|lra]. }
    assert (R1 : off (201 / 100) (@fsub NumSF mx mn) (val mx - val mn)).
    { apply (done 0 2 _ (val mx - val mn)); try lra.
      - unfold Rminus at 1. rewrite Rplus_opp_r, Rabs_R0. lra.
      - apply Rabs_le_inv in A, B. apply Rabs_le. lra.
      - intros H. apply (sub_val 80 ltac:(lia) M _ _ Fmx Fmn H). }
    destruct R1 as [FR ER]. set (r := @fsub NumSF mx mn) in *.
    assert (RB : Rabs (val r) <= 201 / 100 * M).
    { assert (Rabs (val mx - val mn) <= 2 * M) by (apply Rabs_le_inv in A, B; apply Rabs_le; lra). pose proof (size_of _ _ _ _ ER H). rewrite U1 in *. lra. }
    assert (QB : Rabs (val r / K) <= 201 / 100 * M * / K). { unfold Rdiv. rewrite Rabs_mult, (Rabs_pos_eq (/ K)) by lra. apply Rmult_le_compat_r; lra. }
    destruct (quot (mkFilm 1 1) 0 0 (le_n 1) (le_n 1) r (@fofZ NumSF (Z.of_nat (n - 1))) BIG 65536 (201 / 100 * 2 ^ 30) FR FK) as (_ & FI & EE).
    - rewrite VK. lra.
    - rewrite VK. apply (Rle_trans _ _ _ QB). apply Rle_trans with (201 / 100 * M * 1); [apply Rmult_le_compat_l; lra|lra].
    - lra.
    - fold delta in FI, EE. rewrite VK in EE. split; [exact FI|].
      assert (E2 : Rabs (val r / K - D) <= 201 / 100 * u * M * / K).
      { unfold D. replace (val r / K - (val mx - val mn) / K) with ((val r - (val mx - val mn)) * / K) by (field; lra). rewrite Rabs_mult, (Rabs_pos_eq (/ K)) by lra. apply Rmult_le_compat_r; lra. }
      pose proof (tri _ _ _ _ _ EE E2) as T0. assert (u * Rabs (val r / K) <= u * (201 / 100 * M * / K)) by (apply Rmult_le_compat_l; lra).
      assert (UM : u / 1000000 <= 1 / 400 * u * M). { assert (u * (/ 1024) <= u * M) by (apply Rmult_le_compat_l; lra). lra. }
      apply (Rle_trans _ _ _ T0). set (g := u * M) in *.
      replace ((41 / 10 * / K + 1 / 400) * u * M) with (41 / 10 * (g * / K) + 1 / 400 * g) by (unfold g; ring).
      replace (201 / 100 * u * M * / K) with (201 / 100 * (g * / K)) by (unfold g; ring). replace (u * (201 / 100 * M * / K)) with (201 / 100 * (g * / K)) in H by (unfold g; ring).
      replace (1 / 400 * u * M) with (1 / 400 * g) in UM by (unfold g; ring). assert (0 <= g * / K) by (apply Rmult_le_pos; lra). lra.
  Qed.
  Lemma delta_off' : off (42 / 10) delta D.
  Proof.
    destruct delta_off as [FI E]. split; [exact FI|]. destruct K_range as [KR _]. destruct u_M as (U0 & U1 & U2).
    assert (IK : / K <= 1) by (apply Rle_trans with (/ 1); [apply Rinv_le_contravar; lra|lra]). apply (Rle_trans _ _ _ E). nra.
  Qed.
  Lemma knot_size j : (j <= n - 1)%nat -> Rabs (val mn + INR j * D) <= M /\ INR j <= K.
  Proof.
    intros H. apply le_INR in H as HJ. fold K in HJ. pose proof (pos_INR j). destruct D_range as (D1 & D2 & D3 & A & B). split; [|exact HJ].
    assert (0 <= INR j * D <= K * D) by (split; [apply Rmult_le_pos; lra|apply Rmult_le_compat_r; lra]). apply Rabs_le_inv in A, B. apply Rabs_le. lra.
  Qed.
  Lemma start_off i : (1 <= i <= n - 1)%nat -> off 9 (@bin_start NumSF mn delta i) (val mn + INR (i - 1) * D).
  Proof.
    intros HI. destruct u_M as (U0 & U1 & U2). destruct K_range as [KR KZ]. destruct D_range as (D1 & D2 & D3 & A & B). destruct delta_off as [FD ED].
    destruct (knot_size (i - 1) ltac:(lia)) as [KS KJ]. assert (ZI : (Z.of_nat (i - 1) <= 65536)%Z) by lia. destruct (count_near _ ZI) as (VI & FI & IB).
    assert (IK : / 256 <= / K <= 1). { split; [apply Rinv_le_contravar; lra|]. apply Rle_trans with (/ 1); [apply Rinv_le_contravar; lra|lra]. }
    assert (KK : K * / K = 1) by (field; lra).
    assert (P1 : off (69 / 10) (@fmul NumSF (fofZ (Z.of_nat (i - 1))) delta) (INR (i - 1) * D)).
    { apply (done (48 / 10) 2 _ (INR (i - 1) * val delta)); try lra.
      - replace (INR (i - 1) * val delta - INR (i - 1) * D) with (INR (i - 1) * (val delta - D)) by ring. rewrite Rabs_mult, (Rabs_pos_eq (INR (i - 1))) by lra.
        apply Rle_trans with (K * ((41 / 10 * / K + 1 / 400) * u * M)); [apply Rmult_le_compat; auto using Rabs_pos; lra|].
        replace (K * ((41 / 10 * / K + 1 / 400) * u * M)) with ((41 / 10 * (K * / K) + K / 400) * (u * M)) by (field; lra). rewrite KK.
        replace (48 / 10 * u * M) with (48 / 10 * (u * M)) by ring. apply Rmult_le_compat_r; lra.
      - rewrite Rabs_pos_eq by (apply Rmult_le_pos; lra). apply Rle_trans with (K * D); [apply Rmult_le_compat_r; lra|]. apply Rabs_le_inv in A, B. lra.
      - intros H. rewrite <- VI in H |- *. apply (mul_val 80 ltac:(lia) _ _ _ _ FI FD H). }
    destruct P1 as [F1 E1]. apply (done (69 / 10) 1 _ (val mn + val (@fmul NumSF (fofZ (Z.of_nat (i - 1))) delta))); try lra.
    - replace (val mn + val (@fmul NumSF (fofZ (Z.of_nat (i - 1))) delta) - (val mn + INR (i - 1) * D)) with (val (@fmul NumSF (fofZ (Z.of_nat (i - 1))) delta) - INR (i - 1) * D) by ring. exact E1.
    - intros H. apply (add_val 80 ltac:(lia) BIG _ _ (proj1 (off_exact _ Fmn)) F1 H).
  Qed.
  Lemma end_off i : (1 <= i <= n - 1)%nat -> off (145 / 10) (@bin_end NumSF mn delta i) (val mn + INR i * D).
  Proof.
    intros HI. destruct (start_off i HI) as [F1 E1]. destruct delta_off' as [F2 E2]. destruct (knot_size i ltac:(lia)) as [KS _].
    assert (SI : INR i = INR (i - 1) + 1) by (rewrite <- S_INR; f_equal; lia).
    apply (done (132 / 10) 1 _ (val (@bin_start NumSF mn delta i) + val delta)); try lra.
    - replace (val (bin_start mn delta i) + val delta - (val mn + INR i * D)) with ((val (bin_start mn delta i) - (val mn + INR (i - 1) * D)) + (val delta - D)) by (rewrite SI; ring).
      apply (Rle_trans _ _ _ (Rabs_triang _ _)). lra.
    - intros H. apply (add_val 80 ltac:(lia) BIG _ _ F1 F2 H).
  Qed.
  (** where the loop stops, and the weight it computes *)
  Lemma stops : exists j, find_bin (n - 1) 1 x mn delta = Some (j, @fdiv NumSF (@fsub NumSF x (bin_start mn delta j)) delta) /\ (1 <= j <= n - 1)%nat /\
    let t := (val x - val mn) / D - INR (j - 1) in - / 2 ^ 31 <= t <= 1 + / 2 ^ 31.
  Proof.
    destruct u_M as (U0 & U1 & U2). destruct D_range as (D1 & D2 & D3 & A & B). destruct (off_exact x Fx) as [FX _].
    destruct (find_first x mn delta (n - 1) 1) as (j & E & HJ & LJ & FJ).
    { exists (n - 1)%nat. split; [lia|]. destruct (end_off (n - 1) ltac:(lia)) as [F1 E1]. rewrite (leb_val BIG _ _ FX F1). apply Rle_bool_true. fold K in E1. rewrite <- D3 in E1.
      apply Rabs_le_inv in E1. rewrite U1 in E1. lra. }
    exists j. split; [exact E|]. split; [lia|]. cbv zeta.
    assert (DI : 0 < / D <= 2 ^ 18 / M).
    { split; [apply Rinv_0_lt_compat; lra|]. apply Rle_trans with (/ (M / 2 ^ 18)); [apply Rinv_le_contravar; lra|]. apply Req_le. field. lra. }
    assert (MD : 15 * u * M * / D <= / 2 ^ 31).
    { apply Rle_trans with (15 * u * M * (2 ^ 18 / M)); [apply Rmult_le_compat_l; lra|]. replace (15 * u * M * (2 ^ 18 / M)) with (15 * u * 2 ^ 18) by (field; lra). rewrite U1. lra. }
    assert (SJ : INR j = INR (j - 1) + 1) by (rewrite <- S_INR; f_equal; lia). split.
    - destruct FJ as [->|FJ].
      + cbn [Nat.sub INR]. unfold Rdiv. assert (0 < (val x - val mn) * / D) by (apply Rmult_lt_0_compat; lra). lra.
      + destruct (Nat.eq_dec j 1) as [->|NE].
        { cbn [Nat.sub INR]. unfold Rdiv. assert (0 < (val x - val mn) * / D) by (apply Rmult_lt_0_compat; lra). lra. }
        destruct (end_off (j - 1) ltac:(lia)) as [F1 E1]. rewrite (leb_val BIG _ _ FX F1) in FJ. destruct (Rle_bool_spec (val x) (val (@bin_end NumSF mn delta (j - 1)))) as [|C]; [discriminate|].
        assert (G : - (15 * u * M) <= val x - val mn - INR (j - 1) * D) by (apply Rabs_le_inv in E1; lra).
        replace ((val x - val mn) / D - INR (j - 1)) with ((val x - val mn - INR (j - 1) * D) * / D) by (field; lra).
        assert (- (15 * u * M) * / D <= (val x - val mn - INR (j - 1) * D) * / D) by (apply Rmult_le_compat_r; lra). lra.
    - destruct (end_off j ltac:(lia)) as [F1 E1]. rewrite (leb_val BIG _ _ FX F1) in LJ. destruct (Rle_bool_spec (val x) (val (@bin_end NumSF mn delta j))) as [C|]; [|discriminate].
      assert (G : val x - val mn - INR j * D <= 15 * u * M) by (apply Rabs_le_inv in E1; lra).
      replace ((val x - val mn) / D - INR (j - 1)) with (1 + (val x - val mn - INR j * D) * / D) by (rewrite SJ; field; lra).
      assert ((val x - val mn - INR j * D) * / D <= 15 * u * M * / D) by (apply Rmult_le_compat_r; lra). lra.
  Qed.
  Lemma weight_off j : (1 <= j <= n - 1)%nat -> let t := (val x - val mn) / D - INR (j - 1) in - / 2 ^ 31 <= t <= 1 + / 2 ^ 31 ->
    apart (/ 2 ^ 30) (@fdiv NumSF (@fsub NumSF x (bin_start mn delta j)) delta) t.
  Proof.
    intros HJ t Ht. destruct u_M as (U0 & U1 & U2). destruct D_range as (D1 & D2 & D3 & A & B). destruct delta_off' as [F2 E2]. destruct (start_off j HJ) as [F1 E1].
    destruct (knot_size (j - 1) ltac:(lia)) as [KS _]. assert (XB : Rabs (val x) <= M) by apply Fx.
    assert (S1 : off (111 / 10) (@fsub NumSF x (bin_start mn delta j)) (val x - (val mn + INR (j - 1) * D))).
    { apply (done 9 2 _ (val x - val (@bin_start NumSF mn delta j))); try lra.
      - replace (val x - val (bin_start mn delta j) - (val x - (val mn + INR (j - 1) * D))) with (- (val (bin_start mn delta j) - (val mn + INR (j - 1) * D))) by ring. rewrite Rabs_Ropp. exact E1.
      - apply Rabs_le_inv in XB, KS. apply Rabs_le. lra.
      - intros H. apply (sub_val 80 ltac:(lia) BIG _ _ (proj1 (off_exact _ Fx)) F1 H). }
    destruct S1 as [F3 E3]. set (a := @fsub NumSF x (bin_start mn delta j)) in *.
    assert (TX : val x - (val mn + INR (j - 1) * D) = t * D) by (unfold t; field; lra). rewrite TX in E3.
    set (dl := val delta) in *. set (av := val a) in *.
    assert (DL : 999 / 1000 * (M / 2 ^ 18) <= dl) by (apply Rabs_le_inv in E2; rewrite U1 in E2; lra).
    assert (Q : Rabs (av / dl - t) <= 14 / 16 * / 2 ^ 30).
    { replace (av / dl - t) with ((av - t * D - t * (dl - D)) * / dl) by (field; lra). rewrite Rabs_mult, (Rabs_pos_eq (/ dl)) by (left; apply Rinv_0_lt_compat; lra).
      assert (T1 : Rabs (t * (dl - D)) <= 101 / 100 * (42 / 10 * u * M)) by (rewrite Rabs_mult; apply Rmult_le_compat; auto using Rabs_pos; apply Rabs_le; lra).
      assert (T2 : Rabs (av - t * D - t * (dl - D)) <= 154 / 10 * (u * M)). { unfold Rminus at 1. apply (Rle_trans _ _ _ (Rabs_triang _ _)). rewrite Rabs_Ropp. lra. }
      assert (I : / dl <= 1000 / 999 * (2 ^ 18 / M)). { apply Rle_trans with (/ (999 / 1000 * (M / 2 ^ 18))); [apply Rinv_le_contravar; lra|]. apply Req_le. field. lra. }
      apply Rle_trans with (154 / 10 * (u * M) * (1000 / 999 * (2 ^ 18 / M))).
      - apply Rmult_le_compat; auto using Rabs_pos. left. apply Rinv_0_lt_compat. lra.
      - replace (154 / 10 * (u * M) * (1000 / 999 * (2 ^ 18 / M))) with (154 / 10 * u * (1000 / 999) * 2 ^ 18) by (field; lra). rewrite U1. lra. }
    assert (TB : Rabs t <= 2) by (apply Rabs_le; lra). pose proof (size_of _ _ _ _ Q TB) as QB.
    destruct (quot (mkFilm 1 1) 0 0 (le_n 1) (le_n 1) a delta BIG BIG 3 F3 F2) as (_ & FI & EE); [fold dl; lra|fold av dl; lra|lra|].
    fold av dl in EE. split; [exact FI|]. pose proof (tri _ _ _ _ _ EE Q) as T0. assert (u * Rabs (av / dl) <= u * 3) by (apply Rmult_le_compat_l; lra). rewrite U1 in *. lra.
  Qed.
End Bins.

Lemma blend (a b lam : @F NumSF) (t : R) : finite_upto 1 a -> 0 <= val a -> finite_upto 1 b -> 0 <= val b -> apart (/ 2 ^ 30) lam t -> - / 2 ^ 31 <= t <= 1 + / 2 ^ 31 ->
  Rabs (val (@fadd NumSF a (@fmul NumSF (@fsub NumSF b a) lam)) - ((1 - t) * val a + t * val b)) <= 2 * / 2 ^ 30 /\ finite_upto 4 (@fadd NumSF a (@fmul NumSF (@fsub NumSF b a) lam)).
Proof.
  intros Fa A0 Fb B0 HL HT. assert (U1 : ulp1 = / 2 ^ 53) by exact ulp1_val. assert (A1 : val a <= 1) by (destruct Fa as (_ & _ & H); apply Rabs_le_inv in H; lra).
  assert (B1 : val b <= 1) by (destruct Fb as (_ & _ & H); apply Rabs_le_inv in H; lra).
  assert (BA : Rabs (val b - val a) <= 1) by (apply Rabs_le; lra). assert (TB : Rabs t <= 101 / 100) by (apply Rabs_le; lra).
  pose proof (apart_sub 2 0 0 (4 * ulp1) _ _ _ _ (apart_exact _ _ Fb ltac:(lra)) (apart_exact _ _ Fa ltac:(lra)) ltac:(lra) ltac:(lra) ltac:(lra)) as S1.
  pose proof (apart_mul 1 (101 / 100) 3 _ _ (/ 2 ^ 30 + 20 * ulp1) _ _ _ _ S1 HL BA TB ltac:(rewrite U1; lra) ltac:(lra) ltac:(rewrite U1; lra)) as S2.
  assert (PB : Rabs ((val b - val a) * t) <= 1 * (101 / 100)) by (rewrite Rabs_mult; apply Rmult_le_compat; auto using Rabs_pos).
  assert (SB : Rabs (val a + (val b - val a) * t) <= 3) by (apply (Rle_trans _ _ _ (Rabs_triang _ _)); rewrite (Rabs_pos_eq (val a)) by lra; lra).
  destruct (apart_add 4 0 _ (2 * / 2 ^ 30) _ _ _ _ (apart_exact _ _ Fa ltac:(lra)) S2 ltac:(rewrite U1; lra) ltac:(lra) ltac:(rewrite U1; lra)) as [FR R0].
  replace ((1 - t) * val a + t * val b) with (val a + (val b - val a) * t) by ring. split; [exact R0|]. destruct FR as (Q1 & Q2 & _). split; [exact Q1|]. split; [exact Q2|].
  pose proof (size_of _ _ _ _ R0 SB). lra.
Qed.
Lemma shade_light (a : @Spectrum NumSF) : shade a -> light_of (val_spec a).
Proof.
  intros (([_ [_ R1]] & R0) & ([_ [_ G1]] & G0) & ([_ [_ B1]] & B0)). apply Rabs_le_inv in R1, G1, B1. unfold light_of, val_spec. cbn [sr sg sb]. repeat split; lra.
Qed.
Lemma rleb (a b : R) : @fleb NumR a b = true <-> a <= b.
Proof. cbn [fleb NumR]. unfold Rleb. destruct (Rle_dec a b); split; intros; try lra; try reflexivity; discriminate. Qed.

(** a colour all of whose channels are numbers, not infinities or NaN *)
Definition numbers (c : @Spectrum NumSF) : Prop := finite_upto 4 (sr c) /\ finite_upto 4 (sg c) /\ finite_upto 4 (sb c).
Lemma shade_numbers c : shade c -> numbers c.
Proof. intros ((H1 & _) & (H2 & _) & (H3 & _)). assert (L : 1 <= 4) by lra. exact (conj (finite_weaken _ _ _ H1 L) (conj (finite_weaken _ _ _ H2 L) (finite_weaken _ _ _ H3 L))). Qed.
(** ** C33 in binary64.  The limits are numbers of size at most M (2^-10 <= M <= 2^30), not closer to each other than M / 1024; the scale has 2 to
    257 colours.  A value that is not within the last 32 ulps of M below the maximum is given a colour, and the colour is the one that
    exact arithmetic gives up to 2^-28 in every channel. *)
Theorem C33_binary64_partial : forall M B (x mn mx : @F NumSF) (m : list Spectrum),
  / 2 ^ 10 <= M <= 2 ^ 30 -> finite_upto M mn -> finite_upto M mx -> M / 2 ^ 10 <= val mx - val mn -> finite_upto B x ->
  (2 <= length m <= 257)%nat -> (forall c, In c m -> shade c) ->
  (val x <= val mx - M / 2 ^ 48 \/ val mx <= val x) ->
  exists c e, map_linear_colour x mn mx m = Ok_ c /\ map_linear_colour (N := NumR) (val x) (val mn) (val mx) (map val_spec m) = Ok_ e /\ numbers c /\ colours_within (/ 2 ^ 28) (val_spec c) e.
Proof.
  intros M B x mn mx m HM Fmn Fmx Wide Fx Hn HS HX.
  assert (FX : finite_upto (Rmax B M) x) by (apply (finite_weaken _ _ _ Fx); apply Rmax_l).
  assert (FN : finite_upto (Rmax B M) mn) by (apply (finite_weaken _ _ _ Fmn); apply Rmax_r). assert (FM : finite_upto (Rmax B M) mx) by (apply (finite_weaken _ _ _ Fmx); apply Rmax_r).
  assert (D0 : val mn < val mx) by lra. assert (LN : length (map val_spec m) = length m) by apply map_length.
  assert (SAME : forall a : SpecR, colours_within (/ 2 ^ 28) a a) by (intros a; unfold colours_within, Rminus; rewrite !Rplus_opp_r, Rabs_R0; lra).
  destruct (Rle_or_lt (val x) (val mn)) as [L1|L1].
  { destruct m as [|c m]; [cbn in Hn; lia|]. exists c, (val_spec c). split; [|split; [|split; [apply shade_numbers, HS; left; reflexivity|apply SAME]]].
    - unfold map_linear_colour. rewrite (leb_val _ _ _ FX FN), Rle_bool_true by exact L1. reflexivity.
    - rewrite map_low; [reflexivity|discriminate|exact L1]. }
  destruct (Rle_or_lt (val mx) (val x)) as [L2|L2].
  { destruct (nth_some m (length m - 1) ltac:(lia)) as [c Hc]. exists c, (val_spec c). split; [|split; [|split; [apply shade_numbers, HS; eapply nth_error_In; exact Hc|apply SAME]]].
    - unfold map_linear_colour. rewrite (leb_val _ _ _ FX FN), Rle_bool_false by exact L1. rewrite (leb_val _ _ _ FM FX), Rle_bool_true by exact L2.
      destruct (rev m) as [|z r] eqn:E; [apply (f_equal (@length _)) in E; rewrite rev_length in E; cbn in E; lia|].
      assert (EM : m = rev r ++ [z]) by (rewrite <- (rev_involutive m), E; reflexivity). rewrite EM in Hc. rewrite app_length in Hc. cbn in Hc.
      rewrite nth_error_app2 in Hc by lia. replace (length (rev r) + 1 - 1 - length (rev r))%nat with 0%nat in Hc by lia. cbn in Hc. injection Hc as ->. reflexivity.
    - rewrite map_high; [|intros E; rewrite E in LN; cbn in LN; lia|exact L1|exact L2]. rewrite LN, nth_error_map, Hc. reflexivity. }
  destruct HX as [HX|HX]; [|lra].
  assert (FXM : finite_upto M x).
  { destruct Fx as (P1 & P2 & _). split; [exact P1|]. split; [exact P2|]. destruct Fmn as (_ & _ & Q1). destruct Fmx as (_ & _ & Q2). apply Rabs_le_inv in Q1, Q2. apply Rabs_le. lra. }
  destruct (stops M x mn mx (length m) HM FXM Fmn Fmx Wide Hn L1 HX) as (j & EF & HJ & HT). cbv zeta in HT.
  pose proof (weight_off M x mn mx (length m) HM FXM Fmn Fmx Wide Hn j HJ HT) as WO.
  destruct (nth_some m (j - 1) ltac:(lia)) as [a Ha]. destruct (nth_some m j ltac:(lia)) as [b Hb].
  assert (SA : shade a) by (apply HS; eapply nth_error_In; eassumption). assert (SB : shade b) by (apply HS; eapply nth_error_In; eassumption).
  set (t := (val x - val mn) / ((val mx - val mn) / INR (length m - 1)) - INR (j - 1)) in *.
  destruct (scale_near (val x) (val mn) (val mx) (map val_spec m) (j - 1) (val_spec a) (val_spec b) (/ 2 ^ 31) D0 ltac:(lra)) as (e & EE & CE).
  - intros q Hq. apply in_map_iff in Hq. destruct Hq as (q' & <- & Hq). apply shade_light, HS, Hq.
  - rewrite nth_error_map, Ha. reflexivity.
  - rewrite nth_error_map. replace (S (j - 1)) with j by lia. rewrite Hb. reflexivity.
  - lra.
  - rewrite LN. exact HT.
  - rewrite LN in CE. fold t in CE.
    set (lam := @fdiv NumSF (@fsub NumSF x (bin_start mn (@fdiv NumSF (@fsub NumSF mx mn) (fofZ (Z.of_nat (length m - 1)))) j)) (@fdiv NumSF (@fsub NumSF mx mn) (fofZ (Z.of_nat (length m - 1))))) in *.
    eexists. exists e. split; [|split; [exact EE|]].
    + unfold map_linear_colour. rewrite (leb_val _ _ _ FX FN), Rle_bool_false by exact L1. rewrite (leb_val _ _ _ FM FX), Rle_bool_false by exact L2.
      destruct (Nat.eqb_spec (length m) 0) as [|_]; [lia|]. cbv zeta. rewrite EF. cbn [of_opt rbind]. rewrite Ha, Hb. cbn [of_opt rbind]. reflexivity.
    + destruct SA as ((A1 & A2) & (A3 & A4) & (A5 & A6)), SB as ((B1 & B2) & (B3 & B4) & (B5 & B6)). destruct CE as (C1 & C2 & C3). unfold lerp, val_spec in C1, C2, C3. cbn [sr sg sb] in C1, C2, C3.
      destruct (blend _ _ lam t A1 A2 B1 B2 WO HT) as [R1 Q1]. destruct (blend _ _ lam t A3 A4 B3 B4 WO HT) as [R2 Q2]. destruct (blend _ _ lam t A5 A6 B5 B6 WO HT) as [R3 Q3].
      assert (G : forall p q r : R, Rabs (p - q) <= 2 * / 2 ^ 30 -> Rabs (q - r) <= 2 * / 2 ^ 31 -> Rabs (p - r) <= / 2 ^ 28) by (intros p q r H1 H2; pose proof (tri _ _ _ _ _ H1 H2); lra).
      exact (conj (conj Q1 (conj Q2 Q3)) (conj (G _ _ _ R1 C1) (conj (G _ _ _ R2 C2) (G _ _ _ R3 C3)))).
Qed.
Print Assumptions C33_binary64_partial.

(** ** the shipped scales as the program holds them, every literal rounded to binary64 *)
Definition shade_channel (a : @F NumSF) : bool := (valid_binary 53 1024 a && is_finite_SF a && @fleb NumSF a f1 && @fleb NumSF f0 a)%bool.
Definition shade_check (a : @Spectrum NumSF) : bool := (shade_channel (sr a) && shade_channel (sg a) && shade_channel (sb a))%bool.
Definition tables_check : bool := forallb (fun t => (Nat.eqb (length t) 256 && forallb (fun r => shade_check (rowN (N := NumSF) r)) t)%bool) tables.
Lemma shipped_check : tables_check = true.
Proof. vm_compute. reflexivity. Qed.
Lemma zero_val : val (@f0 NumSF) = 0 /\ finite_upto 1 (@f0 NumSF).
Proof.
  assert (E : (@f0 NumSF : spec_float) = sf_ofZ 0) by (vm_compute; reflexivity). rewrite E.
  destruct (ofZ_val 0 ltac:(lia)) as [V FI]. change (@fofZ NumSF 0) with (sf_ofZ 0) in V, FI. split; [exact V|]. apply (finite_weaken _ _ _ FI). rewrite Rabs_R0. lra.
Qed.
Lemma shade_channel_ok (a : @F NumSF) : shade_channel a = true -> finite_upto 1 a /\ 0 <= val a.
Proof.
  unfold shade_channel. rewrite !Bool.andb_true_iff. intros [[[V FI] L1] L0].
  set (B := Rmax 1 (Rabs (val a))). assert (FB : finite_upto B a) by (split; [exact V|split; [exact FI|apply Rmax_r]]).
  destruct one_val as [V1 F1]. destruct zero_val as [V0 F0].
  rewrite (leb_val B _ _ FB (finite_weaken _ _ _ F1 (Rmax_l _ _))), V1 in L1. rewrite (leb_val B _ _ (finite_weaken _ _ _ F0 (Rmax_l _ _)) FB), V0 in L0.
  destruct (Rle_bool_spec (val a) 1) as [C1|]; [|discriminate]. destruct (Rle_bool_spec 0 (val a)) as [C0|]; [|discriminate].
  split; [|exact C0]. split; [exact V|]. split; [exact FI|]. rewrite Rabs_pos_eq; lra.
Qed.
Lemma shipped_shades t : In t tables -> length t = 256%nat /\ forall c, In c (map (rowN (N := NumSF)) t) -> shade c.
Proof.
  intros HT. pose proof shipped_check as C. unfold tables_check in C. rewrite forallb_forall in C. specialize (C t HT). apply Bool.andb_true_iff in C. destruct C as [C1 C2].
  split; [apply Nat.eqb_eq; exact C1|]. intros c Hc. apply in_map_iff in Hc. destruct Hc as (r & <- & Hr). rewrite forallb_forall in C2. specialize (C2 r Hr).
  unfold shade_check in C2. rewrite !Bool.andb_true_iff in C2. destruct C2 as [[H1 H2] H3]. exact (conj (shade_channel_ok _ H1) (conj (shade_channel_ok _ H2) (shade_channel_ok _ H3))).
Qed.
Theorem C33_shipped_binary64_partial : forall t M B (x mn mx : @F NumSF), In t tables ->
  / 2 ^ 10 <= M <= 2 ^ 30 -> finite_upto M mn -> finite_upto M mx -> M / 2 ^ 10 <= val mx - val mn -> finite_upto B x ->
  (val x <= val mx - M / 2 ^ 48 \/ val mx <= val x) ->
  exists c e, map_linear_colour x mn mx (map rowN t) = Ok_ c /\
    map_linear_colour (N := NumR) (val x) (val mn) (val mx) (map val_spec (map rowN t)) = Ok_ e /\ numbers c /\ colours_within (/ 2 ^ 28) (val_spec c) e.
Proof.
  intros t M B x mn mx HT HM Fmn Fmx Wide Fx HX. destruct (shipped_shades t HT) as [L S]. apply (C33_binary64_partial M B); try assumption. rewrite map_length, L. lia.
Qed.
Print Assumptions C33_shipped_binary64_partial.
(** A concrete case: the scale from 0 to 16 lux, the value 5 *)
Example C33_binary64_hyp : In viridis_table tables /\ / 2 ^ 10 <= 16 <= 2 ^ 30 /\ finite_upto 16 (sf_ofZ 0) /\ finite_upto 16 (sf_ofZ 16) /\ 16 / 2 ^ 10 <= val (sf_ofZ 16) - val (sf_ofZ 0) /\
  finite_upto 16 (sf_ofZ 5) /\ val (sf_ofZ 5) <= val (sf_ofZ 16) - 16 / 2 ^ 48.
Proof.
  assert (G : forall z, (0 <= z <= 16)%Z -> val (sf_ofZ z) = IZR z /\ finite_upto 16 (sf_ofZ z)).
  { intros z Hz. destruct (ofZ_val z ltac:(lia)) as [V FI]. change (@fofZ NumSF z) with (sf_ofZ z) in V, FI. split; [exact V|]. apply (finite_weaken _ _ _ FI).
    rewrite <- abs_IZR. apply IZR_le. lia. }
  destruct (G 0%Z ltac:(lia)) as [V0 F0]. destruct (G 16%Z ltac:(lia)) as [V16 F16]. destruct (G 5%Z ltac:(lia)) as [V5 F5]. rewrite V0, V16, V5.
  split; [unfold tables; cbn [In]; auto 8|]. split; [lra|]. split; [exact F0|]. split; [exact F16|]. split; [lra|]. split; [exact F5|lra].
Qed.
