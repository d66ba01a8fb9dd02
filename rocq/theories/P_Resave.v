(** * Property C89: loading a picture and saving it again changes nothing any more *)
From Verif Require Import NumR Text TextProofs Colour Image SpecImage HeaderProofs ImageProofs BvhReal SpecColour ColourmapProofs ColourProofs P_Image.
Open Scope R_scope.

(** the darkest brightness that survives any number of savings; between 1e-19 and it a pixel is lost at the second one *)
Definition faintest : R := 237 / 2 ^ 71.
Definition keeps (p : SpecR) : Prop := bright p < / 10 ^ 19 \/ faintest <= bright p < 2 ^ 127.

Lemma p2_m71 : p2 (-71) = / 2 ^ 71.
Proof.
  rewrite <- (p2_nat 71). apply Rmult_eq_reg_r with (p2 (Z.of_nat 71)); [|pose proof (p2_pos (Z.of_nat 71)); lra].
  change (-71)%Z with (- Z.of_nat 71)%Z. rewrite p2_inv, Rinv_l; [reflexivity|]. pose proof (p2_pos (Z.of_nat 71)). lra.
Qed.
Lemma faintest_visible : / 10 ^ 19 <= faintest.
Proof.
  unfold faintest, Rdiv. apply Rmult_le_reg_r with (10 ^ 19 * 2 ^ 71); [apply Rmult_lt_0_compat; apply pow_lt; lra|].
  replace (/ 10 ^ 19 * (10 ^ 19 * 2 ^ 71)) with (2 ^ 71) by (field; apply pow_nonzero; lra).
  replace (237 * / 2 ^ 71 * (10 ^ 19 * 2 ^ 71)) with (237 * 10 ^ 19) by (field; apply pow_nonzero; lra). 
  rewrite (pow_IZR 2 71), (pow_IZR 10 19), <- mult_IZR. apply IZR_le. vm_compute. discriminate.
Qed.

Lemma bytes_back r g b e : (128 <= byte_val r \/ 128 <= byte_val g \/ 128 <= byte_val b)%Z -> byte_val e <> 0%Z ->
  let c := rgbe_to_colour (N := NumR) r g b e in / 10 ^ 19 <= bright c -> colour_to_rgbe (sr c) (sg c) (sb c) = [r; g; b; e].
Proof.
  intros Hm He. cbv zeta. rewrite decode_real by exact He. unfold bright. cbn [sr sg sb].
  pose proof (byte_val_range r) as Rr. pose proof (byte_val_range g) as Rg. pose proof (byte_val_range b) as Rb. pose proof (byte_val_range e) as Re.
  set (s := p2 (byte_val e - 136)). pose proof (p2_pos (byte_val e - 136)) as S. fold s in S.
  assert (Br : 0 <= IZR (byte_val r) <= 255) by (split; apply IZR_le; lia).
  assert (Bg : 0 <= IZR (byte_val g) <= 255) by (split; apply IZR_le; lia).
  assert (Bb : 0 <= IZR (byte_val b) <= 255) by (split; apply IZR_le; lia).
  change (Rmax (Rmax (IZR (byte_val r) * s) (IZR (byte_val g) * s)) (IZR (byte_val b) * s)) with (top (IZR (byte_val r) * s) (IZR (byte_val g) * s) (IZR (byte_val b) * s)).
  set (v := top (IZR (byte_val r) * s) (IZR (byte_val g) * s) (IZR (byte_val b) * s)). intros Hv.
  assert (E7 : p2 (byte_val e - 129) = 128 * s).
  { replace (byte_val e - 129)%Z with (Z.of_nat 7 + (byte_val e - 136))%Z by lia. rewrite <- p2_plus, p2_nat. fold s. ring. }
  assert (E8 : p2 (byte_val e - 129 + 1) = 256 * s).
  { replace (byte_val e - 129 + 1)%Z with (Z.of_nat 8 + (byte_val e - 136))%Z by lia. rewrite <- p2_plus, p2_nat. fold s. ring. }
  assert (V : p2 (byte_val e - 129) <= v < p2 (byte_val e - 129 + 1)).
  { rewrite E7, E8. destruct (top_spec (IZR (byte_val r) * s) (IZR (byte_val g) * s) (IZR (byte_val b) * s)) as (Tr & Tg & Tb). fold v in Tr, Tg, Tb.
    split.
    - destruct Hm as [H|[H|H]]; apply IZR_le in H; nra.
    - destruct (top_in (IZR (byte_val r) * s) (IZR (byte_val g) * s) (IZR (byte_val b) * s)) as [E | [E | E]]; fold v in E; rewrite E; nra. }
  assert (K : binade v = (byte_val e - 129)%Z) by (apply binade_unique; exact V).
  rewrite encode_real; fold v.
  - rewrite K.
    assert (C : forall x : ascii, enc_channel (IZR (byte_val x) * s) (byte_val e - 129) = byte_val x).
    { intros x. unfold enc_channel. replace (IZR (byte_val x) * s * p2 (7 - (byte_val e - 129))) with (IZR (byte_val x)).
      - rewrite Int_part_IZR. pose proof (byte_val_range x). lia.
      - unfold s. rewrite Rmult_assoc, p2_plus. replace (byte_val e - 136 + (7 - (byte_val e - 129)))%Z with 0%Z by lia. rewrite p2_0. ring. }
    rewrite !C, !byte_of_val. replace (byte_val e - 129 + 129)%Z with (byte_val e) by lia. rewrite byte_of_val. reflexivity.
  - exact Hv.
  - pose proof (p2_le (byte_val e - 129 + 1) 200 ltac:(lia)). lra.
Qed.

(** the brightness after a saving is at least the brightness rounded down *)
Lemma through_bright (p : SpecR) : / 10 ^ 19 <= bright p -> bright p < 2 ^ 127 -> let k := binade (bright p) in
  IZR (enc_channel (bright p) k) * p2 (k - 7) <= bright (through_rgbe p).
Proof.
  intros H1 H2 k. destruct (through_real p H1 H2) as [K ->]. fold k. unfold bright at 2, rgb. cbn [sr sg sb].
  set (R1 := IZR (enc_channel (sr p) k) * p2 (k - 7)). set (G1 := IZR (enc_channel (sg p) k) * p2 (k - 7)). set (B1 := IZR (enc_channel (sb p) k) * p2 (k - 7)).
  destruct (top_spec R1 G1 B1) as (T1 & T2 & T3). unfold top in *.
  destruct (top_in (sr p) (sg p) (sb p)) as [E|[E|E]]; change (top (sr p) (sg p) (sb p)) with (bright p) in E; rewrite E; assumption.
Qed.

(** ** C89 *)
(** the bytes of a pixel that was read back are the bytes it was read from *)
Theorem C89_pixel : forall p : SpecR, keeps p ->
  colour_to_rgbe (sr (through_rgbe p)) (sg (through_rgbe p)) (sb (through_rgbe p)) = colour_to_rgbe (sr p) (sg p) (sb p) /\
  through_rgbe (through_rgbe p) = through_rgbe p.
Proof.
  intros p HK. enough (B : colour_to_rgbe (sr (through_rgbe p)) (sg (through_rgbe p)) (sb (through_rgbe p)) = colour_to_rgbe (sr p) (sg p) (sb p)).
  { split; [exact B|]. unfold through_rgbe at 1. rewrite B. unfold through_rgbe. destruct (encode_four (sr p) (sg p) (sb p)) as (w & x & y & z & ->). reflexivity. }
  destruct HK as [H|[H1 H2]].
  - destruct (C29_round_trip_partial p) as [_ Q]; [apply Rlt_trans with (/ 10 ^ 19); [exact H|]|rewrite (Q H)].
    + apply Rlt_le_trans with 1; [rewrite <- Rinv_1; apply Rinv_lt_contravar; [rewrite Rmult_1_l; apply pow_lt; lra|apply Rlt_pow_R1; [lra|lia]]|apply pow_R1_Rle; lra].
    + rewrite !encode_small; [reflexivity|exact H|]. unfold BLACK, gray. cbn [sr sg sb]. unfold top. cbn. unfold Rmax. 
      assert (0 < / 10 ^ 19) by (apply Rinv_0_lt_compat, pow_lt; lra).
      repeat match goal with |- context [Rle_dec ?a ?b] => destruct (Rle_dec a b) end; lra.
  - pose proof faintest_visible as FV. assert (H0 : / 10 ^ 19 <= bright p) by lra.
    destruct (C29_encoder_normalises p (conj H0 H2)) as (r & g & b & e & EN & Hm & He).
    assert (T : through_rgbe p = rgbe_to_colour r g b e) by (unfold through_rgbe; rewrite EN; reflexivity).
    rewrite T, EN. apply bytes_back; [exact Hm|lia|]. rewrite <- T.
    eapply Rle_trans; [|apply (through_bright p H0 H2)]. destruct (through_real p H0 H2) as [K _]. set (k := binade (bright p)) in *.
    assert (V : 0 < bright p) by (pose proof tiny19_p2; pose proof (p2_pos (-64)); lra). destruct (binade_spec _ V) as [B1 B2]. fold k in B1, B2.
    destruct (Z.eq_dec k (-64)) as [KE|KN].
    + rewrite KE. change (-64 - 7)%Z with (-71)%Z. rewrite p2_m71. apply Rle_trans with faintest; [exact FV|]. unfold faintest, Rdiv. apply Rmult_le_compat_r; [left; apply Rinv_0_lt_compat, pow_lt; lra|].
      apply IZR_le. unfold enc_channel. change (7 - -64)%Z with (Z.of_nat 71). rewrite p2_nat. 
      assert (Q : 237 <= bright p * 2 ^ 71).
      { unfold faintest in H1. apply Rmult_le_reg_r with (/ 2 ^ 71); [apply Rinv_0_lt_compat, pow_lt; lra|]. rewrite Rmult_assoc, Rinv_r by (apply pow_nonzero; lra). lra. }
      destruct (base_Int_part (bright p * 2 ^ 71)) as [I1 I2]. assert (L : (236 < Int_part (bright p * 2 ^ 71))%Z) by (apply lt_IZR; lra). lia.
    + pose proof (max_byte_big (bright p) k B1) as MB. assert (L : (128 <= enc_channel (bright p) k)%Z) by (unfold enc_channel; lia). apply IZR_le in L.
      apply Rle_trans with (128 * p2 (k - 7)); [|apply Rmult_le_compat_r; [left; apply p2_pos|exact L]].
      replace (128 * p2 (k - 7)) with (p2 k); [pose proof tiny19_p2'; pose proof (p2_le (-63) k ltac:(lia)); lra|].
      replace k with (Z.of_nat 7 + (k - 7))%Z at 1 by lia. rewrite <- p2_plus, p2_nat. ring.
Qed.
Print Assumptions C89_pixel.

(** a picture that was saved and loaded is saved as the very same file, and loads as the very same picture *)
Theorem C89_resave : forall m m' : @ImageBuffer NumR,
  (Z.of_nat (img_width m) < 2 ^ 64)%Z -> (Z.of_nat (img_height m) < 2 ^ 64)%Z -> Forall keeps (img_pixels m) ->
  from_file (save_hdre m) = Ret (Some m') ->
  save_hdre m' = save_hdre m /\ from_file (save_hdre m') = Ret (Some m').
Proof.
  intros m m' Hw Hh HK HL. enough (S : save_hdre m' = save_hdre m) by (split; [exact S|rewrite S; exact HL]).
  rewrite C30_save_load in HL by assumption. assert (Q : m' = mkImage (img_width m) (img_height m) (map through_rgbe (img_pixels m))) by congruence. subst m'.
  unfold save_hdre. cbn [img_width img_height img_pixels]. do 5 f_equal. f_equal. rewrite map_map. apply map_ext_in. intros p Hp. rewrite Forall_forall in HK. apply C89_pixel. apply HK. exact Hp.
Qed.
Print Assumptions C89_resave.
(** the threshold is there: a pixel of brightness exactly 1e-19 survives the first saving and not the second *)
Theorem C89_fading_refuted : let p := rgb (/ 10 ^ 19) 0 0 in through_rgbe p <> BLACK /\ through_rgbe (through_rgbe p) = BLACK.
Proof.
  cbv zeta. set (p := rgb (/ 10 ^ 19) 0 0). assert (P0 : 0 < / 10 ^ 19) by (apply Rinv_0_lt_compat, pow_lt; lra).
  assert (B : bright p = / 10 ^ 19). { unfold bright, p, rgb. cbn [sr sg sb]. rewrite (Rmax_left (/ 10 ^ 19) 0) by lra. apply Rmax_left. lra. }
  assert (H127 : / 10 ^ 19 < 2 ^ 127).
  { apply Rlt_le_trans with 1; [rewrite <- Rinv_1; apply Rinv_lt_contravar; [rewrite Rmult_1_l; apply pow_lt; lra|apply Rlt_pow_R1; [lra|lia]]|apply pow_R1_Rle; lra]. }
  assert (K : binade (bright p) = (-64)%Z).
  { apply binade_unique. rewrite B. split; [left; exact tiny19_p2|exact tiny19_p2']. }
  destruct (through_real p ltac:(rewrite B; lra) ltac:(rewrite B; exact H127)) as [_ T]. rewrite K in T.
  assert (E0 : enc_channel 0 (-64) = 0%Z) by (unfold enc_channel; rewrite Rmult_0_l; replace 0 with (IZR 0) by reflexivity; rewrite Int_part_IZR; reflexivity).
  assert (E1 : enc_channel (/ 10 ^ 19) (-64) = 236%Z).
  { unfold enc_channel. change (7 - -64)%Z with (Z.of_nat 71). rewrite p2_nat.
    assert (Q : 236 <= / 10 ^ 19 * 2 ^ 71 < 237).
    { assert (T19 : 0 < 10 ^ 19) by (apply pow_lt; lra). split.
      - apply Rmult_le_reg_l with (10 ^ 19); [exact T19|]. rewrite <- Rmult_assoc, Rinv_r by lra. rewrite (pow_IZR 2 71), (pow_IZR 10 19), Rmult_1_l, <- mult_IZR. apply IZR_le. vm_compute. discriminate.
      - apply Rmult_lt_reg_l with (10 ^ 19); [exact T19|]. rewrite <- Rmult_assoc, Rinv_r by lra. rewrite (pow_IZR 2 71), (pow_IZR 10 19), Rmult_1_l, <- mult_IZR. apply IZR_lt. vm_compute. reflexivity. }
    destruct (base_Int_part (/ 10 ^ 19 * 2 ^ 71)) as [I1 I2].
    assert (L1 : (235 < Int_part (/ 10 ^ 19 * 2 ^ 71))%Z) by (apply lt_IZR; lra). assert (L2 : (Int_part (/ 10 ^ 19 * 2 ^ 71) < 237)%Z) by (apply lt_IZR; lra). lia. }
  change (sr p) with (/ 10 ^ 19) in T. change (sg p) with 0 in T. change (sb p) with 0 in T. rewrite E0, E1 in T. change (-64 - 7)%Z with (-71)%Z in T.
  assert (P71 : 0 < p2 (-71)) by apply p2_pos. rewrite T. split.
  - intros D. apply (f_equal (@sr NumR)) in D. cbn [sr rgb BLACK gray] in D. cbn in D. nra.
  - set (q := rgb (236 * p2 (-71)) (0 * p2 (-71)) (0 * p2 (-71))).
    assert (BQ : bright q < / 10 ^ 19).
    { unfold bright, q, rgb. cbn [sr sg sb]. rewrite !Rmult_0_l. rewrite !(Rmax_left (236 * p2 (-71)) 0) by lra. rewrite p2_m71.
      apply Rmult_lt_reg_r with (10 ^ 19 * 2 ^ 71); [apply Rmult_lt_0_compat; apply pow_lt; lra|].
      replace (/ 10 ^ 19 * (10 ^ 19 * 2 ^ 71)) with (2 ^ 71) by (field; apply pow_nonzero; lra).
      replace (236 * / 2 ^ 71 * (10 ^ 19 * 2 ^ 71)) with (236 * 10 ^ 19) by (field; apply pow_nonzero; lra).
      rewrite (pow_IZR 2 71), (pow_IZR 10 19), <- mult_IZR. apply IZR_lt. vm_compute. reflexivity. }
    apply C29_round_trip_partial; [apply Rlt_trans with (/ 10 ^ 19); [exact BQ|exact H127]|exact BQ].
Qed.
Print Assumptions C89_fading_refuted.
Example C89_hyp : let m := @mkImage NumR 2 1 [rgb 1 (1/2) (1/3); rgb 0 0 0] in
  (Z.of_nat (img_width m) < 2 ^ 64)%Z /\ (Z.of_nat (img_height m) < 2 ^ 64)%Z /\ Forall keeps (img_pixels m) /\ exists m', from_file (save_hdre m) = Ret (Some m').
Proof.
  cbv zeta. split; [reflexivity|]. split; [reflexivity|]. split; [|eexists; apply C30_save_load; reflexivity].
  assert (P : 0 < / 10 ^ 19) by (apply Rinv_0_lt_compat, pow_lt; lra).
  constructor; [right|constructor; [left|constructor]].
  - assert (E : bright (rgb 1 (1/2) (1/3)) = 1) by (unfold bright, rgb; cbn [sr sg sb]; rewrite (Rmax_left 1) by lra; apply Rmax_left; lra). rewrite E. split; [|apply Rlt_pow_R1; [lra|lia]].
    unfold faintest. assert (237 <= 2 ^ 71) by (rewrite (pow_IZR 2 71); apply IZR_le; vm_compute; discriminate).
    apply Rmult_le_reg_r with (2 ^ 71); [lra|]. unfold Rdiv. rewrite Rmult_assoc, Rinv_l by lra. lra.
  - unfold bright, rgb. cbn [sr sg sb]. rewrite !(Rmax_left 0 0) by lra. exact P.
Qed.
