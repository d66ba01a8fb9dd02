(** * Proofs about images *)
From Coq Require Import R_Ifp.
From Verif Require Import NumR Text TextProofs Colour Image BvhReal.
Open Scope R_scope.

(** ** RGBE in exact arithmetic *)
Definition p2 (z : Z) : R := Rpower 2 (IZR z).
Lemma p2_pos z : 0 < p2 z.
Proof. apply exp_pos. Qed.
Lemma p2_plus a b : p2 a * p2 b = p2 (a + b).
Proof. unfold p2. rewrite <- Rpower_plus, plus_IZR. reflexivity. Qed.
Lemma p2_0 : p2 0 = 1.
Proof. apply Rpower_O. lra. Qed.
Lemma p2_nat n : p2 (Z.of_nat n) = 2 ^ n.
Proof. unfold p2. rewrite <- INR_IZR_INZ. apply Rpower_pow. lra. Qed.
Lemma p2_le a b : (a <= b)%Z -> p2 a <= p2 b.
Proof. intros H. unfold p2. apply Rle_Rpower; [lra|]. apply IZR_le. exact H. Qed.
Lemma p2_lt a b : (a < b)%Z -> p2 a < p2 b.
Proof. intros H. unfold p2. apply Rpower_lt; [lra|]. apply IZR_lt. exact H. Qed.
Lemma p2_inv z : p2 (- z) * p2 z = 1.
Proof. rewrite p2_plus. replace (- z + z)%Z with 0%Z by lia. apply p2_0. Qed.

Lemma ffloor_real x : @ffloor NumR x = IZR (@floorZ NumR x).
Proof. unfold ffloor. cbn [feqb fofZ NumR]. rewrite (proj2 (Reqb_true x x) eq_refl). reflexivity. Qed.
Lemma floorZ_real x : - 2 ^ 1000 <= x <= 2 ^ 1000 -> @floorZ NumR x = Int_part x.
Proof.
  intros [H1 H2]. unfold floorZ. cbn [ftrunc fltb fofZ NumR].
  destruct (base_Int_part x) as [B1 B2].
  assert (U : (Int_part x < 2 ^ 1100)%Z).
  { apply lt_IZR. change (2 ^ 1100)%Z with (2 ^ Z.of_nat 1100)%Z. rewrite <- pow_IZR.
    apply Rle_lt_trans with (2 ^ 1000); [lra|]. apply Rlt_pow; [lra|]. apply Nat.ltb_lt. reflexivity. }
  assert (L : (- 2 ^ 1100 < Int_part x)%Z).
  { apply lt_IZR. change (- 2 ^ 1100)%Z with (- (2 ^ Z.of_nat 1100))%Z. rewrite opp_IZR, <- pow_IZR.
    assert (2 ^ 1000 * 2 ^ 1 <= 2 ^ 1100).
    { rewrite <- pow_add. apply Rle_pow; [lra|]. apply Nat.leb_le. reflexivity. }
    assert (1 <= 2 ^ 1000) by (apply pow_R1_Rle; lra). lra. }
  unfold Rtrunc. destruct (Rle_dec 0 x) as [P|P].
  - replace (Z.max (- 2 ^ 1100) (Z.min (2 ^ 1100) (Int_part x))) with (Int_part x) by (clear - U L; revert U L; generalize (2 ^ 1100)%Z; intros; lia).
    rewrite (proj2 (Rltb_false _ _)) by lra. reflexivity.
  - apply Rnot_le_lt in P. destruct (base_Int_part (- x)) as [C1 C2].
    assert (IL : (Int_part x <= - Int_part (- x))%Z) by (apply Z.lt_succ_r; apply lt_IZR; rewrite succ_IZR, opp_IZR; lra).
    assert (IU : (- Int_part (- x) <= Int_part x + 1)%Z) by (apply Z.lt_succ_r; apply lt_IZR; rewrite succ_IZR, plus_IZR, opp_IZR; lra).
    replace (Z.max (- 2 ^ 1100) (Z.min (2 ^ 1100) (- Int_part (- x)))) with (- Int_part (- x))%Z by (clear - U L IL IU; revert U L; generalize (2 ^ 1100)%Z; intros; lia).
    destruct (Rltb_spec x (IZR (- Int_part (- x)))) as [Q|Q].
    + assert ((Int_part x < - Int_part (- x))%Z) by (apply lt_IZR; lra). lia.
    + apply Rnot_lt_le in Q. rewrite opp_IZR in Q. 
      assert ((- Int_part (- x) <= Int_part x)%Z); [|lia].
      apply Z.lt_succ_r. apply lt_IZR. rewrite succ_IZR, opp_IZR. lra.
Qed.
Lemma floorZ_neg x : x < 0 -> (@floorZ NumR x < 0)%Z.
Proof.
  intros H. unfold floorZ. cbn [ftrunc fltb fofZ NumR]. 
  assert (T : (Rtrunc (- 2 ^ 1100) (2 ^ 1100) x <= 0)%Z).
  { unfold Rtrunc. destruct (Rle_dec 0 x); [lra|]. destruct (base_Int_part (- x)) as [C1 C2].
    assert ((-1 < Int_part (- x))%Z) by (apply lt_IZR; lra).
    assert (0 <= 2 ^ 1100)%Z by (apply Z.pow_nonneg; lia). revert H1. generalize (2 ^ 1100)%Z. intros. lia. }
  destruct (Rltb_spec x (IZR (Rtrunc (- 2 ^ 1100) (2 ^ 1100) x))) as [Q|Q]; [lia|].
  apply Rnot_lt_le in Q. apply lt_IZR. lra.
Qed.
Lemma sat_u8_int z : @sat_u8 NumR (IZR z) = Z.max 0 (Z.min 255 z).
Proof.
  unfold sat_u8. cbn [ftrunc NumR]. unfold Rtrunc. destruct (Rle_dec 0 (IZR z)) as [H|H].
  - rewrite Int_part_IZR. reflexivity.
  - apply Rnot_le_lt in H. apply lt_IZR in H. rewrite <- opp_IZR, Int_part_IZR. lia.
Qed.
Lemma sat_i32_int z : (- 2 ^ 31 <= z < 2 ^ 31)%Z -> @sat_i32 NumR (IZR z) = z.
Proof.
  intros B. unfold sat_i32. cbn [ftrunc NumR]. unfold Rtrunc. destruct (Rle_dec 0 (IZR z)) as [H|H].
  - rewrite Int_part_IZR. lia.
  - rewrite <- opp_IZR, Int_part_IZR. lia.
Qed.

Definition lg (v : R) : R := ln v / ln 2.
Definition binade (v : R) : Z := Int_part (lg v).
Lemma ln2_pos : 0 < ln 2. Proof. rewrite <- ln_1. apply ln_increasing; lra. Qed.
Lemma p2_lg v : 0 < v -> Rpower 2 (lg v) = v.
Proof. intros H. unfold Rpower, lg. replace (ln v / ln 2 * ln 2) with (ln v) by (field; pose proof ln2_pos; lra). apply exp_ln. exact H. Qed.
Lemma binade_spec v : 0 < v -> p2 (binade v) <= v < p2 (binade v + 1).
Proof.
  intros H. destruct (base_Int_part (lg v)) as [B1 B2]. fold (binade v) in *.
  rewrite <- (p2_lg v H) at 2 3. unfold p2. split; [apply Rle_Rpower; lra|]. apply Rpower_lt; [lra|]. rewrite plus_IZR. lra.
Qed.
Lemma binade_unique v k : p2 k <= v < p2 (k + 1) -> binade v = k.
Proof.
  intros [H1 H2]. assert (V : 0 < v) by (pose proof (p2_pos k); lra). destruct (binade_spec v V) as [B1 B2].
  destruct (Z.lt_trichotomy (binade v) k) as [C|[C|C]]; [|exact C|].
  - pose proof (p2_le (binade v + 1) k ltac:(lia)). lra.
  - pose proof (p2_le (k + 1) (binade v) ltac:(lia)). lra.
Qed.
Lemma binade_range v a b : p2 a <= v -> v < p2 b -> (a <= binade v < b)%Z.
Proof.
  intros H1 H2. assert (V : 0 < v) by (pose proof (p2_pos a); lra). destruct (binade_spec v V) as [B1 B2]. split.
  - apply Z.nlt_ge. intros C. pose proof (p2_le (binade v + 1) a ltac:(lia)). lra.
  - apply Z.nle_gt. intros C. pose proof (p2_le b (binade v) C). lra.
Qed.

Lemma lg_bound v a b : p2 a <= v -> v < p2 b -> IZR a <= lg v < IZR b.
Proof.
  intros H1 H2. assert (V : 0 < v) by (pose proof (p2_pos a); lra). rewrite <- (p2_lg v V) in H1, H2. split.
  - apply Rnot_lt_le. intros C. pose proof (Rpower_lt 2 _ _ ltac:(lra) C). unfold p2 in H1. lra.
  - apply Rnot_le_lt. intros C. pose proof (Rle_Rpower 2 _ _ ltac:(lra) C). unfold p2 in H2. lra.
Qed.

Lemma big_1000 : 2 ^ 9 <= 2 ^ 1000.
Proof. apply Rle_pow; [lra|]. apply Nat.leb_le. reflexivity. Qed.

Lemma frexp_real v : p2 (-200) <= v -> v < p2 200 ->
  @rusty_frexp NumR TrigR v = (v * p2 (- (binade v + 1)), (binade v + 1)%Z).
Proof.
  intros H1 H2. assert (V : 0 < v) by (pose proof (p2_pos (-200)); lra).
  destruct (lg_bound v _ _ H1 H2) as [L1 L2]. destruct (binade_range v _ _ H1 H2) as [K1 K2].
  unfold rusty_frexp. cbn [feqb fabs fsub fadd fmul NumR].
  rewrite (proj2 (Reqb_false _ _)) by (cbn; lra).
  assert (EL : @flog2 NumR TrigR (Rabs v) = lg v).
  { unfold flog2. rewrite Rabs_pos_eq by lra. rsimp. unfold lg. replace (2 / 1) with 2 by field. reflexivity. }
  rewrite EL. rewrite !ffloor_real. rewrite floorZ_real by (pose proof big_1000; lra). fold (binade v). cbn [fofZ NumR].
  unfold fsignum. cbn [fltb NumR]. rewrite (proj2 (Rltb_false v _)) by (cbn; lra).
  unfold fexp2. cbn [fpow TrigR]. unfold Rpowf. destruct (Req_EM_T _ 0) as [E|_]; [cbn in E; lra|].
  f_equal.
  - change (@f1 NumR) with (1 / 1). change (@f2 NumR) with (2 / 1). replace (1 / 1) with 1 by field. replace (2 / 1) with 2 by field.
    replace (lg v - IZR (binade v) - 1) with (lg v + IZR (- (binade v + 1))) by (rewrite opp_IZR, plus_IZR; lra).
    rewrite Rpower_plus, p2_lg by exact V. unfold p2. ring.
  - change (@f1 NumR) with (1 / 1). replace (1 / 1) with 1 by field. rewrite <- plus_IZR. apply sat_i32_int. lia.
Qed.

(** one byte of the encoding *)
Definition enc_channel (c : R) (k : Z) : Z := Z.max 0 (Int_part (c * p2 (7 - k))).
Lemma enc_channel_bounds c v k : c <= v -> v < p2 (k + 1) -> (0 <= enc_channel c k <= 255)%Z.
Proof.
  intros H1 H2. unfold enc_channel. split; [lia|]. destruct (base_Int_part (c * p2 (7 - k))) as [B1 B2].
  assert (c * p2 (7 - k) < 256).
  { apply Rlt_le_trans with (p2 (k + 1) * p2 (7 - k)); [apply Rmult_lt_compat_r; [apply p2_pos|lra]|].
    rewrite p2_plus. replace (k + 1 + (7 - k))%Z with (Z.of_nat 8) by lia. rewrite p2_nat. lra. }
  assert ((Int_part (c * p2 (7 - k)) < 256)%Z) by (apply lt_IZR; lra). lia.
Qed.
Lemma channel_byte c v k : c <= v -> v < p2 (k + 1) ->
  @sat_u8 NumR (@ffloor NumR (c * p2 (7 - k))) = enc_channel c k.
Proof.
  intros H1 H2. pose proof (enc_channel_bounds c v k H1 H2) as B. unfold enc_channel in *.
  rewrite ffloor_real. rewrite sat_u8_int.
  destruct (Rle_dec 0 (c * p2 (7 - k))) as [P|P].
  - rewrite floorZ_real; [lia|]. destruct (base_Int_part (c * p2 (7 - k))) as [B1 B2].
    assert (IZR (Int_part (c * p2 (7 - k))) <= 255) by (apply (IZR_le _ 255); lia). pose proof big_1000. lra.
  - apply Rnot_le_lt in P. pose proof (floorZ_neg _ P). destruct (base_Int_part (c * p2 (7 - k))) as [B1 B2].
    assert ((Int_part (c * p2 (7 - k)) < 0)%Z) by (apply lt_IZR; lra). lia.
Qed.
Definition top (r g b : R) : R := Rmax (Rmax r g) b.
Lemma top_spec r g b : r <= top r g b /\ g <= top r g b /\ b <= top r g b.
Proof. unfold top. pose proof (Rmax_l r g). pose proof (Rmax_r r g). pose proof (Rmax_l (Rmax r g) b). pose proof (Rmax_r (Rmax r g) b). lra. Qed.
Lemma top_in r g b : top r g b = r \/ top r g b = g \/ top r g b = b.
Proof. unfold top, Rmax. destruct (Rle_dec r g); destruct (Rle_dec _ b); tauto. Qed.

Lemma tiny19 : 1 / IZR (Zpos (10 ^ 19)) = / 10 ^ 19.
Proof. unfold Rdiv. rewrite Rmult_1_l. f_equal. rewrite (pow_IZR 10 19). reflexivity. Qed.
Lemma tiny19_p2 : p2 (-64) < / 10 ^ 19.
Proof.
  assert (E : p2 (-64) = / 2 ^ 64).
  { rewrite <- (p2_nat 64). apply Rmult_eq_reg_r with (p2 (Z.of_nat 64)); [|pose proof (p2_pos (Z.of_nat 64)); lra].
    change (-64)%Z with (- Z.of_nat 64)%Z. rewrite p2_inv, Rinv_l; [reflexivity|]. pose proof (p2_pos (Z.of_nat 64)). lra. }
  rewrite E. apply Rinv_lt_contravar; [apply Rmult_lt_0_compat; apply pow_lt; lra|].
  rewrite (pow_IZR 10 19), (pow_IZR 2 64). apply IZR_lt. reflexivity.
Qed.
Lemma tiny19_p2' : / 10 ^ 19 < p2 (-63).
Proof.
  assert (E : p2 (-63) = / 2 ^ 63).
  { rewrite <- (p2_nat 63). apply Rmult_eq_reg_r with (p2 (Z.of_nat 63)); [|pose proof (p2_pos (Z.of_nat 63)); lra].
    change (-63)%Z with (- Z.of_nat 63)%Z. rewrite p2_inv, Rinv_l; [reflexivity|]. pose proof (p2_pos (Z.of_nat 63)). lra. }
  rewrite E. apply Rinv_lt_contravar; [apply Rmult_lt_0_compat; apply pow_lt; lra|].
  rewrite (pow_IZR 10 19), (pow_IZR 2 63). apply IZR_lt. reflexivity.
Qed.

Lemma encode_small r g b : top r g b < / 10 ^ 19 -> @colour_to_rgbe NumR TrigR r g b = [byte_of 0; byte_of 0; byte_of 0; byte_of 0].
Proof.
  intros H. unfold colour_to_rgbe. cbv zeta. cbn [fltb flit NumR].
  match goal with |- context [Rltb ?m (1 / _)] => assert (M : @eq R m (top r g b)) end.
  { cbn [F NumR]. unfold top, Rmax. repeat rcase; destruct (Rle_dec r g); try lra; destruct (Rle_dec _ b); lra. }
  rewrite M, tiny19. rewrite (proj2 (Rltb_true _ _)) by exact H. reflexivity.
Qed.
Lemma encode_real r g b : let v := top r g b in / 10 ^ 19 <= v -> v < p2 200 ->
  @colour_to_rgbe NumR TrigR r g b =
  [byte_of (enc_channel r (binade v)); byte_of (enc_channel g (binade v)); byte_of (enc_channel b (binade v)); byte_of (binade v + 129)].
Proof.
  intros v H1 H2. assert (V : 0 < v) by (pose proof tiny19_p2; pose proof (p2_pos (-64)); lra).
  destruct (top_spec r g b) as (Tr & Tg & Tb). fold v in Tr, Tg, Tb. destruct (binade_spec v V) as [B1 B2].
  unfold colour_to_rgbe. cbv zeta. cbn [fltb flit NumR].
  match goal with |- context [Rltb ?m (1 / _)] => assert (M : @eq R m (v)) end.
  { cbn [F NumR]. unfold v, top, Rmax. repeat rcase; destruct (Rle_dec r g); try lra; destruct (Rle_dec _ b); lra. }
  rewrite M, tiny19. rewrite (proj2 (Rltb_false _ _)) by exact H1.
  rewrite frexp_real; [|pose proof tiny19_p2; pose proof (p2_le (-200) (-64) ltac:(lia)); lra|exact H2].
  cbn [fmul fdiv NumR].
  assert (E : v * p2 (- (binade v + 1)) * (256 / 1 / v) = p2 (7 - binade v)).
  { replace (7 - binade v)%Z with (- (binade v + 1) + Z.of_nat 8)%Z by lia. rewrite <- p2_plus, p2_nat. field. lra. }
  rewrite E. rewrite !(channel_byte _ v) by (try assumption).
  replace (binade v + 1 + 128)%Z with (binade v + 129)%Z by lia. reflexivity.
Qed.

Lemma decode_real r g b e : byte_val e <> 0%Z ->
  @rgbe_to_colour NumR TrigR r g b e =
  mkS (N := NumR) (IZR (byte_val r) * p2 (byte_val e - 136)) (IZR (byte_val g) * p2 (byte_val e - 136)) (IZR (byte_val b) * p2 (byte_val e - 136)).
Proof.
  intros H. unfold rgbe_to_colour. destruct (Z.eqb_spec (byte_val e) 0); [contradiction|]. cbv zeta.
  assert (E : @rusty_ldexp NumR TrigR f1 (byte_val e - (128 + 8)) = p2 (byte_val e - 136)).
  { unfold rusty_ldexp, fexp2. rsimp. unfold Rpowf. destruct (Req_EM_T _ 0); [lra|]. unfold p2.
    replace (2 / 1) with 2 by field. replace (byte_val e - (128 + 8))%Z with (byte_val e - 136)%Z by lia. field. }
  rewrite E. reflexivity.
Qed.
Lemma decode_zero r g b e : byte_val e = 0%Z -> @rgbe_to_colour NumR TrigR r g b e = BLACK.
Proof. intros H. unfold rgbe_to_colour. rewrite H. reflexivity. Qed.

(** a channel after a round trip *)
Lemma channel_back c k : IZR (enc_channel c k) * p2 (k - 7) <= Rmax c 0 < IZR (enc_channel c k) * p2 (k - 7) + p2 (k - 7).
Proof.
  unfold enc_channel. destruct (base_Int_part (c * p2 (7 - k))) as [B1 B2]. set (i := Int_part (c * p2 (7 - k))) in *.
  pose proof (p2_pos (7 - k)) as P. pose proof (p2_pos (k - 7)) as Q.
  assert (U : p2 (7 - k) * p2 (k - 7) = 1). { rewrite p2_plus. replace (7 - k + (k - 7))%Z with 0%Z by lia. apply p2_0. }
  set (s := p2 (7 - k)) in *. set (t := p2 (k - 7)) in *.
  assert (Ec : c = c * s * t) by (rewrite Rmult_assoc, U; ring).
  destruct (Z.le_gt_cases 0 i) as [G|G].
  - rewrite Z.max_r by exact G. apply IZR_le in G.
    assert (0 <= c) by nra. rewrite Rmax_left by assumption. rewrite Ec. split; nra.
  - rewrite Z.max_l by lia. assert (c * s < 0) by (apply (IZR_le _ (-1)) in G || (assert (i <= -1)%Z as G' by lia; apply IZR_le in G'; lra); lra).
    assert (c < 0) by nra. rewrite Rmax_right by lra. lra.
Qed.
Lemma max_byte_big c k : p2 k <= c -> (128 <= Int_part (c * p2 (7 - k)))%Z.
Proof.
  intros H. destruct (base_Int_part (c * p2 (7 - k))) as [B1 B2].
  assert (128 <= c * p2 (7 - k)).
  { apply Rle_trans with (p2 k * p2 (7 - k)); [|apply Rmult_le_compat_r; [left; apply p2_pos|exact H]].
    rewrite p2_plus. replace (k + (7 - k))%Z with (Z.of_nat 7) by lia. rewrite p2_nat. lra. }
  apply Z.lt_succ_r. apply lt_IZR. rewrite succ_IZR. lra.
Qed.
