(** * Properties C29-C32, C56, C57: images *)
From Verif Require Import NumR Text TextProofs Colour Image SpecImage HeaderProofs ImageProofs BvhReal SpecColour ColourmapProofs ColourProofs.
Open Scope R_scope.

(** ** C29 - the RGBE pixel encoding, in exact arithmetic *)
Definition bright (p : SpecR) : R := Rmax (Rmax (sr p) (sg p)) (sb p).
(** [d] is [c] (negative values count as zero) rounded down, less than [eps] below it *)
Definition rounds_down (eps c d : R) : Prop := d <= Rmax c 0 < d + eps.

Lemma p2_127 : p2 127 = 2 ^ 127.
Proof. exact (p2_nat 127). Qed.
Lemma p2_128 : p2 128 = 2 ^ 128.
Proof. exact (p2_nat 128). Qed.

Lemma through_real (p : SpecR) : / 10 ^ 19 <= bright p -> bright p < 2 ^ 127 ->
  let k := binade (bright p) in
  (-64 <= k < 127)%Z /\
  through_rgbe p = rgb (IZR (enc_channel (sr p) k) * p2 (k - 7)) (IZR (enc_channel (sg p) k) * p2 (k - 7)) (IZR (enc_channel (sb p) k) * p2 (k - 7)).
Proof.
  intros H1 H2 k. 
  assert (K : (-64 <= k < 127)%Z) by (apply binade_range; [pose proof tiny19_p2; lra|rewrite p2_127; exact H2]).
  assert (V : 0 < bright p) by (pose proof tiny19_p2; pose proof (p2_pos (-64)); lra).
  destruct (binade_spec _ V) as [_ B2]. fold k in B2. destruct (top_spec (sr p) (sg p) (sb p)) as (Tr & Tg & Tb).
  change (top (sr p) (sg p) (sb p)) with (bright p) in *.
  split; [exact K|]. unfold through_rgbe. rewrite encode_real; change (top (sr p) (sg p) (sb p)) with (bright p);
    [|exact H1|pose proof (p2_lt 127 200 ltac:(lia)); rewrite p2_127 in *; lra].
  fold k.
  assert (E : byte_val (byte_of (k + 129)) = (k + 129)%Z) by (rewrite byte_val_of; apply Z.mod_small; lia).
  rewrite decode_real by (rewrite E; lia). rewrite E, !byte_val_of.
  rewrite !Z.mod_small by (match goal with |- context [enc_channel ?c _] => pose proof (enc_channel_bounds c (bright p) k ltac:(assumption) B2); lia end).
  replace (k + 129 - 136)%Z with (k - 7)%Z by lia. reflexivity.
Qed.

Theorem C29_round_trip_partial : forall p : SpecR, bright p < 2 ^ 127 ->
  (/ 10 ^ 19 <= bright p ->
     rounds_down (bright p / 128) (sr p) (sr (through_rgbe p)) /\
     rounds_down (bright p / 128) (sg p) (sg (through_rgbe p)) /\
     rounds_down (bright p / 128) (sb p) (sb (through_rgbe p))) /\
  (bright p < / 10 ^ 19 -> through_rgbe p = BLACK).
Proof.
  intros p H2. split.
  - intros H1. destruct (through_real p H1 H2) as [K ->].
    assert (V : 0 < bright p) by (pose proof tiny19_p2; pose proof (p2_pos (-64)); lra).
    destruct (binade_spec _ V) as [B1 B2]. set (k := binade (bright p)) in *.
    assert (E : p2 (k - 7) <= bright p / 128).
    { assert (Q : p2 (k - 7) * 128 = p2 k).
      { replace 128 with (p2 (Z.of_nat 7)) by (rewrite p2_nat; ring). rewrite p2_plus. f_equal. lia. }
      lra. }
    unfold rounds_down, rgb. cbn [sr sg sb]. 
    pose proof (channel_back (sr p) k). pose proof (channel_back (sg p) k). pose proof (channel_back (sb p) k). lra.
  - intros H. unfold through_rgbe. rewrite encode_small by exact H. apply decode_zero. reflexivity.
Qed.
Print Assumptions C29_round_trip_partial.

(** too bright: a colour from 2^127 up to 2^128 is read back as black *)
Theorem C29_overflow_refuted : forall p : SpecR, 2 ^ 127 <= bright p < 2 ^ 128 -> through_rgbe p = BLACK.
Proof.
  intros p [H1 H2]. rewrite <- p2_127 in H1. rewrite <- p2_128 in H2.
  assert (K : binade (bright p) = 127%Z) by (apply binade_unique; split; assumption).
  unfold through_rgbe. rewrite encode_real; change (top (sr p) (sg p) (sb p)) with (bright p).
  - rewrite K. apply decode_zero. reflexivity.
  - pose proof tiny19_p2'. pose proof (p2_lt (-63) 127 ltac:(lia)). lra.
  - pose proof (p2_lt 128 200 ltac:(lia)). lra.
Qed.
Print Assumptions C29_overflow_refuted.

(** reading and writing a normalised pixel (largest byte at least 128, exponent at least 66) gives the same bytes *)
Theorem C29_bytes_round_trip_partial : forall r g b e,
  (128 <= byte_val r \/ 128 <= byte_val g \/ 128 <= byte_val b)%Z -> (66 <= byte_val e)%Z ->
  let c := rgbe_to_colour (N := NumR) r g b e in colour_to_rgbe (sr c) (sg c) (sb c) = [r; g; b; e].
Proof.
  intros r g b e Hm He. cbv zeta. rewrite decode_real by lia. cbn [sr sg sb].
  pose proof (byte_val_range r) as Rr. pose proof (byte_val_range g) as Rg. pose proof (byte_val_range b) as Rb. pose proof (byte_val_range e) as Re.
  set (s := p2 (byte_val e - 136)). pose proof (p2_pos (byte_val e - 136)) as S. fold s in S.
  assert (Br : 0 <= IZR (byte_val r) <= 255) by (split; apply IZR_le; lia).
  assert (Bg : 0 <= IZR (byte_val g) <= 255) by (split; apply IZR_le; lia).
  assert (Bb : 0 <= IZR (byte_val b) <= 255) by (split; apply IZR_le; lia).
  set (v := top (IZR (byte_val r) * s) (IZR (byte_val g) * s) (IZR (byte_val b) * s)).
  assert (E7 : p2 (byte_val e - 129) = 128 * s).
  { replace (byte_val e - 129)%Z with (Z.of_nat 7 + (byte_val e - 136))%Z by lia. rewrite <- p2_plus, p2_nat. fold s. ring. }
  assert (E8 : p2 (byte_val e - 129 + 1) = 256 * s).
  { replace (byte_val e - 129 + 1)%Z with (Z.of_nat 8 + (byte_val e - 136))%Z by lia. rewrite <- p2_plus, p2_nat. fold s. ring. }
  assert (V : p2 (byte_val e - 129) <= v < p2 (byte_val e - 129 + 1)).
  { rewrite E7, E8. destruct (top_spec (IZR (byte_val r) * s) (IZR (byte_val g) * s) (IZR (byte_val b) * s)) as (Tr & Tg & Tb). fold v in Tr, Tg, Tb.
    split.
    - destruct Hm as [H|[H|H]]; apply IZR_le in H; nra.
    - destruct (top_in (IZR (byte_val r) * s) (IZR (byte_val g) * s) (IZR (byte_val b) * s)) as [E | [E | E]]; fold v in E; rewrite E; nra. }
  assert (K : binade v = (byte_val e - 129)%Z) by (apply binade_unique; exact V).
  rewrite encode_real; fold v.
  - rewrite K.
    assert (C : forall x : ascii, enc_channel (IZR (byte_val x) * s) (byte_val e - 129) = byte_val x).
    { intros x. unfold enc_channel. replace (IZR (byte_val x) * s * p2 (7 - (byte_val e - 129))) with (IZR (byte_val x)).
      - rewrite Int_part_IZR. pose proof (byte_val_range x). lia.
      - unfold s. rewrite Rmult_assoc, p2_plus. replace (byte_val e - 136 + (7 - (byte_val e - 129)))%Z with 0%Z by lia. rewrite p2_0. ring. }
    rewrite !C, !byte_of_val. replace (byte_val e - 129 + 129)%Z with (byte_val e) by lia. rewrite byte_of_val. reflexivity.
  - pose proof tiny19_p2'. pose proof (p2_le (-63) (byte_val e - 129) ltac:(lia)). lra.
  - pose proof (p2_le (byte_val e - 129 + 1) 200 ltac:(lia)). lra.
Qed.
Print Assumptions C29_bytes_round_trip_partial.

(** ... and pixels written by the encoder are normalised: either four zeros, or the largest byte is at least 128 *)
Theorem C29_encoder_normalises : forall p : SpecR, / 10 ^ 19 <= bright p < 2 ^ 127 ->
  exists r g b e, colour_to_rgbe (sr p) (sg p) (sb p) = [r; g; b; e] /\
    (128 <= byte_val r \/ 128 <= byte_val g \/ 128 <= byte_val b)%Z /\ (65 <= byte_val e)%Z.
Proof.
  intros p [H1 H2]. destruct (through_real p H1 H2) as [K _]. set (k := binade (bright p)) in *.
  assert (V : 0 < bright p) by (pose proof tiny19_p2; pose proof (p2_pos (-64)); lra).
  destruct (binade_spec _ V) as [B1 B2]. fold k in B1, B2. destruct (top_spec (sr p) (sg p) (sb p)) as (Tr & Tg & Tb).
  rewrite encode_real; change (top (sr p) (sg p) (sb p)) with (bright p) in *;
    [|exact H1|pose proof (p2_lt 127 200 ltac:(lia)); rewrite p2_127 in *; lra].
  fold k. do 4 eexists. split; [reflexivity|]. rewrite !byte_val_of.
  assert (M : forall c, c <= bright p -> (enc_channel c k mod 256 = enc_channel c k)%Z).
  { intros c Hc. apply Z.mod_small. pose proof (enc_channel_bounds c _ k Hc B2). lia. }
  rewrite !M by assumption. rewrite (Z.mod_small (k + 129)) by lia. split; [|lia].
  destruct (top_in (sr p) (sg p) (sb p)) as [E|[E|E]]; change (top (sr p) (sg p) (sb p)) with (bright p) in E; rewrite E in B1;
    pose proof (max_byte_big _ k B1); unfold enc_channel; lia.
Qed.
Print Assumptions C29_encoder_normalises.

Example C29_hyp : / 10 ^ 19 <= bright (rgb 1 (1/2) (1/3)) < 2 ^ 127 /\ (128 <= byte_val (byte_of 200))%Z /\ (66 <= byte_val (byte_of 130))%Z.
Proof.
  split; [|split; apply Z.leb_le; reflexivity].
  assert (E : bright (rgb 1 (1/2) (1/3)) = 1). { unfold bright, rgb, Rmax. cbn [sr sg sb]. destruct (Rle_dec 1 (1 / 2)); destruct (Rle_dec _ (1 / 3)); lra. }
  rewrite E. split; [|apply Rlt_pow_R1; [lra|lia]]. rewrite <- Rinv_1. apply Rinv_le_contravar; [lra|]. apply pow_R1_Rle. lra.
Qed.

(** ** C30 - saving and loading, for every arithmetic *)
Theorem C30_save_load : forall (N : Num) (T : Trig N) (m : ImageBuffer),
  (Z.of_nat (img_width m) < 2 ^ 64)%Z -> (Z.of_nat (img_height m) < 2 ^ 64)%Z ->
  from_file (save_hdre m) = Ret (Some (mkImage (img_width m) (img_height m) (map through_rgbe (img_pixels m)))).
Proof.
  intros N T m Hw Hh. apply from_file_some. exists hdr_lines, (size_of (img_height m) (img_width m)), (body_of (img_pixels m)).
  split; [apply save_form|]. split; [apply hdr_harmless|]. cbn [img_height img_width img_pixels]. split; [apply size_of_ok; assumption|].
  rewrite <- (app_nil_r (body_of _)). symmetry. apply read_body_encoded. cbn. lia.
Qed.
Print Assumptions C30_save_load.

(** together: every pixel of a saved and loaded image is within 1/128 of its brightest channel *)
Theorem C30_precision_partial : forall m : @ImageBuffer NumR, consistent m ->
  (Z.of_nat (img_width m) < 2 ^ 64)%Z -> (Z.of_nat (img_height m) < 2 ^ 64)%Z ->
  Forall (fun p => / 10 ^ 19 <= bright p < 2 ^ 127) (img_pixels m) ->
  exists m', from_file (save_hdre m) = Ret (Some m') /\ img_width m' = img_width m /\ img_height m' = img_height m /\ consistent m' /\
    Forall2 (fun p p' => rounds_down (bright p / 128) (sr p) (sr p') /\ rounds_down (bright p / 128) (sg p) (sg p') /\
                         rounds_down (bright p / 128) (sb p) (sb p')) (img_pixels m) (img_pixels m').
Proof.
  intros m C Hw Hh Hp. eexists. split; [apply C30_save_load; assumption|]. cbn [img_height img_width img_pixels].
  split; [reflexivity|]. split; [reflexivity|]. split; [unfold consistent in *; cbn [img_height img_width img_pixels]; rewrite map_length; exact C|].
  clear C. induction Hp as [|p ps [H1 H2] _ IH]; constructor; [|exact IH]. apply C29_round_trip_partial; assumption.
Qed.
Print Assumptions C30_precision_partial.

(** ** C31 - what the reader accepts, exactly *)
Theorem C31_accepted_files : forall (N : Num) (T : Trig N) content (m : ImageBuffer),
  from_file content = Ret (Some m) <->
  exists header size body, content = text_of header ++ size ++ NL :: body /\ Forall harmless header /\
    size_line size (img_height m) (img_width m) /\ img_pixels m = read_body body.
Proof. intros N T. apply from_file_some. Qed.
Print Assumptions C31_accepted_files.

(** every file is answered (with an image, an error or a panic) *)
Theorem C31_terminates : forall (N : Num) (T : Trig N) content, from_file content <> Stuck.
Proof.
  intros N T content. unfold from_file. pose proof (read_header_terminates (S (length content)) content ltac:(lia)).
  destruct (read_header _ content) as [[[[h w] b]|]| |]; cbn; try discriminate. contradiction.
Qed.
Print Assumptions C31_terminates.

(** an unknown format is rejected, wherever its line is in the header *)
Theorem C31_unknown_format_partial : forall (N : Num) (T : Trig N) header fmt rest,
  Forall harmless header -> one_line fmt -> begins fmt (lit "FORMAT") -> ~ right_format fmt -> plain fmt ->
  from_file (text_of header ++ fmt ++ NL :: rest) = Ret None.
Proof.
  intros N T ls fmt rest HL H1 HB HF HP. unfold from_file.
  assert (E : forall fuel, read_header (S (length ls + fuel)) (text_of ls ++ fmt ++ NL :: rest) = Ret None).
  { intros fuel. replace (S (length ls + fuel))%nat with (length ls + S fuel)%nat by lia. rewrite harmless_steps by exact HL.
    cbn [read_header]. rewrite cut_line_app by (apply one_line_forall; exact H1).
    assert (Y : starts_with fmt (lit "-Y") = false) by (destruct HB as [r ->]; reflexivity). rewrite Y.
    apply begins_spec in HB. rewrite HB. unfold read_format.
    assert (HF' : read_format fmt <> Ret true) by (intros Q; apply read_format_true in Q; contradiction).
    unfold read_format in HF'. destruct (split_on (beqb "="%char) fmt) as [|a [|b [|c ws]]] eqn:Es; rewrite ?(utf8_plain fmt HP); try reflexivity.
    destruct (bytes_eqb b _); [exfalso; apply HF'; reflexivity|].
    assert (U : utf8 b = true).
    { apply utf8_plain. apply split_on_inv in Es as [_ (c & l' & _ & -> & Es)]. apply split_on_inv in Es as [_ ->].
      unfold plain in *. apply Forall_app in HP as [_ HP]. inversion HP; assumption. }
    rewrite U. reflexivity. }
  set (content := text_of ls ++ fmt ++ NL :: rest) in *.
  assert (L : (length ls <= length content)%nat) by (unfold content; rewrite app_length; pose proof (text_length ls); lia).
  replace (length content) with (length ls + (length content - length ls))%nat by lia. rewrite E. reflexivity.
Qed.
Print Assumptions C31_unknown_format_partial.
(** ... and so is a file in which no line begins with -Y *)
Theorem C31_no_size_partial : forall (N : Num) (T : Trig N) header rest,
  Forall harmless header -> one_line rest -> from_file (text_of header ++ rest) = Ret None.
Proof.
  intros N T ls rest HL H1. unfold from_file.
  assert (E : forall fuel, read_header (S (length ls + fuel)) (text_of ls ++ rest) = Ret None).
  { intros fuel. replace (S (length ls + fuel))%nat with (length ls + S fuel)%nat by lia. rewrite harmless_steps by exact HL.
    cbn [read_header]. apply one_line_forall in H1. apply cut_line_none in H1. rewrite H1. reflexivity. }
  set (content := text_of ls ++ rest) in *.
  assert (L : (length ls <= length content)%nat) by (unfold content; rewrite app_length; pose proof (text_length ls); lia).
  replace (length content) with (length ls + (length content - length ls))%nat by lia. rewrite E. reflexivity.
Qed.
Print Assumptions C31_no_size_partial.

(** truncated files are accepted: the image has the size of the header and fewer pixels than it *)
Theorem C31_truncated_refuted : forall (N : Num) (T : Trig N) (m : ImageBuffer) n,
  (Z.of_nat (img_width m) < 2 ^ 64)%Z -> (Z.of_nat (img_height m) < 2 ^ 64)%Z ->
  (n <= 4 * length (img_pixels m))%nat ->
  from_file (firstn (length (save_hdre m) - n) (save_hdre m)) =
    Ret (Some (mkImage (img_width m) (img_height m) (map through_rgbe (firstn ((4 * length (img_pixels m) - n) / 4) (img_pixels m))))).
Proof.
  intros N T m n Hw Hh Hn. apply from_file_some. cbn [img_height img_width img_pixels].
  exists hdr_lines, (size_of (img_height m) (img_width m)), (firstn (4 * length (img_pixels m) - n) (body_of (img_pixels m))).
  split; [|split; [apply hdr_harmless|split; [apply size_of_ok; assumption|]]].
  - rewrite save_form. set (a := text_of hdr_lines). set (b := size_of _ _). set (c := body_of _).
    replace (a ++ b ++ NL :: c) with ((a ++ b ++ [NL]) ++ c) by (rewrite <- !app_assoc; reflexivity).
    assert (Lc : length c = (4 * length (img_pixels m))%nat) by (unfold c; apply body_length). rewrite <- Lc.
    replace (a ++ b ++ NL :: firstn (length c - n) c) with ((a ++ b ++ [NL]) ++ firstn (length c - n) c) by (rewrite <- !app_assoc; reflexivity).
    rewrite <- Lc in Hn. rewrite (app_length (a ++ b ++ [NL]) c).
    replace (length (a ++ b ++ [NL]) + length c - n)%nat with (length (a ++ b ++ [NL]) + (length c - n))%nat by lia.
    apply firstn_app_2.
  - destruct (body_firstn (img_pixels m) (4 * length (img_pixels m) - n)) as (extra & HE & ->). symmetry. apply read_body_encoded. exact HE.
Qed.
Print Assumptions C31_truncated_refuted.
(** ... and some damaged headers make the reader panic *)
Theorem C31_panic_refuted : forall (N : Num) (T : Trig N) rest, from_file (lit "-Y " ++ byte_of 255 :: NL :: rest) = Crash.
Proof. intros. unfold from_file. cbn [length]. reflexivity. Qed.
Print Assumptions C31_panic_refuted.

(** ** C32 - indexing, construction and comparison *)
Open Scope nat_scope.
Definition inside {N : Num} (m : ImageBuffer) (x y : nat) : Prop := x < img_width m /\ y < img_height m.
Lemma inside_bound w h x y : x < w -> y < h -> y * w + x < w * h.
Proof. nia. Qed.

Theorem C32_index : forall (N : Num) (m : ImageBuffer) x y, consistent m -> inside m x y ->
  exists c, img_index m x y = Ret c /\ nth_error (img_pixels m) (y * img_width m + x) = Some c.
Proof.
  intros N m x y C [Hx Hy]. unfold img_index. destruct (nth_error _ _) as [c|] eqn:E; [exists c; auto|].
  apply nth_error_None in E. rewrite C in E. pose proof (inside_bound _ _ _ _ Hx Hy). lia.
Qed.
Print Assumptions C32_index.
Lemma nth_error_replace {A} (l : list A) i j c : i < length l ->
  nth_error (firstn i l ++ c :: skipn (S i) l) j = if Nat.eqb j i then Some c else nth_error l j.
Proof.
  intros H. destruct (Nat.eqb_spec j i) as [->|Hne].
  - rewrite nth_error_app2; rewrite firstn_length_le by lia; [|lia]. rewrite Nat.sub_diag. reflexivity.
  - destruct (Nat.lt_ge_cases j i).
    + rewrite nth_error_app1 by (rewrite firstn_length_le; lia). rewrite <- (firstn_skipn i l) at 2.
      rewrite nth_error_app1 by (rewrite firstn_length_le; lia). reflexivity.
    + rewrite nth_error_app2; rewrite firstn_length_le by lia; [|lia]. rewrite <- (firstn_skipn (S i) l) at 2.
      rewrite nth_error_app2; rewrite firstn_length_le by lia; [|lia].
      replace (j - i) with (S (j - S i)) by lia. reflexivity.
Qed.
(** writing a pixel changes that pixel and no other *)
Theorem C32_write : forall (N : Num) (m : ImageBuffer) x y c, consistent m -> inside m x y ->
  exists m', img_set m x y c = Ret m' /\ consistent m' /\ img_width m' = img_width m /\ img_height m' = img_height m /\
    forall x' y', inside m x' y' ->
      img_index m' x' y' = if Nat.eqb x' x && Nat.eqb y' y then Ret c else img_index m x' y'.
Proof.
  intros N m x y c C [Hx Hy]. unfold img_set. pose proof (inside_bound _ _ _ _ Hx Hy) as B. unfold consistent in *.
  cbv zeta. destruct (Nat.ltb_spec (y * img_width m + x) (length (img_pixels m))) as [L|L]; [|lia].
  eexists. split; [reflexivity|]. cbn [img_width img_height img_pixels]. split; [|split; [reflexivity|split; [reflexivity|]]].
  - rewrite app_length, firstn_length_le by lia. cbn [length]. rewrite skipn_length. lia.
  - intros x' y' [Hx' Hy']. unfold img_index. cbn [img_width img_pixels]. rewrite nth_error_replace by exact L.
    destruct (Nat.eqb_spec (y' * img_width m + x') (y * img_width m + x)) as [E|E].
    + assert (y' = y) by nia. subst. assert (x' = x) by lia. subst. rewrite !Nat.eqb_refl. reflexivity.
    + destruct (Nat.eqb_spec x' x) as [->|]; [|reflexivity]. destruct (Nat.eqb_spec y' y) as [->|]; [congruence|reflexivity].
Qed.
Print Assumptions C32_write.
Theorem C32_row_out_of_image : forall (N : Num) (m : ImageBuffer) x y, consistent m -> img_height m <= y -> img_index m x y = Crash.
Proof.
  intros N m x y C H. unfold img_index. assert (E : nth_error (img_pixels m) (y * img_width m + x) = None); [|rewrite E; reflexivity].
  apply nth_error_None. rewrite C. nia.
Qed.
Print Assumptions C32_row_out_of_image.
(** a column outside of the image is not rejected: it is a pixel of a later row *)
Theorem C32_column_out_of_image_refuted : forall (N : Num) (m : ImageBuffer) x y,
  img_index m (img_width m + x) y = img_index m x (S y).
Proof. intros. unfold img_index. do 2 f_equal. lia. Qed.
Print Assumptions C32_column_out_of_image_refuted.

Theorem C32_from_pixels : forall (N : Num) w h ps,
  (length ps = w * h -> from_pixels w h ps = Ret (mkImage w h ps)) /\ (length ps <> w * h -> from_pixels w h ps = Crash).
Proof.
  intros. unfold from_pixels. destruct (Nat.eqb_spec (length ps) (w * h)); cbn [negb]; split; intros; try reflexivity; contradiction.
Qed.
Print Assumptions C32_from_pixels.

Definition same_size {N : Num} (a b : ImageBuffer) : Prop := img_width a = img_width b /\ img_height a = img_height b.
Theorem C32_diff_sizes : forall (N : Num) (a b : ImageBuffer), consistent a -> consistent b ->
  (same_size a b <-> img_diff a b <> Ret None) /\
  (same_size a b -> exists d, img_diff a b = Ret (Some d) /\ same_size d a /\ consistent d).
Proof.
  intros N a b Ca Cb. unfold consistent in *.
  assert (P : same_size a b -> exists d, img_diff a b = Ret (Some d) /\ same_size d a /\ length (img_pixels d) = img_width d * img_height d).
  { intros [W H]. unfold img_diff. rewrite W, H, !Nat.eqb_refl. cbn [andb negb]. unfold from_pixels.
    rewrite map_length, combine_length, Ca, Cb, W, H, Nat.min_id, Nat.eqb_refl. cbn [negb obind].
    eexists. split; [reflexivity|]. unfold same_size. cbn [img_width img_height img_pixels]. split; [auto|].
    rewrite map_length, combine_length, Ca, Cb, W, H, Nat.min_id. reflexivity. }
  split; [|exact P]. split.
  - intros S. destruct (P S) as (d & -> & _). discriminate.
  - unfold img_diff, same_size. destruct (Nat.eqb_spec (img_width a) (img_width b)); destruct (Nat.eqb_spec (img_height a) (img_height b)); cbn [andb negb]; try tauto.
Qed.
Print Assumptions C32_diff_sizes.
Open Scope R_scope.
Theorem C32_diff_symmetric : forall a b : @ImageBuffer NumR, img_diff a b = img_diff b a.
Proof.
  intros a b. unfold img_diff. rewrite (Nat.eqb_sym (img_width b)), (Nat.eqb_sym (img_height b)).
  destruct (Nat.eqb_spec (img_width a) (img_width b)) as [->|]; [|reflexivity]. destruct (Nat.eqb_spec (img_height a) (img_height b)) as [->|]; [|reflexivity].
  cbn [andb negb]. 
  assert (E : forall l l' : list (@Spectrum NumR), map (fun p => gray (fabs (radiance (fst p) - radiance (snd p))%num)) (combine l l') =
    map (fun p => gray (fabs (radiance (fst p) - radiance (snd p))%num)) (combine l' l)); [|rewrite E; reflexivity].
  induction l as [|x l IH]; intros [|y l']; try reflexivity. cbn [combine map fst snd]. rewrite IH. f_equal.
  cbn [fabs fsub NumR]. rewrite Rabs_minus_sym. reflexivity.
Qed.
Print Assumptions C32_diff_symmetric.
Theorem C32_diff_zero : forall a b d : @ImageBuffer NumR, consistent a -> consistent b -> img_diff a b = Ret (Some d) ->
  (Forall (fun p => p = BLACK) (img_pixels d) <-> Forall2 (fun p q => radiance p = radiance q) (img_pixels a) (img_pixels b)).
Proof.
  intros a b d Ca Cb. unfold img_diff. 
  destruct (Nat.eqb_spec (img_width a) (img_width b)) as [W|]; [|discriminate]. destruct (Nat.eqb_spec (img_height a) (img_height b)) as [H|]; [|discriminate].
  cbn [andb negb]. unfold from_pixels. destruct (Nat.eqb _ _); [|discriminate]. cbn [negb obind]. intros E. injection E as <-. cbn [img_pixels].
  unfold consistent in *. assert (L : length (img_pixels a) = length (img_pixels b)) by (rewrite Ca, Cb, W, H; reflexivity).
  revert L. generalize (img_pixels a) (img_pixels b). clear. intros l. induction l as [|x l IH]; intros [|y l'] L; try discriminate.
  - split; constructor.
  - cbn [combine map fst snd]. injection L as L. specialize (IH l' L). rewrite !Forall_cons_iff. split.
    + intros [E F]. constructor; [|apply IH; exact F]. unfold gray, BLACK in E. injection E as E _ _. rsimp.
      assert (E0 : Rabs (radiance x - radiance y) = 0) by (apply (@eq_trans R _ _ _ E); field).
      destruct (Req_dec (radiance x - radiance y) 0) as [Q|Q]; [exact (Rminus_diag_uniq _ _ Q)|]. apply Rabs_pos_lt in Q. rewrite E0 in Q. lra.
    + intros F. inversion F as [|? ? ? ? Hxy F']; subst. split; [|apply IH; assumption].
      assert (D : Rabs (radiance x - radiance y) = 0 / 1).
      { pose proof (Rminus_diag_eq _ _ Hxy) as Z. rewrite Z, Rabs_R0. field. }
      exact (f_equal (fun t : R => mkS (N := NumR) t t t) D).
Qed.
Print Assumptions C32_diff_zero.
Example C32_hyp : consistent (img_new (N := NumR) 3 2) /\ inside (img_new (N := NumR) 3 2) 2 1 /\
  exists d, img_diff (img_new (N := NumR) 3 2) (img_new 3 2) = Ret (Some d).
Proof.
  split; [reflexivity|]. split; [split; cbn; lia|]. unfold img_diff. cbn [img_new img_width img_height img_pixels Nat.eqb andb negb].
  eexists. reflexivity.
Qed.
