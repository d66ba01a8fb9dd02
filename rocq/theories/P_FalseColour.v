(** * Properties C56, C57: false-colour images (exact arithmetic) *)
From Verif Require Import NumR Text TextProofs Colour Colourmap Image SpecImage ImageProofs SpecColour ColourmapProofs ColourProofs BvhReal.
Open Scope R_scope.

(** the brightest of some luminances *)
Definition brightest (m : R) (l : list R) : Prop := In m l /\ forall v, In v l -> v <= m.

Lemma running_max_spec (l : list R) : forall a, let m := running_max (N := NumR) a l in
  (m = a \/ In m l) /\ a <= m /\ forall v, In v l -> v <= m.
Proof.
  induction l as [|v l IH]; intros a; cbn [running_max].
  - split; [left; reflexivity|]. split; [lra|]. intros v [].
  - cbn [fltb NumR]. destruct (Rltb_spec a v) as [C|C].
    + destruct (IH v) as ([E|E] & H1 & H2); (split; [right|split]); cbn [In]; auto; try lra; intros u [<-|Hu]; auto; try lra.
    + destruct (IH a) as ([E|E] & H1 & H2); (split; [|split]); cbn [In]; auto; intros u [<-|Hu]; auto; try lra.
Qed.

Lemma colour_data_ok (lo hi : R) (scale : list SpecR) : (2 <= length scale)%nat -> lo < hi -> forall values : list R,
  exists cs, Forall2 (fun x c => map_linear_colour (N := NumR) x lo hi scale = Ok_ c) values cs /\
    colour_data values lo hi scale = Ok_ (concat (map (data_of (N := NumR)) cs)).
Proof.
  intros Hs Hr. induction values as [|x values (cs & F & E)].
  - exists []. split; [constructor|reflexivity].
  - destruct (map_total x lo hi scale Hs Hr) as [c Hc]. exists (c :: cs). split; [constructor; assumption|].
    cbn [colour_data]. rewrite Hc. cbn [rbind]. rewrite E. reflexivity.
Qed.

(** ** C56 - with an explicit range [lo, hi], 0 <= lo < hi, and a scale of at least two colours, the encoder gets three bytes
    per pixel, in the order of the pixels; each group of three is the scale's colour for that pixel's luminance *)
Theorem C56_data : forall (m : @ImageBuffer NumR) (lo hi : R) scale, (2 <= length scale)%nat -> 0 <= lo < hi ->
  (Z.of_nat (img_width m) < 2 ^ 16)%Z -> (Z.of_nat (img_height m) < 2 ^ 16)%Z ->
  exists colours, Forall2 (fun p c => map_linear_colour (luminance p) lo hi scale = Ok_ c) (img_pixels m) colours /\
    falsecolour m (Some lo) (Some hi) scale = Ok_ (concat (map data_of colours), Z.of_nat (img_width m), Z.of_nat (img_height m)) /\
    length (concat (map data_of colours)) = (3 * length (img_pixels m))%nat.
Proof.
  intros m lo hi scale Hs [H0 Hr] Hw Hh.
  destruct (colour_data_ok lo hi scale Hs Hr (map luminance (img_pixels m))) as (cs & F & E). exists cs.
  assert (F' : Forall2 (fun p c => map_linear_colour (luminance p) lo hi scale = Ok_ c) (img_pixels m) cs).
  { revert F. generalize (img_pixels m). clear. intros ps. revert cs. induction ps as [|p ps IH]; intros cs F; inversion F; subst; constructor; auto. }
  split; [exact F'|]. split.
  - unfold falsecolour. cbv zeta. unfold linear_range, fmax. cbn [fltb NumR]. 
    assert (L0 : (if Rltb lo (0 / 1) then 0 / 1 else lo) = lo) by (rewrite (proj2 (Rltb_false lo (0 / 1))) by lra; reflexivity).
    change (@f0 NumR) with (0 / 1). change (if Rltb lo (0 / 1) then _ else _) with (if Rltb lo (0 / 1) then 0 / 1 else lo). rewrite L0. rewrite E. cbn [rbind]. rewrite !Z.mod_small by lia. reflexivity.
  - clear - F'. induction F' as [|p c ps cs _ _ IH]; [reflexivity|]. cbn [map concat]. rewrite app_length, IH. cbn [data_of map length]. lia.
Qed.
Print Assumptions C56_data.

(** the bytes of a colour: its components times 256, rounded, at most 255 *)
Lemma data_of_byte (x : R) : 0 <= x <= 1 -> byte_val (byte_of (round_u8 (N := NumR) (x * (256 / 1)))) = Z.min 255 (Int_part (x * 256 + 1 / 2)).
Proof.
  intros H. unfold round_u8. cbv zeta. rewrite ffloor_real. cbn [fadd fsub flit fleb f1 NumR]. replace (x * (256 / 1)) with (x * 256) by field.
  destruct (base_Int_part (x * 256)) as [A1 A2]. rewrite floorZ_real by (pose proof big_1000; lra).
  assert (A0 : (-1 < Int_part (x * 256) <= 256)%Z) by (split; [apply lt_IZR; lra|apply le_IZR; lra]).
  assert (K : forall z : Z, IZR z <= x * 256 + 1 / 2 < IZR z + 1 -> Int_part (x * 256 + 1 / 2) = z).
  { intros z Hz. destruct (base_Int_part (x * 256 + 1 / 2)) as [B1 B2]. apply Z.le_antisymm; apply Zlt_succ_le, lt_IZR; unfold Z.succ; rewrite plus_IZR; lra. }
  rewrite byte_val_of. destruct (Rleb_spec (1 / 2) (x * 256 - IZR (Int_part (x * 256)))) as [L|L].
  - change (@f1 NumR) with (1 / 1). replace (IZR (Int_part (x * 256)) + 1 / 1) with (IZR (Int_part (x * 256) + 1)) by (rewrite plus_IZR; lra).
    rewrite sat_u8_int, (K (Int_part (x * 256) + 1)%Z) by (rewrite plus_IZR; lra). rewrite Z.mod_small by lia. lia.
  - rewrite sat_u8_int, (K (Int_part (x * 256))) by lra. rewrite Z.mod_small by lia. lia.
Qed.
Theorem C56_bytes : forall c : SpecR, in_range 0 1 c ->
  map byte_val (data_of c) = map (fun x => Z.min 255 (Int_part (x * 256 + 1 / 2))) [sr c; sg c; sb c].
Proof. intros c (H1 & H2 & H3). unfold data_of. cbn [map]. cbn [fmul flit NumR]. rewrite !data_of_byte by assumption. reflexivity. Qed.
Print Assumptions C56_bytes.

(** without an explicit range, it goes from zero to the brightest pixel ... *)
Theorem C56_automatic_range : forall (values : list R) b, brightest b values -> 0 < b ->
  linear_range (N := NumR) None None values = (0, b).
Proof.
  intros values b [Hb Hm] Hpos. unfold linear_range. cbv zeta.
  destruct (running_max_spec values (@f0 NumR)) as ([E|E] & H1 & H2); set (r := @running_max NumR _ values) in *.
  - exfalso. specialize (H2 _ Hb). rewrite E in H2. rsimp. lra.
  - assert (R : @eq R r b) by (specialize (Hm _ E); specialize (H2 _ Hb); rsimp; lra).
    rewrite R. cbn [fleb NumR]. rewrite (proj2 (Rleb_false b _)) by (rsimp; lra). f_equal. rsimp. field.
Qed.
Print Assumptions C56_automatic_range.
(** ... so that a brightest pixel is drawn with the last colour of the scale *)
Theorem C56_brightest_is_last : forall (values : list R) b scale, brightest b values -> 0 < b -> scale <> [] ->
  let '(lo, hi) := linear_range (N := NumR) None None values in
  map_linear_colour (N := NumR) b lo hi scale = Ok_ (last scale BLACK).
Proof.
  intros values b scale H H0 Hs. rewrite (C56_automatic_range values b H H0). rewrite (map_high b 0 b scale Hs H0 (Rle_refl b)), (nth_error_last scale BLACK Hs). reflexivity.
Qed.
Print Assumptions C56_brightest_is_last.
(** a black image is drawn with the first colour *)
Theorem C56_black_image : forall (values : list R) scale x, Forall (fun v => v <= 0) values -> scale <> [] -> In x values ->
  let '(lo, hi) := linear_range (N := NumR) None None values in
  map_linear_colour (N := NumR) x lo hi scale = Ok_ (hd BLACK scale).
Proof.
  intros values scale x Hv Hs Hx. unfold linear_range. cbv zeta. rewrite Forall_forall in Hv. specialize (Hv x Hx).
  unfold map_linear_colour. cbn [fleb NumR]. rewrite (proj2 (Rleb_true x _)) by (rsimp; lra). destruct scale; [contradiction|reflexivity].
Qed.
Print Assumptions C56_black_image.
(** images of 65536 or more columns are handed over with another width *)
Theorem C56_size_refuted : exists m : @ImageBuffer NumR, forall mn mx scale d w h,
  falsecolour m mn mx scale = Ok_ (d, w, h) -> w <> Z.of_nat (img_width m).
Proof.
  exists (mkImage (Z.to_nat 65536) 1 []). intros mn mx scale d w h. unfold falsecolour. cbv zeta.
  destruct (linear_range mn mx _). cbn [img_pixels map colour_data rbind img_width img_height]. rewrite Z2Nat.id by lia.
  intros E. injection E as _ <- _. discriminate.
Qed.
Print Assumptions C56_size_refuted.

(** ** C57 - the automatic range of the logarithmic version (values are decimal logarithms of luminances) *)
Theorem C57_log_range_partial : forall (values : list R) b, brightest b values -> 1 / 1000 < b ->
  snd (log_range (N := NumR) None None values) = b.
Proof.
  intros values b [Hb Hm] Hpos. unfold log_range. cbv zeta. cbn [snd].
  destruct (running_max_spec values (1 / 1000)) as ([E|E] & H1 & H2); change (@flit NumR 1 1000) with (1 / 1000); set (r := @running_max NumR _ values) in *.
  - exfalso. specialize (H2 _ Hb). lra.
  - assert (R : @eq R r b) by (specialize (Hm _ E); specialize (H2 _ Hb); lra).
    rewrite R. cbn [fleb NumR]. rewrite (proj2 (Rleb_false b _)) by lra. reflexivity.
Qed.
Print Assumptions C57_log_range_partial.
(** an image whose luminances are all at most 1 (logarithms at most 0) does not reach the end of the range, which is 10^0.002 *)
Theorem C57_log_range_refuted : forall (values : list R), Forall (fun v => v <= 0) values ->
  snd (log_range (N := NumR) None None values) = 2 / 1000 /\ forall b, In b values -> b < snd (log_range (N := NumR) None None values).
Proof.
  intros values Hv.
  assert (E : @eq R (snd (log_range (N := NumR) None None values)) (2 / 1000)).
  { unfold log_range. cbv zeta. cbn [snd]. rewrite Forall_forall in Hv.
    destruct (running_max_spec values (1 / 1000)) as ([E|E] & H1 & H2); change (@flit NumR 1 1000) with (1 / 1000); set (r := @running_max NumR _ values) in *.
    - rewrite E. cbn [fleb NumR]. rewrite (proj2 (Rleb_true _ _)) by lra. rsimp. field.
    - specialize (Hv _ E). lra. }
  split; [exact E|]. intros b Hb. rewrite Forall_forall in Hv. specialize (Hv b Hb). rewrite E. lra.
Qed.
Print Assumptions C57_log_range_refuted.
Example C56_hyp : brightest 3 [1; 3; 2] /\ in_range 0 1 (rgb 0 (1/2) 1).
Proof. split; [split; [cbn; auto|]; intros v [<-|[<-|[<-|[]]]]; lra|]. unfold in_range, rgb. cbn. lra. Qed.
