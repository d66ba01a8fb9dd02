(** * Property C65, completed: sfalsecolor (and scompare with a map), for every choice of options (exact arithmetic) *)
From Verif Require Import NumR Text TextProofs Colour Colourmap ColourTables Image SpecImage ImageProofs SpecColour ColourmapProofs ColourProofs BvhReal Tools SpecTools P_Image P_FalseColour P_Tools.
Open Scope R_scope.

(** ** specification *)
(** the colour that a scale shows for the number x when it runs from lo to hi: the first one up to lo, the last one from hi on, and in
    between a mixture of two neighbouring colours in proportion *)
Definition shows (scale : list SpecR) (lo hi x : R) (c : SpecR) : Prop :=
  (x <= lo /\ nth_error scale 0 = Some c) \/
  (lo < x /\ hi <= x /\ nth_error scale (length scale - 1) = Some c) \/
  (lo < x < hi /\ exists k a b, nth_error scale k = Some a /\ nth_error scale (S k) = Some b /\
     knot lo hi (length scale) k <= x <= knot lo hi (length scale) (S k) /\
     c = lerp a b ((x - knot lo hi (length scale) k) / (knot lo hi (length scale) (S k) - knot lo hi (length scale) k))).
(** the ends of the scale; linear: what was asked for (not below zero), or zero and the brightest pixel *)
Definition linear_ends (mn mx : option R) (values : list R) (lo hi : R) : Prop :=
  lo = match mn with Some v => Rmax v 0 | None => 0 end /\
  match mx with Some v => hi = v | None => (exists b, brightest b values /\ 0 < b /\ hi = b) \/ (Forall (fun v => v <= 0) values /\ hi = 0) end.
(** logarithmic: decimal logarithms of what was asked for (not below 1/1000), or 1/1000 and the brightest pixel; but images of
    luminances up to 10^0.001 get 10^0.002 (see C57) *)
Definition log10 (x : R) : R := ln x / ln 10.
Definition log_ends (mn mx : option R) (values : list R) (lo hi : R) : Prop :=
  lo = match mn with Some v => log10 (Rmax v (1/1000)) | None => log10 (1/1000) end /\
  match mx with Some v => hi = log10 v | None => (exists b, brightest b values /\ 1/1000 < b /\ hi = b) \/ (Forall (fun v => v <= 1/1000) values /\ hi = 2/1000) end.
Definition ends (lg : bool) := if lg then log_ends else linear_ends.
(** a byte of a colour channel in [0,1] *)
Definition channel_byte (x : R) : Z := Z.min 255 (Int_part (x * 256 + 1 / 2)).

Lemma shows_total scale (lo hi x : R) : (2 <= length scale)%nat -> exists c, map_linear_colour (N := NumR) x lo hi scale = Ok_ c /\ shows scale lo hi x c.
Proof.
  intros Hn. assert (Hne : scale <> []) by (intros ->; cbn in Hn; lia).
  destruct (Rle_dec x lo) as [L|L].
  { rewrite map_low by assumption. destruct (nth_error scale 0) as [c|] eqn:E; [exists c; split; [reflexivity|left; auto]|]. apply nth_error_None in E. lia. }
  destruct (Rle_dec hi x) as [M|M].
  { rewrite map_high by (try assumption; lra). destruct (nth_error scale (length scale - 1)) as [c|] eqn:E; [exists c; split; [reflexivity|right; left; repeat split; auto; lra]|]. apply nth_error_None in E. lia. }
  destruct (map_mid x lo hi scale Hn ltac:(lra)) as (j & a & b & Hj & Ha & Hb & Hx & Q).
  assert (K : forall k a b, nth_error scale k = Some a -> nth_error scale (S k) = Some b -> knot lo hi (length scale) k <= x <= knot lo hi (length scale) (S k) ->
    exists c, map_linear_colour (N := NumR) x lo hi scale = Ok_ c /\ shows scale lo hi x c).
  { intros k a0 b0 Ea Eb Hk. eexists. split; [apply (map_polyline x lo hi scale k a0 b0); try assumption; lra|]. right; right. split; [lra|]. exists k, a0, b0. auto. }
  apply (K j a b); assumption || lra.
Qed.

Lemma colour_data_shows (lo hi : R) (scale : list SpecR) : (2 <= length scale)%nat -> forall values : list R,
  exists cs, Forall2 (shows scale lo hi) values cs /\ colour_data values lo hi scale = Ok_ (concat (map (data_of (N := NumR)) cs)).
Proof.
  intros Hs. induction values as [|x values (cs & F & E)].
  - exists []. split; [constructor|reflexivity].
  - destruct (shows_total scale lo hi x Hs) as (c & Hc & Hsh). exists (c :: cs). split; [constructor; assumption|].
    cbn [colour_data]. rewrite Hc. cbn [rbind]. rewrite E. reflexivity.
Qed.

Lemma running_cases (a : R) values : let m := running_max (N := NumR) a values in
  (brightest m values /\ a < m) \/ (Forall (fun v => v <= a) values /\ m = a).
Proof.
  cbv zeta. destruct (running_max_spec values a) as (H & H1 & H2). set (m := running_max (N := NumR) a values) in *. clearbody m. change R in m.
  destruct (Req_dec m a) as [E|E]; [right; split; [apply Forall_forall; intros v Hv; specialize (H2 v Hv); lra|exact E]|].
  left. split; [|lra]. destruct H as [H|H]; [contradiction|]. split; [exact H|exact H2].
Qed.

Lemma linear_range_ends mn mx values : linear_ends mn mx values (fst (linear_range (N := NumR) mn mx values)) (snd (linear_range (N := NumR) mn mx values)).
Proof.
  unfold linear_range. cbv zeta. cbn [fst snd]. split.
  - destruct mn as [v|]; [|rsimp; lra]. unfold fmax. cbn [fltb NumR]. change (@f0 NumR) with (0 / 1). replace (0 / 1) with 0 by field. unfold Rmax. destruct (Rltb_spec v 0), (Rle_dec v 0); try lra; match goal with |- ?a = ?b => change (@eq R a b) end; lra.
  - destruct mx as [v|]; [reflexivity|]. change (@f0 NumR) with (0 / 1). replace (0 / 1) with 0 by field.
    destruct (running_cases 0 values) as [[H1 H2]|[H1 H2]]; set (m := @running_max NumR 0 values) in *; clearbody m; change R in m; cbn [fleb NumR].
    + left. exists m. rewrite (proj2 (Rleb_false m 0)) by lra. auto.
    + right. split; [exact H1|]. rewrite (proj2 (Rleb_true m 0)) by lra. rsimp. lra.
Qed.
Lemma log_range_ends mn mx values : log_ends mn mx values (fst (log_range (N := NumR) mn mx values)) (snd (log_range (N := NumR) mn mx values)).
Proof.
  assert (LG : forall x : R, @flog10 NumR TrigR x = log10 x). { intros x. unfold flog10, log10. cbn [fdiv fln flit NumR TrigR]. f_equal. f_equal. field. }
  unfold log_range. cbv zeta. cbn [fst snd]. change (@flit NumR 1 1000) with (1 / 1000). split.
  - destruct mn as [v|]; rewrite LG; [|reflexivity]. f_equal. unfold fmax. cbn [fltb NumR]. unfold Rmax. destruct (Rltb_spec v (1/1000)), (Rle_dec v (1/1000)); try reflexivity; try lra; match goal with |- ?a = ?b => change (@eq R a b) end; lra.
  - destruct mx as [v|]; [apply LG|].
    destruct (running_cases (1/1000) values) as [[H1 H2]|[H1 H2]]; set (m := @running_max NumR (1/1000) values) in *; clearbody m; change R in m; cbn [fleb NumR].
    + left. exists m. rewrite (proj2 (Rleb_false m (1/1000))) by lra. auto.
    + right. split; [exact H1|]. rewrite (proj2 (Rleb_true m (1/1000))) by lra. rsimp. lra.
Qed.

(** ** what is written
    Whatever the options, a readable image (narrower and lower than 65536) becomes a picture of its own size; pixel by pixel, the scale
    shows the luminance (or its decimal logarithm) on the range described above, and the channels are written as rounded bytes. *)
Definition pixel_value (lg : bool) (p : SpecR) : R := if lg then log10 (@luminance NumR p) else @luminance NumR p.

Lemma save_map_picture (img : @ImageBuffer NumR) (mn mx : option R) (lg : bool) (scale : list SpecR) : (2 <= length scale)%nat -> Forall (in_range 0 1) scale ->
  (Z.of_nat (img_width img) < 2 ^ 16)%Z -> (Z.of_nat (img_height img) < 2 ^ 16)%Z ->
  exists lo hi colours data, ends lg mn mx (map (pixel_value lg) (img_pixels img)) lo hi /\
    Forall2 (fun p c => shows scale lo hi (pixel_value lg p) c) (img_pixels img) colours /\
    save_map img mn mx lg scale = Ret (Jpeg (data, Z.of_nat (img_width img), Z.of_nat (img_height img))) /\
    map byte_val data = flat_map (fun c => [channel_byte (sr c); channel_byte (sg c); channel_byte (sb c)]) colours.
Proof.
  intros Hs HR Hw Hh. set (values := map (pixel_value lg) (img_pixels img)).
  set (rng := if lg then log_range (N := NumR) mn mx values else linear_range (N := NumR) mn mx values).
  destruct (colour_data_shows (fst rng) (snd rng) scale Hs values) as (cs & F & E).
  exists (fst rng), (snd rng), cs, (concat (map data_of cs)). split; [unfold rng; destruct lg; [apply log_range_ends|apply linear_range_ends]|]. 
  assert (F' : Forall2 (fun p c => shows scale (fst rng) (snd rng) (pixel_value lg p) c) (img_pixels img) cs).
  { revert F. unfold values. generalize (img_pixels img) (fst rng) (snd rng). clear. intros ps lo hi. revert cs. induction ps as [|p ps IH]; intros cs F; inversion F; subst; constructor; auto. }
  split; [exact F'|]. split.
  - unfold save_map, log_falsecolour, falsecolour. cbv zeta.
    assert (V : map (fun p => @flog10 NumR TrigR (luminance p)) (img_pixels img) = map (pixel_value true) (img_pixels img)).
    { apply map_ext. intros p. unfold flog10, pixel_value, log10. cbn [fdiv fln flit NumR TrigR]. f_equal. f_equal. field. }
    rewrite V. change (map luminance (img_pixels img)) with (map (pixel_value false) (img_pixels img)).
    destruct lg; fold values; rewrite (surjective_pairing (_ mn mx values)); fold rng; rewrite E; cbn [rbind out_of obind]; rewrite !Z.mod_small by lia; reflexivity.
  - assert (IR : Forall (in_range 0 1) cs).
    { clear E. apply Forall_forall. intros c Hc. 
      assert (X : exists x, shows scale (fst rng) (snd rng) x c). { revert F Hc. generalize (fst rng) (snd rng) values. clear. intros lo hi values F Hc. induction F as [|x c' vs cs H F IH]; [destruct Hc|]. destruct Hc as [->|Hc]; [exists x; exact H|auto]. }
      destruct X as [x X]. rewrite Forall_forall in HR. destruct X as [[_ X]|[(_ & _ & X)|(Hx & k & a & b & Ha & Hb & Hk & ->)]].
      - apply HR. eapply nth_error_In; exact X.
      - apply HR. eapply nth_error_In; exact X.
      - apply lerp_range; [apply HR; eapply nth_error_In; exact Ha|apply HR; eapply nth_error_In; exact Hb|].
        set (k0 := knot _ _ _ k) in *. set (k1 := knot _ _ _ (S k)) in *. assert (k0 < k1 \/ k0 = k1) as [L|L] by lra.
        + split; [apply Rmult_le_pos; [lra|left; apply Rinv_0_lt_compat; lra]|]. apply Rmult_le_reg_r with (k1 - k0); [lra|]. unfold Rdiv. rewrite Rmult_assoc, Rinv_l by lra. lra.
        + replace (x - k0) with 0 by lra. unfold Rdiv. rewrite Rmult_0_l. lra. }
    clear - IR. induction IR as [|c cs Hc IR IH]; [reflexivity|]. cbn [map concat flat_map]. rewrite map_app, IH, C56_bytes by exact Hc. reflexivity.
Qed.

Lemma scale_range m : Forall (in_range 0 1) (@scale_of NumR m).
Proof.
  unfold scale_of. apply table_in_range. unfold tables. cbn [In]. destruct m; auto 8.
Qed.

Theorem C65_picture : forall read_file name (mn mx : option R) (lg : bool) m img, load_image (N := NumR) read_file name = Ret (Some img) ->
  (Z.of_nat (img_width img) < 2 ^ 16)%Z -> (Z.of_nat (img_height img) < 2 ^ 16)%Z ->
  exists lo hi colours data, ends lg mn mx (map (pixel_value lg) (img_pixels img)) lo hi /\
    Forall2 (fun p c => shows (scale_of m) lo hi (pixel_value lg p) c) (img_pixels img) colours /\
    sfalsecolor read_file name mn mx lg m = Ret (Wrote (Jpeg (data, Z.of_nat (img_width img), Z.of_nat (img_height img)))) /\
    map byte_val data = flat_map (fun c => [channel_byte (sr c); channel_byte (sg c); channel_byte (sb c)]) colours.
Proof.
  intros read_file name mn mx lg m img HI Hw Hh. destruct (save_map_picture img mn mx lg (scale_of m) (scale_length m) (scale_range m) Hw Hh) as (lo & hi & cs & d & H1 & H2 & H3 & H4).
  exists lo, hi, cs, d. split; [exact H1|]. split; [exact H2|]. split; [|exact H4]. unfold sfalsecolor. rewrite HI. cbn [obind]. rewrite H3. reflexivity.
Qed.
Print Assumptions C65_picture.

(** the five scales have 256 colours each; the published first and last ones *)
Definition published_ends (m : ColourMap) : (R * R * R) * (R * R * R) :=
  match m with
  | MapRadiance => ((43359/100000, 3125/100000, 51563/100000), (99219/100000, 98438/100000, 15625/100000))
  | MapInferno => ((1461590960/10^12, 466127766/10^12, 1386552/10^8), (988362068/10^9, 998364143/10^9, 644924005/10^9))
  | MapMagma => ((1461590960/10^12, 466127766/10^12, 1386552/10^8), (987052509/10^9, 991437853/10^9, 749504188/10^9))
  | MapPlasma => ((503832136/10^10, 298028976/10^10, 527974883/10^9), (940015097/10^9, 975158357/10^9, 131325517/10^9))
  | MapViridis => ((26700401/10^8, 487433/10^8, 32941519/10^8), (99324789/10^8, 90615657/10^8, 14393620/10^8))
  end.
Definition colour_of (c : R * R * R) : SpecR := rgb (fst (fst c)) (snd (fst c)) (snd c).
Theorem C65_scales : forall m, length (@scale_of NumR m) = 256%nat /\
  nth_error (@scale_of NumR m) 0 = Some (colour_of (fst (published_ends m))) /\ nth_error (@scale_of NumR m) 255 = Some (colour_of (snd (published_ends m))).
Proof.
  intros m. assert (G : forall t z0 z1, length t = 256%nat -> nth_error t 0 = Some z0 -> nth_error t 255 = Some z1 ->
    length (map (@rowN NumR) t) = 256%nat /\ nth_error (map (@rowN NumR) t) 0 = Some (rowN z0) /\ nth_error (map (@rowN NumR) t) 255 = Some (rowN z1)).
  { intros t z0 z1 H1 H2 H3. rewrite map_length. split; [exact H1|]. split; apply map_nth_error; assumption. }
  unfold scale_of. destruct m;
  [set (t := radiance_table)|set (t := inferno_table)|set (t := magma_table)|set (t := plasma_table)|set (t := viridis_table)];
  (destruct (nth_error t 0) as [z0|] eqn:E0; [|exfalso; revert E0; vm_compute; discriminate]); (destruct (nth_error t 255) as [z1|] eqn:E1; [|exfalso; revert E1; vm_compute; discriminate]);
  (destruct (G t z0 z1) as (A & B & C); [vm_compute; reflexivity|exact E0|exact E1|]); rewrite A, B, C; (split; [reflexivity|]);
  vm_compute in E0, E1; injection E0 as <-; injection E1 as <-; clear; unfold colour_of, published_ends, rowN; cbn [fst snd]; (split; f_equal; apply spec_ext; cbn [sr sg sb rgb]; unfold table_den; cbn [flit NumR Z.pow Z.pow_pos Pos.iter Z.mul Pos.mul]; match goal with |- ?a = ?b => change (@eq R a b) end; cbn [pow]; lra).
Qed.
Print Assumptions C65_scales.

(** scompare with a map: the absolute differences of radiance, shown in the same way *)
Theorem C64_map : forall read_file (i : @CompareInputs NumR) a b m,
  load_image read_file (ci_input1 i) = Ret (Some a) -> load_image read_file (ci_input2 i) = Ret (Some b) -> ci_map i = Some m ->
  consistent a -> consistent b -> same_size a b -> (Z.of_nat (img_width a) < 2 ^ 16)%Z -> (Z.of_nat (img_height a) < 2 ^ 16)%Z ->
  let diff := map (fun p => @gray NumR (Rabs (@radiance NumR (snd p) - @radiance NumR (fst p)))) (combine (img_pixels a) (img_pixels b)) in
  exists lo hi colours data, ends (ci_log i) (ci_min i) (ci_max i) (map (pixel_value (ci_log i)) diff) lo hi /\
    Forall2 (fun p c => shows (scale_of m) lo hi (pixel_value (ci_log i) p) c) diff colours /\
    scompare read_file i = Ret (Wrote (Jpeg (data, Z.of_nat (img_width a), Z.of_nat (img_height a)))) /\
    map byte_val data = flat_map (fun c => [channel_byte (sr c); channel_byte (sg c); channel_byte (sb c)]) colours.
Proof.
  intros read_file i a b m HA HB HM Ca Cb [W H] Hw Hh diff.
  assert (D : img_diff b a = Ret (Some (mkImage (img_width a) (img_height a) diff))).
  { unfold img_diff. rewrite W, H, !Nat.eqb_refl. cbn [andb negb]. unfold consistent in *. unfold from_pixels. rewrite map_length, combine_length, Ca, Cb, W, H, Nat.min_id, Nat.eqb_refl. cbn [negb obind].
    unfold diff. do 3 f_equal. generalize (img_pixels a) (img_pixels b). clear. induction l as [|x l IH]; intros [|y l']; try reflexivity. cbn [combine map fst snd]. rewrite IH. reflexivity. }
  destruct (save_map_picture (mkImage (img_width a) (img_height a) diff) (ci_min i) (ci_max i) (ci_log i) (scale_of m) (scale_length m) (scale_range m) Hw Hh) as (lo & hi & cs & d & H1 & H2 & H3 & H4).
  exists lo, hi, cs, d. split; [exact H1|]. split; [exact H2|]. split; [|exact H4].
  unfold scompare. rewrite HA. cbn [obind]. rewrite HB. cbn [obind]. rewrite D. cbn [obind]. rewrite HM, H3. reflexivity.
Qed.
Print Assumptions C64_map.

(** an example: in a range from 0 to 255 every colour of the scale is shown at its own number, and 256 numbers show all of them *)
Example C65_hyp : forall m k c, (k < 255)%nat -> nth_error (@scale_of NumR m) k = Some c -> (0 < k)%nat -> shows (@scale_of NumR m) 0 255 (INR k) c.
Proof.
  intros m k c Hk Hc H0. destruct (C65_scales m) as (L & _). right; right.
  assert (0 < INR k < 255). { split; [apply lt_0_INR; exact H0|]. replace 255 with (INR 255) by (cbn; lra). apply lt_INR; exact Hk. }
  split; [assumption|]. destruct (nth_error (@scale_of NumR m) (S k)) as [b|] eqn:Eb; [|apply nth_error_None in Eb; lia].
  exists k, c, b. split; [exact Hc|]. split; [exact Eb|]. rewrite L.
  assert (KN : forall j, knot 0 255 256 j = INR j). { intros j. unfold knot. cbn [Nat.sub]. replace (INR 255) with 255 by (cbn; lra). field. }
  rewrite !KN, S_INR. split; [lra|]. replace (INR k - INR k) with 0 by ring. unfold Rdiv. rewrite Rmult_0_l. symmetry. apply lerp_0.
Qed.

(** ** the size of what is written, in any arithmetic and for every range, log option and scale: the image's size modulo 65536 (`as u16`);
    and an image that can be read is either coloured or the program panics: it never runs on forever *)
Theorem C65_size : forall (N : Num) (T : Trig N) read_file name mn mx lg m img o, load_image read_file name = Ret (Some img) ->
  sfalsecolor read_file name mn mx lg m = o ->
  o = Crash \/ exists data, o = Ret (Wrote (Jpeg (data, (Z.of_nat (img_width img) mod 65536)%Z, (Z.of_nat (img_height img) mod 65536)%Z))).
Proof.
  intros N T read_file name mn mx lg m img o HI <-. unfold sfalsecolor, save_map. rewrite HI. cbn [obind]. destruct lg.
  - unfold log_falsecolour. cbv zeta. destruct (log_range mn mx _) as [lo hi]. destruct (colour_data _ lo hi _) as [data|]; cbn [rbind out_of obind]; [right; exists data; reflexivity|left; reflexivity].
  - unfold falsecolour. cbv zeta. destruct (linear_range mn mx _) as [lo hi]. destruct (colour_data _ lo hi _) as [data|]; cbn [rbind out_of obind]; [right; exists data; reflexivity|left; reflexivity].
Qed.
Print Assumptions C65_size.
Theorem C65_wide_refuted : forall (N : Num) (T : Trig N) read_file name mn mx lg m img data w h, load_image read_file name = Ret (Some img) -> (65536 <= Z.of_nat (img_width img))%Z ->
  sfalsecolor read_file name mn mx lg m = Ret (Wrote (Jpeg (data, w, h))) -> w <> Z.of_nat (img_width img).
Proof.
  intros N T read_file name mn mx lg m img data w h HI HW HR. destruct (C65_size N T read_file name mn mx lg m img _ HI HR) as [Q|(d & Q)]; [discriminate|].
  injection Q as _ -> _. pose proof (Z.mod_pos_bound (Z.of_nat (img_width img)) 65536 eq_refl). lia.
Qed.
