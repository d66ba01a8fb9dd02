(** * Property C56 in binary64: the false-colour image as the program computes it, every operation rounded *)
From Coq Require Import ZArith SpecFloat Reals Lra Lia Psatz List.
From Flocq Require Import Core BinarySingleNaN.
From Verif Require Import Num NumR NumSF SFBridge FloatOps FloatRound FloatError Colour Colourmap ColourTables Text TextProofs Image SpecImage SpecColour P_FloatScale P_FloatInf.
Import ListNotations.
#[local] Existing Instance Hprec.
#[local] Existing Instance Hmax.
#[local] Existing Instance valid64.
Open Scope R_scope.

(** ** the vocabulary *)
(** two bytes that differ by at most one *)
Definition next_to (a b : Z) : Prop := (Z.abs (a - b) <= 1)%Z.
(** a luminance that is a number and does not lie in the last 32 ulps of the scale's size below the maximum (where the program
    fails, C33_never_panics_refuted) *)
Definition plain (M : R) (mx x : @F NumSF) : Prop := (exists B, finite_upto B x) /\ (val x <= val mx - M / 2 ^ 48 \/ val mx <= val x).

Lemma floor_lipschitz x y : Rabs (x - y) <= 1 -> (Z.abs (Zfloor x - Zfloor y) <= 1)%Z.
Proof.
  intros H. apply Rabs_le_inv in H. pose proof (Zfloor_lb x). pose proof (Zfloor_ub x). pose proof (Zfloor_lb y). pose proof (Zfloor_ub y).
  assert (Zfloor x < Zfloor y + 2)%Z by (apply lt_IZR; rewrite plus_IZR; lra). assert (Zfloor y < Zfloor x + 2)%Z by (apply lt_IZR; rewrite plus_IZR; lra). lia.
Qed.
Lemma byte_lipschitz x y : Rabs (x - y) <= / 2 ^ 28 -> next_to (to_byte x) (to_byte y).
Proof.
  intros H. unfold next_to, to_byte. assert (F : (Z.abs (Zfloor (x * 256 + 1 / 2) - Zfloor (y * 256 + 1 / 2)) <= 1)%Z).
  { apply floor_lipschitz. apply Rabs_le_inv in H. apply Rabs_le. lra. }
  lia.
Qed.

(** ** C56 - with an explicit range [lo, hi] and a scale of shades, every pixel whose luminance (as the program computes it) is plain
    gets three bytes, each at most one away from the exactly interpolated colour's nearest byte; the sizes are the image's own *)
Theorem C56_binary64_partial : forall M (m : @ImageBuffer NumSF) (lo hi : @F NumSF) (scale : list (@Spectrum NumSF)),
  / 2 ^ 10 <= M <= 2 ^ 30 -> finite_upto M lo -> finite_upto M hi -> 0 <= val lo -> M / 2 ^ 10 <= val hi - val lo ->
  (2 <= length scale <= 257)%nat -> (forall c, In c scale -> shade c) ->
  (forall p, In p (img_pixels m) -> plain M hi (luminance p)) ->
  (Z.of_nat (img_width m) < 2 ^ 16)%Z -> (Z.of_nat (img_height m) < 2 ^ 16)%Z ->
  exists triples, falsecolour m (Some lo) (Some hi) scale = Ok_ (concat triples, Z.of_nat (img_width m), Z.of_nat (img_height m)) /\
    Forall2 (fun (p : @Spectrum NumSF) (bytes : list byte) => exists e : @Spectrum NumR, map_linear_colour (N := NumR) (val (luminance p)) (val lo) (val hi) (map val_spec scale) = Ok_ e /\
      Forall2 (fun b x => next_to (byte_val b) (to_byte x)) bytes [sr e; sg e; sb e]) (img_pixels m) triples.
Proof.
  intros M m lo hi scale HM Flo Fhi L0 Wide Hn HS HP Hw Hh.
  assert (D : exists triples, colour_data (map luminance (img_pixels m)) lo hi scale = Ok_ (concat triples) /\
    Forall2 (fun (p : @Spectrum NumSF) (bytes : list byte) => exists e : @Spectrum NumR, map_linear_colour (N := NumR) (val (luminance p)) (val lo) (val hi) (map val_spec scale) = Ok_ e /\
      Forall2 (fun b x => next_to (byte_val b) (to_byte x)) bytes [sr e; sg e; sb e]) (img_pixels m) triples).
  { induction (img_pixels m) as [|p ps IH].
    - exists []. split; [reflexivity|constructor].
    - destruct IH as (ts & E1 & E2); [intros q Hq; apply HP; right; exact Hq|]. destruct (HP p (or_introl eq_refl)) as [[B FB] HX].
      destruct (C33_binary64_partial M B (luminance p) lo hi scale HM Flo Fhi Wide FB Hn HS HX) as (c & e & C1 & C2 & (N1 & N2 & N3) & (W1 & W2 & W3)).
      exists (data_of c :: ts). split.
      + cbn [map colour_data]. rewrite C1. cbn [rbind]. rewrite E1. reflexivity.
      + constructor; [|exact E2]. exists e. split; [exact C2|]. unfold data_of. cbn [map].
        repeat (apply Forall2_cons || apply Forall2_nil); rewrite round_byte_binary64 by assumption; apply byte_lipschitz; assumption. }
  destruct D as (ts & D1 & D2). exists ts. split; [|exact D2].
  unfold falsecolour. cbv zeta. unfold linear_range, fmax. destruct zero_val as [V0 F0].
  set (B := Rmax M 1). rewrite (ltb_val B lo (@f0 NumSF)) by (first [apply (finite_weaken _ _ _ Flo), Rmax_l|apply (finite_weaken _ _ _ F0), Rmax_r]).
  rewrite V0, Rlt_bool_false by exact L0. rewrite D1. cbn [rbind]. rewrite !Z.mod_small by lia. reflexivity.
Qed.
(** the shipped scales as the program holds them *)
Theorem C56_shipped_binary64_partial : forall t M (m : @ImageBuffer NumSF) (lo hi : @F NumSF), In t tables ->
  / 2 ^ 10 <= M <= 2 ^ 30 -> finite_upto M lo -> finite_upto M hi -> 0 <= val lo -> M / 2 ^ 10 <= val hi - val lo ->
  (forall p, In p (img_pixels m) -> plain M hi (luminance p)) ->
  (Z.of_nat (img_width m) < 2 ^ 16)%Z -> (Z.of_nat (img_height m) < 2 ^ 16)%Z ->
  exists triples, falsecolour m (Some lo) (Some hi) (map rowN t) = Ok_ (concat triples, Z.of_nat (img_width m), Z.of_nat (img_height m)) /\
    Forall2 (fun (p : @Spectrum NumSF) (bytes : list byte) => exists e : @Spectrum NumR, map_linear_colour (N := NumR) (val (luminance p)) (val lo) (val hi) (map val_spec (map rowN t)) = Ok_ e /\
      Forall2 (fun b x => next_to (byte_val b) (to_byte x)) bytes [sr e; sg e; sb e]) (img_pixels m) triples.
Proof.
  intros t M m lo hi HT HM Flo Fhi L0 Wide HP Hw Hh. destruct (shipped_shades t HT) as [L S0].
  apply (C56_binary64_partial M); try assumption. rewrite map_length, L. lia.
Qed.
(** a concrete case: a 2 by 1 image, black and brighter than the range, on the range from 0 to 1 *)
Definition two_pixels : @ImageBuffer NumSF := mkImage 2 1 [BLACK; @mkS NumSF f1 f1 f1].
Example C56_binary64_case : (forall p, In p (img_pixels two_pixels) -> plain 1 (@f1 NumSF) (luminance p)) /\ finite_upto 1 (@f0 NumSF) /\ finite_upto 1 (@f1 NumSF) /\
  0 <= val (@f0 NumSF) /\ 1 / 2 ^ 10 <= val (@f1 NumSF) - val (@f0 NumSF).
Proof.
  destruct zero_val as [V0 F0].
  assert (V1 : val (@f1 NumSF) = 1). { unfold val, SF2R. change (@f1 NumSF) with (S754_finite false 4503599627370496 (-52)). unfold F2R. cbn [Fnum Fexp cond_Zopp]. cbn. lra. }
  assert (F1 : finite_upto 1 (@f1 NumSF)) by (split; [reflexivity|split; [reflexivity|rewrite V1, Rabs_pos_eq; lra]]).
  split; [|rewrite V0, V1; split; [exact F0|split; [exact F1|lra]]].
  intros p [<-|[<-|[]]].
  - assert (E : (luminance (@BLACK NumSF) : spec_float) = @f0 NumSF) by (vm_compute; reflexivity). rewrite E. split; [exists 1; exact F0|left; rewrite V0, V1; lra].
  - assert (E : exists mt ex, (luminance (@mkS NumSF f1 f1 f1) : spec_float) = S754_finite false mt ex /\ (mt =? 6298002603900928)%positive = true /\ ex = (-45)%Z).
    { do 2 eexists. split; [vm_compute; reflexivity|]. split; reflexivity. }
    destruct E as (mt & ex & E & E1 & ->). apply Pos.eqb_eq in E1. subst mt. rewrite E.
    assert (V : val (S754_finite false 6298002603900928 (-45)) = 6298002603900928 / 2 ^ 45) by (unfold val, SF2R, F2R; cbn [cond_Zopp Fnum Fexp]; cbn; lra).
    split; [exists 1000; split; [reflexivity|split; [reflexivity|rewrite V, Rabs_pos_eq; lra]]|right; rewrite V1, V; lra].
Qed.
Print Assumptions C56_binary64_partial.
Print Assumptions C56_shipped_binary64_partial.
