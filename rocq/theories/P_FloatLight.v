(** * Properties C20 and C71 in binary64, for every value of the type f64: light is never negative *)
From Coq Require Import ZArith SpecFloat Reals Lra Lia.
From Flocq Require Import Core BinarySingleNaN.
From Verif Require Import Num NumSF SFBridge FloatOps Num64 Geometry Triangle Sphere Colour Ray Bvh Material Scene Samplers Primitives RayTracer Camera Render
  TracerProofs P_Tracer SpecTracer SpecDraws P_Draws P_Render P_Radiant.
#[local] Existing Instance Hprec.
#[local] Existing Instance Hmax.
#[local] Existing Instance valid64.
Open Scope R_scope.

(** ** the vocabulary of the statements *)
(** zero, a positive number, infinity - or NaN *)
Definition not_negative (x : b64) : Prop :=
  match x with B754_zero s | B754_infinity s | B754_finite s _ _ _ => s = false | B754_nan => True end.
(** not negative and at most 1 - or NaN *)
Definition fraction (x : b64) : Prop := x = B754_nan \/ (is_finite x = true /\ not_negative x /\ B2R x <= 1).
Definition each (P : b64 -> Prop) (a : @Spectrum Num64) : Prop := P (sr a) /\ P (sg a) /\ P (sb a).
(** materials without negative colours: the gloss and the colour of glass are at most 1, refraction indices not negative *)
Definition proper (m : @Material Num64) : Prop :=
  match m with
  | Plastic c sp _ | Metal c sp _ => each not_negative c /\ fraction sp
  | Light c | Mirror c => each not_negative c
  | Dielectric c n => each not_negative c /\ not_negative n
  | Glass c n => each fraction c /\ not_negative n
  end.
(** the functions of the C library: pi and exponentials are not negative, a non-negative power of a fraction is a fraction *)
Definition plausible (T : Trig Num64) : Prop :=
  not_negative (@fpi Num64 T) /\ (forall x : b64, not_negative (@fexp Num64 T x)) /\ (forall x p : b64, fraction x -> not_negative p -> fraction (@fpow Num64 T x p)).

Lemma nn_U x : not_negative x <-> U x. Proof. destruct x; cbn; unfold U; cbn; split; auto. Qed.
Lemma fraction_I x : fraction x <-> I1 x.
Proof. unfold fraction, I1. rewrite nn_U. reflexivity. Qed.
Lemma lit_U n d : (0 <= n)%Z -> U (@flit Num64 n d).
Proof.
  intros H. unfold U. cbn [flit Num64].
  assert (K : sign_SF (sf_lit n d) = false).
  2:{ revert K. generalize (lit_valid n d). generalize (sf_lit n d). intros [s|s| |s m e] V; cbn; auto. }
  destruct n as [|m|m]; [reflexivity| |lia]. unfold sf_lit, NumSF.prec, NumSF.emax.
  pose proof (Bdiv_correct_aux 53 1024 Hprec Hmax mode_NE false m 0 false d 0) as [_ C].
  destruct (SFdiv_core_binary 53 1024 (Z.pos m) 0 (Z.pos d) 0) as [[q e] l]. rewrite round_aux_equiv. change (xorb false false) with false in C. destruct (Rlt_bool _ _).
  - destruct C as (_ & _ & ->). reflexivity.
  - rewrite C. reflexivity.
Qed.

Definition half_b : b64 := @B754_finite 53 1024 false 4503599627370496 (-53) eq_refl.
Definition two_b : b64 := @B754_finite 53 1024 false 4503599627370496 (-51) eq_refl.
Lemma half64 : @flit Num64 1 2 = half_b.
Proof. apply B2SF_inj. cbn [flit Num64]. rewrite B2SF_SF2B. vm_compute. reflexivity. Qed.
Lemma two64 : @f2 Num64 = two_b.
Proof. apply B2SF_inj. unfold f2. cbn [flit Num64]. rewrite B2SF_SF2B. vm_compute. reflexivity. Qed.
Lemma count_U n : U (@fofZ Num64 (Z.of_nat n)).
Proof.
  unfold U. cbn [fofZ Num64]. pose proof (binary_normalize_correct 53 1024 Hprec Hmax mode_NE (Z.of_nat n) 0 false) as C. cbv zeta in C.
  assert (V : F2R (Float radix2 (Z.of_nat n) 0) = IZR (Z.of_nat n)) by (unfold F2R; cbn [Fnum Fexp bpow]; ring). rewrite V in C.
  assert (P : 0 <= IZR (Z.of_nat n)) by (apply IZR_le; lia). destruct (Rlt_bool (Rabs _) _).
  - destruct C as (_ & _ & ->). destruct (Rcompare_spec (IZR (Z.of_nat n)) 0); [lra|reflexivity|reflexivity].
  - rewrite Rlt_bool_false in C by exact P. apply overflow_sign in C. rewrite C. reflexivity.
Qed.
Lemma not_below_U (x y : b64) : is_finite y = true -> 0 < B2R y -> Bltb x y = false -> U x.
Proof.
  intros FY PY H. destruct (is_finite x) eqn:FX.
  - rewrite Bltb_correct in H by assumption. destruct (Rlt_bool_spec (B2R x) (B2R y)) as [L|L]; [discriminate|]. apply sign_U. lra.
  - destruct x as [s|[|]| |s m e K]; try discriminate; try reflexivity. destruct y as [s|s| |[|] m e K]; try discriminate.
Qed.

(** ** C20 *)
Lemma half_sum a b : I1 a -> I1 b -> I1 (@fmul Num64 (@flit Num64 1 2) (@fadd Num64 a b)).
Proof.
  rewrite half64. change (@fmul Num64) with (Bmult (prec := 53) (emax := 1024) mode_NE). change (@fadd Num64) with (Bplus (prec := 53) (emax := 1024) mode_NE).
  set (h := half_b). assert (VH : B2R h = / 2) by (unfold h, half_b; cbn [B2R cond_Zopp]; unfold F2R; cbn [Fnum Fexp]; cbn; lra).
  assert (FH : is_finite h = true) by reflexivity. assert (UH : U h) by reflexivity. clearbody h.
  intros [->|(A & B & C)]; [rewrite nan_add_l, nan_mul_r; left; reflexivity|]. intros [->|(A' & B' & C')]; [rewrite nan_add_r, nan_mul_r; left; reflexivity|]. right.
  pose proof (U_pos a B) as P. pose proof (U_pos b B') as P'.
  assert (BD : Rabs (B2R a + B2R b) <= 2) by (apply Rabs_le; lra). destruct (add_fin a b A A' BD) as (V & FV & _).
  assert (SB : 0 <= B2R (Bplus mode_NE a b) <= 2) by (rewrite V; apply (rnd_in 0 2); [lia|lia|lra]).
  assert (BM : Rabs (B2R h * B2R (Bplus mode_NE a b)) <= 2) by (rewrite VH; apply Rabs_le; lra).
  destruct (mul_fin h _ FH FV BM) as [V2 F2]. split; [exact F2|]. split; [apply U_mul; [exact UH|apply U_add; assumption]|].
  rewrite V2, VH. apply (rnd_in 0 1); [lia|lia|lra].
Qed.
Lemma reflectance_I n1 c1 n2 c2 : U n1 -> U c1 -> U n2 -> U c2 -> I1 (@fresnel_reflectance Num64 n1 c1 n2 c2).
Proof.
  intros H1 H2 H3 H4. unfold fresnel_reflectance. cbv zeta. apply half_sum.
  - unfold fresnel_tm. apply J_square. apply J_ratio; apply U_div; assumption.
  - unfold fresnel_te. apply J_square. apply J_ratio; apply U_mul; assumption.
Qed.
(** Fresnel reflectance and transmittance of any refraction indices and cosines that are not negative - zero, infinite and NaN
    included - are fractions, or NaN *)
Theorem C20_any_binary64 : forall n1 c1 n2 c2 : b64, not_negative n1 -> not_negative c1 -> not_negative n2 -> not_negative c2 ->
  let r := @fresnel_reflectance Num64 n1 c1 n2 c2 in fraction r /\ fraction (@fsub Num64 f1 r).
Proof.
  intros n1 c1 n2 c2 H1 H2 H3 H4 r. rewrite nn_U in H1, H2, H3, H4. pose proof (reflectance_I n1 c1 n2 c2 H1 H2 H3 H4) as H. rewrite !fraction_I. split; [exact H|]. apply I_one_minus. exact H.
Qed.
Print Assumptions C20_any_binary64.

#[local] Opaque sf_lit.
(* (the tactic injection would compute the floating-point numbers) *)
Lemma first_path {A B} (a q : A) (b v : B) (x y : option (A * B)) : (Some (a, b), x) = (Some (q, v), y) -> q = a /\ v = b.
Proof. intros H. injection H as -> -> _. split; reflexivity. Qed.
Lemma second_path {A B} (a q : A) (b v : B) (x y : option (A * B)) : (x, Some (a, b)) = (y, Some (q, v)) -> q = a /\ v = b.
Proof. intros H. injection H as _ -> ->. split; reflexivity. Qed.
Lemma pair_of {A B} (a x : A) (b y : B) : (a, b) = (x, y) -> x = a /\ y = b.
Proof. intros H. injection H as -> ->. split; reflexivity. Qed.
Lemma ret_4 {A B C D} (a x : A) (b y : B) (c z : C) (d w : D) : Ret (a, b, c, d) = Ret (x, y, z, w) -> x = a /\ y = b /\ z = c /\ w = d.
Proof. intros H. injection H as -> -> -> ->. repeat split; reflexivity. Qed.
Lemma ret_3 {A B C} (a x : A) (b y : B) (c z : C) : Ret (a, b, c) = Ret (x, y, z) -> x = a /\ y = b /\ z = c.
Proof. intros H. injection H as -> -> ->. repeat split; reflexivity. Qed.
Lemma ret_lamp {A B C} (a x : A) (b y : B) (c z : C) : Ret (Some (a, b), c) = Ret (Some (x, y), z) -> x = a.
Proof. intros H. injection H as -> _ _. reflexivity. Qed.
Lemma no_second_path {A B} (q : A) (v : B) (x y : option (A * B)) : (x, None) = (y, Some (q, v)) -> False.
Proof. discriminate. Qed.
Lemma no_first_path {A B} (q : A) (v : B) (x y : option (A * B)) : (None, x) = (Some (q, v), y) -> False.
Proof. discriminate. Qed.
(** ** colours *)
Notation UU := (each U).
Lemma UU_black : UU BLACK. Proof. repeat split; apply lit_U; lia. Qed.
Lemma UU_one : UU ONE. Proof. repeat split; apply lit_U; lia. Qed.
Lemma UU_add a b : UU a -> UU b -> UU (sadd a b). Proof. intros (A & B & C) (A' & B' & C'). repeat split; apply U_add; assumption. Qed.
Lemma UU_mul a b : UU a -> UU b -> UU (smul a b). Proof. intros (A & B & C) (A' & B' & C'). repeat split; apply U_mul; assumption. Qed.
Lemma UU_div a b : UU a -> UU b -> UU (sdiv a b). Proof. intros (A & B & C) (A' & B' & C'). repeat split; apply U_div; assumption. Qed.
Lemma UU_mulf (a : @Spectrum Num64) (x : @F Num64) : UU a -> U x -> UU (smulf a x). Proof. intros (A & B & C) H. repeat split; apply U_mul; assumption. Qed.
Lemma UU_divf (a : @Spectrum Num64) (x : @F Num64) : UU a -> U x -> UU (sdivf a x). Proof. intros (A & B & C) H. repeat split; apply U_div; assumption. Qed.
Lemma UU_fsmul (a : @Spectrum Num64) (x : @F Num64) : UU a -> U x -> UU (fsmul x a). Proof. intros (A & B & C) H. repeat split; apply U_mul; assumption. Qed.
Lemma UU_fsdiv (a : @Spectrum Num64) (x : @F Num64) : UU a -> U x -> UU (fsdiv x a). Proof. intros (A & B & C) H. repeat split; apply U_div; assumption. Qed.
Lemma UU_gray (x : @F Num64) : U x -> UU (gray x). Proof. intros H. repeat split; assumption. Qed.
Lemma each_impl (P Q : b64 -> Prop) a : (forall x, P x -> Q x) -> each P a -> each Q a. Proof. intros H (A & B & C). repeat split; apply H; assumption. Qed.
Lemma UU_fold xs : forall a, Forall UU xs -> UU a -> UU (fold_left sadd xs a).
Proof. induction xs as [|x xs IH]; intros a HF Ha; [exact Ha|]. inversion_clear HF. cbn [fold_left]. apply IH; [assumption|apply UU_add; assumption]. Qed.
Lemma UU_average xs : Forall UU xs -> UU (average xs).
Proof. intros H. unfold average. destruct xs as [|x xs]; [exact UU_black|]. apply UU_divf; [apply UU_fold; [exact H|exact UU_black]|apply count_U]. Qed.

(** ** the weights of the paths through mirrors, dielectrics and glass *)
Section Light.
  Context {T : Trig Num64} {E : @Ext Num64} {RG : Gen Num64} {GO : @Geo Num64}.
  Hypothesis HT : plausible T.
  Lemma pi_U : U (@fpi Num64 T). Proof. apply nn_U. exact (proj1 HT). Qed.
  Lemma exp_U (x : b64) : U (@Num.fexp Num64 T x). Proof. apply nn_U. exact (proj1 (proj2 HT) x). Qed.
  Lemma pow_I (x p : b64) : I1 x -> U p -> I1 (@fpow Num64 T x p). Proof. rewrite <- !fraction_I, <- nn_U. apply (proj2 (proj2 HT)). Qed.
  Lemma sq_U (x : b64) : U (@fsq Num64 x). Proof. apply U_mul_sign. reflexivity. Qed.
  Lemma f1_U : U (@f1 Num64). Proof. apply lit_U. lia. Qed.

  Lemma cos_facts (d : @Vec Num64) (n1 : b64) (n : @Vec Num64) (ri : b64) (k1 c1 n2 : b64) (o : option b64) : @cos_and_n Num64 d n1 n ri = (k1, c1, n2, o) -> U ri ->
    k1 = n1 /\ U c1 /\ U n2 /\ (forall c2, o = Some c2 -> U c2).
  Proof.
    assert (K : forall (b1 b2 : bool) (one x a rr : b64) (y : b64), U one -> U rr -> U a -> U (@fsqrt Num64 y) -> (if b2 then (x, a, if b1 then one else rr, None) else (x, a, if b1 then one else rr, Some (@fsqrt Num64 y))) = (k1, c1, n2, o) ->
      k1 = x /\ U c1 /\ U n2 /\ (forall c2, o = Some c2 -> U c2)).
    { intros b1 b2 one x a rr y. generalize (@fsqrt Num64 y : b64). intros sq HO HR HA HS H. assert (HN : U (if b1 then one else rr)) by (destruct b1; assumption).
      destruct b2; injection H as <- <- <- <-; (split; [reflexivity|]; split; [exact HA|]; split; [exact HN|]); intros c2 Q; [discriminate|]. injection Q as <-. exact HS. }
    intros H HR. unfold cos_and_n in H. cbv zeta in H. refine (K _ _ _ _ _ _ _ f1_U HR (U_abs _) _ H). apply U_sqrt. apply one_minus_zero.
  Qed.
  Lemma dielectric_weights c (ri : b64) n p (r : @Ray Num64) p1 p2 : UU c -> U ri -> U (r_refraction_index r) -> dielectric_paths c ri n p r = (p1, p2) ->
    forall q v, p1 = Some (q, v) \/ p2 = Some (q, v) -> U (r_refraction_index q) /\ UU v.
  Proof.
    intros HC HR HN. unfold dielectric_paths. destruct (cos_and_n _ _ _ _) as [[[n1 c1] n2] o] eqn:CN. destruct (cos_facts _ _ _ _ _ _ _ _ CN HR) as (-> & U1 & U2 & UO).
    unfold dielectric_refl_trans. destruct o as [c2|].
    - cbv zeta. pose proof (UO c2 eq_refl) as UC. pose proof (reflectance_I (r_refraction_index r) c1 n2 c2 HN U1 U2 UC) as RI. set (rf := fresnel_reflectance _ _ _ _) in *. clearbody rf.
      intros H q v [Q|Q]; rewrite Q in H; [apply first_path in H as [-> ->]|apply second_path in H as [-> ->]].
      + split; [exact HN|]. apply UU_mulf; [|exact U1]. apply UU_divf; [|exact U1]. apply UU_mulf; [exact UU_one|apply I_U; exact RI].
      + split; [exact U2|]. apply UU_mulf; [|exact UC]. apply UU_divf; [|exact UC]. apply UU_mulf; [exact HC|]. apply U_mul; [apply I_U, I_one_minus; exact RI|apply U_mul_sign; reflexivity].
    - intros H q v [Q|Q]; rewrite Q in H; [|destruct (no_second_path _ _ _ _ H)]. apply first_path in H as [-> ->]. split; [exact HN|]. apply UU_mulf; [|exact U1]. apply UU_divf; [exact UU_one|exact U1].
  Qed.

  Lemma one_less_two (x : b64) : I1 x -> J1 (@fsub Num64 f1 (@fmul Num64 f2 x)).
  Proof.
    rewrite two64. change (@fmul Num64 two_b x) with (Bmult mode_NE two_b x). assert (VT : B2R two_b = 2) by (unfold two_b; cbn [B2R cond_Zopp]; unfold F2R; cbn [Fnum Fexp]; cbn; lra).
    assert (FT : is_finite two_b = true) by reflexivity. generalize dependent two_b. intros t VT FT.
    change (@fsub Num64 f1 (Bmult mode_NE t x)) with (Bminus mode_NE (@f1 Num64 : b64) (Bmult mode_NE t x)). destruct one64 as (V1 & F1 & _). set (o := (@f1 Num64 : b64)) in *. clearbody o.
    intros [->|(A & B & C)]; [rewrite nan_mul_r, nan_sub_r; left; reflexivity|]. pose proof (U_pos x B) as P.
    assert (BM : Rabs (B2R t * B2R x) <= 2) by (rewrite VT; apply Rabs_le; lra). destruct (mul_fin t x FT A BM) as [V FV].
    assert (R : 0 <= B2R (Bmult mode_NE t x) <= 2) by (rewrite V, VT; apply (rnd_in 0 2); [lia|lia|lra]).
    assert (BD : Rabs (B2R o - B2R (Bmult mode_NE t x)) <= 2) by (rewrite V1; apply Rabs_le; lra). destruct (sub_fin o _ F1 FV BD) as (V2 & F2 & _). right. split; [exact F2|].
    rewrite V2, V1. apply rnd_in1. apply Rabs_le. lra.
  Qed.
  (** one interface of a pane: the geometric series of the reflections inside *)
  Lemma part_U (r d : b64) : I1 r -> I1 d -> U (@fdiv Num64 (@fmul Num64 r (@fadd Num64 f1 (@fmul Num64 (@fsub Num64 f1 (@fmul Num64 f2 r)) d))) (@fsub Num64 f1 (@fmul Num64 (@fmul Num64 r r) d))).
  Proof.
    intros HR HD. apply U_div.
    - apply U_mul; [apply I_U; exact HR|]. apply one_plus_J. apply J_mul; [apply one_less_two; exact HR|apply I_J; exact HD].
    - apply I_U, I_one_minus. apply I_mul; [apply I_mul; exact HR|exact HD].
  Qed.
  Lemma through_U (r d : b64) : I1 r -> I1 d -> U (@fdiv Num64 (@fsq Num64 (@fsub Num64 f1 r)) (@fsub Num64 f1 (@fmul Num64 (@fmul Num64 d r) (@fmul Num64 d r)))).
  Proof.
    intros HR HD. apply U_div; [apply sq_U|]. apply I_U, I_one_minus. apply I_mul; apply I_mul; assumption.
  Qed.
  Lemma pow2_I (a : @Spectrum Num64) : each I1 a -> each I1 (spow2 a). Proof. intros (A & B & C). repeat split; apply I_mul; assumption. Qed.
  Lemma add_zero (a x : b64) : U x -> Bplus mode_NE a x <> B754_zero true.
  Proof.
    intros HX E0. destruct (is_finite a) eqn:FA; [destruct (is_finite x) eqn:FX|].
    - pose proof (Bplus_correct 53 1024 Hprec Hmax mode_NE a x FA FX) as C. cbn [round_mode] in C. destruct (Rlt_bool _ _).
      + destruct C as (C1 & _ & C3). rewrite E0 in C1, C3. cbn [B2R Bsign] in C1, C3. destruct (Rcompare_spec (B2R a + B2R x) 0) as [H|H|H]; [| |discriminate].
        * assert (NZ : rnd64 (B2R a + B2R x) <> 0); [|congruence]. pose proof (generic_format_B2R 53 1024 a) as GA. pose proof (generic_format_B2R 53 1024 x) as GX.
          change fexp64 with (FLT_exp (3 - 1024 - 53) 53) in GA, GX |- *. apply Plus_error.round_plus_neq_0; [apply FLT_exp_valid; exact Hprec|apply monotone_exp_not_FTZ; [apply FLT_exp_valid; exact Hprec|apply FLT_exp_monotone]|apply valid_rnd_N|exact GA|exact GX|lra].
        * unfold U in HX. rewrite HX, Bool.andb_false_r in C3. discriminate.
      + destruct C as [C _]. apply overflow_sign in C. rewrite C in E0. discriminate.
    - destruct x as [t|t| |t n d K]; try discriminate; destruct a as [s|s| |s m e H]; try discriminate; cbn in E0; try discriminate.
    - destruct a as [s|s| |s m e H]; try discriminate; destruct x as [t|t| |t n d K]; cbn in E0; try discriminate. destruct (Bool.eqb _ _); discriminate.
  Qed.
  Lemma glass_weights_U c (ri : b64) n d (c1 : b64) re tr : each I1 c -> U ri -> glass_refl_trans c ri n d c1 = (re, tr) -> UU re /\ UU tr.
  Proof.
    intros HC HR. unfold glass_refl_trans. cbv zeta. set (any := fst (any_transmission c)). clearbody any.
    set (p := @fabs Num64 (vdot n d)). assert (PU : U p) by apply U_abs. clearbody p.
    set (c2 := @fsqrt Num64 _). assert (CU : U c2) by (apply U_sqrt; apply add_zero; apply sq_U). clearbody c2.
    set (r1e := @fsq Num64 (@fdiv Num64 (@fsub Num64 p _) _)). assert (RE : I1 r1e) by (apply J_square; apply J_ratio; [exact PU|apply U_mul; assumption]). clearbody r1e.
    set (r1m := @fsq Num64 (@fdiv Num64 (@fsub Num64 (@fdiv Num64 f1 p) _) _)). assert (RM : I1 r1m) by (apply J_square; apply J_ratio; [apply U_div; [exact f1_U|exact PU]|apply U_div; assumption]). clearbody r1m.
    set (dd := if any then _ else c). assert (DI : each I1 dd).
    { unfold dd. destruct any; [|exact HC]. destruct HC as (A & B & C). pose proof (U_div _ _ f1_U CU) as PU'. repeat split; (apply pow_I; [assumption|exact PU']). }
    clearbody dd. intros H. apply pair_of in H as [-> ->]. split.
    - apply UU_fsmul; [|apply lit_U; lia]. pose proof (pow2_I dd DI) as (A & B & C). apply UU_add; repeat split; apply part_U; assumption.
    - destruct any; [|exact UU_black]. apply UU_mul.
      + apply UU_mulf; [eapply each_impl; [exact I_U|exact DI]|apply lit_U; lia].
      + destruct DI as (A & B & C). apply UU_add; repeat split; apply through_U; assumption.
  Qed.
  Lemma mirror_weights c n p (r : @Ray Num64) p1 p2 : U (r_refraction_index r) -> mirror_paths c n p r = (p1, p2) ->
    forall q v, p1 = Some (q, v) \/ p2 = Some (q, v) -> U (r_refraction_index q) /\ UU v.
  Proof.
    intros HN. unfold mirror_paths, mirror_bsdf. cbv zeta. intros H q v [Q|Q]; rewrite Q in H; [|destruct (no_second_path _ _ _ _ H)]. apply first_path in H as [-> ->]. split; [exact HN|].
    apply UU_mulf; [|apply U_abs]. apply UU_mulf; [exact UU_one|]. apply U_div; [exact f1_U|apply U_abs].
  Qed.
  Lemma proper_paths m n p (r : @Ray Num64) p1 p2 : proper m -> U (r_refraction_index r) -> get_possible_paths m n p r = Ret (p1, p2) ->
    forall q v, p1 = Some (q, v) \/ p2 = Some (q, v) -> U (r_refraction_index q) /\ UU v.
  Proof.
    intros HM HN HP. destruct m as [k sp ro|k sp ro|k|k|k ri|k ri]; cbn [get_possible_paths] in HP; try discriminate;
      apply (f_equal (fun o => match o with Ret x => x | _ => (p1, p2) end)) in HP; cbv beta iota in HP.
    - eapply mirror_weights; eassumption.
    - destruct HM as [HC HI]. eapply dielectric_weights; [eapply each_impl; [|exact HC]; intros x; apply nn_U|apply nn_U; exact HI|exact HN|exact HP].
    - destruct HM as [HC HI]. unfold glass_paths in HP. cbv zeta in HP. destruct (cos_and_n _ _ _ _) as [[[n1 c1] n2] o]. destruct (glass_refl_trans _ _ _ _ _) as [re tr] eqn:GW.
      assert (HC' : each I1 k) by (eapply each_impl; [|exact HC]; intros x; apply fraction_I). apply nn_U in HI.
      destruct (glass_weights_U _ _ _ _ _ _ _ HC' HI GW) as [W1 W2]. intros q v [Q|Q]; rewrite Q in HP.
      + apply first_path in HP as [-> ->]. split; [exact HN|exact W1].
      + destruct (fltb _ _); [|destruct (no_second_path _ _ _ _ HP)]. apply second_path in HP as [-> ->]. split; [exact HN|exact W2].
  Qed.

  (** ** matte and glossy surfaces *)
  Lemma rough_U (a : b64) : U (@rough Num64 a).
  Proof.
    unfold rough. destruct (fltb _ _) eqn:L; [apply lit_U; lia|]. refine (not_below_U _ _ _ _ L).
    - unfold LOW_ROUGHNESS. cbn [flit Num64]. pose proof (B2SF_SF2B 53 1024 _ (lit_valid 1 1000)) as Q. revert Q. generalize (SF2B _ (lit_valid 1 1000)). intros b Q.
      rewrite <- is_finite_SF_B2SF, Q. vm_compute. reflexivity.
    - unfold LOW_ROUGHNESS. cbn [flit Num64]. rewrite B2R_SF2B. unfold SF2R. replace (sf_lit 1 1000) with (S754_finite false 4611686018427388 (-62)) by (vm_compute; reflexivity).
      apply F2R_gt_0. reflexivity.
  Qed.
  Lemma ward_U n e1 e2 (sp a b : b64) i l (x y : b64) : I1 sp -> @evaluate_ward Num64 T n e1 e2 sp a b i l = (x, y) -> U x /\ U y.
  Proof.
    intros HS. unfold evaluate_ward. cbv zeta.
    assert (D : U (@fdiv Num64 (@fsub Num64 f1 sp) fpi)) by (apply U_div; [apply I_U, I_one_minus; exact HS|exact pi_U]). assert (Z0 : U (@f0 Num64)) by (apply lit_U; lia).
    destruct (@fltb Num64 _ sp); [|intros H; apply pair_of in H as [-> ->]; split; assumption]. destruct (fltb _ _); [intros H; apply pair_of in H as [-> ->]; split; exact Z0|].
    intros H. apply pair_of in H as [-> ->]. split; [|exact D]. apply U_mul; [|apply exp_U]. apply U_div.
    - apply U_mul; [apply I_U; exact HS|]. unfold vdot. apply U_add; [apply U_add|]; apply sq_U.
    - apply U_mul; [|apply sq_U]. apply U_mul; [|apply rough_U]. apply U_mul; [exact pi_U|apply rough_U].
  Qed.
  Lemma proper_eval m n e1 e2 r v b : proper m -> matte_or_glossy m -> @eval_bsdf Num64 T is_parallel is_same_direction m n e1 e2 r v = Ret b -> UU b.
  Proof.
    intros HM HG. destruct HG as [(k & sp & ro & ->)|(k & sp & ro & ->)]; cbn [eval_bsdf]; destruct (evaluate_ward _ _ _ _ _ _ _ _) as [x y] eqn:EW;
      destruct HM as [HC HS]; apply fraction_I in HS; destruct (ward_U _ _ _ _ _ _ _ _ _ _ HS EW) as [UX UY]; intros H; injection H as <-;
      assert (HC' : UU k) by (eapply each_impl; [|exact HC]; intros z; apply nn_U).
    - apply UU_add; [apply UU_gray; exact UX|apply UU_mulf; assumption].
    - apply UU_add; apply UU_mulf; assumption.
  Qed.
  Lemma loop_U n e1 e2 (sp al be : b64) r draws (x y w : b64) r' : I1 sp -> @ward_loop Num64 T n e1 e2 sp al be r draws = Ret (x, y, w, r') ->
    U x /\ U y /\ r_refraction_index r' = r_refraction_index r.
  Proof.
    intros HS H. pose proof (ward_loop_keeps _ _ _ _ _ _ _ _ _ _ _ _ H) as (_ & _ & K & _). split; [|split; [|exact K]]; clear K; revert H;
      (induction draws as [|[x1 x2] draws IH]; cbn [ward_loop]; [discriminate|]; cbv zeta; destruct (orb _ _); [|exact IH]; destruct (evaluate_ward _ _ _ _ _ _ _ _) as [sp' di] eqn:EW;
       destruct (ward_U _ _ _ _ _ _ _ _ _ _ HS EW) as [A B]; destruct (negb _); [discriminate|]; intros H; apply ret_4 in H as (-> & -> & _ & _); assumption).
  Qed.
  Lemma sampled_U m n e1 e2 p r w b (pdf : b64) r' : proper m -> matte_or_glossy m -> @sample_bsdf Num64 T m n e1 e2 p r w = Ret (b, pdf, r') ->
    UU b /\ r_refraction_index r' = r_refraction_index r.
  Proof.
    intros HM HG. assert (W : forall (sp ro : b64) x y q r1, I1 sp -> @sample_ward Num64 T n e1 e2 p sp ro ro r w = Ret (x, y, q, r1) -> U x /\ U y /\ r_refraction_index r1 = r_refraction_index r).
    { intros sp ro x y q r1 HS. unfold sample_ward. cbv zeta. destruct (fltb _ _).
      - intros H. apply (loop_U _ _ _ _ _ _ _ _ _ _ _ _ HS) in H. exact H.
      - intros H. apply ret_4 in H as (-> & -> & _ & ->). split; [apply lit_U; lia|]. split; [|reflexivity]. apply U_div; [apply I_U, I_one_minus; exact HS|exact pi_U]. }
    destruct HG as [(k & sp & ro & ->)|(k & sp & ro & ->)]; cbn [sample_bsdf]; destruct (sample_ward _ _ _ _ _ _ _ _ _) as [[[[x y] q] r1]| |] eqn:SW; cbn [obind]; try discriminate;
      destruct HM as [HC HS]; apply fraction_I in HS; destruct (W _ _ _ _ _ _ HS SW) as (UX & UY & K); intros H; apply ret_3 in H as (-> & _ & ->); (split; [|exact K]);
      assert (HC' : UU k) by (eapply each_impl; [|exact HC]; intros z; apply nn_U).
    - apply UU_add; [apply UU_gray; exact UX|apply UU_mulf; assumption].
    - apply UU_add; apply UU_mulf; assumption.
  Qed.

  (** ** what a ray brings *)
  Variables (fuel : nat) (c : @Tracer Num64) (s : @Scene Num64).
  Hypothesis Hmats : Forall proper (sc_materials s).
  Hypothesis Hsky : forall sky d, sc_sky s = Some sky -> not_negative (sky d).
  Hypothesis Htint : each not_negative (sky_tint s).
  Definition densities_not_negative : Prop := forall m r g bsdf pdf r' g', In m (sc_materials s) ->
    scatters_with m (specularity_of m) (normal_of r) (i_dpdu (x_shading (r_interaction r))) (i_dpdv (x_shading (r_interaction r))) (point_of r) r g bsdf pdf r' g' -> not_negative pdf.
  Hypothesis Hamb : (max_depth c = 0 \/ n_ambient_samples c = 0)%nat \/ densities_not_negative.

  Lemma proper_colour m : proper m -> UU (mat_colour m).
  Proof.
    intros HM. assert (W : forall k, each not_negative k -> UU k) by (intros k; apply each_impl; intros x; apply nn_U).
    destruct m as [k sp ro|k sp ro|k|k|k ri|k ri]; cbn [mat_colour]; try (apply W; first [exact HM|exact (proj1 HM)]).
    destruct HM as [(A & B & C) _]. unfold glass_colour, any_transmission. apply fraction_I, I_U in A, B, C. destruct (fltb _ _); cbn [snd]; [repeat split; assumption|].
    assert (K : forall x : @F Num64, U x -> U (if @fltb Num64 x (@MIN_COLOUR Num64) then @MIN_COLOUR Num64 else x)) by (intros x HX; destruct (fltb _ _); [apply lit_U; lia|exact HX]).
    repeat split; apply K; assumption.
  Qed.
  Lemma facing_proper r1 i m : facing s r1 i m -> In m (sc_materials s) /\ proper m.
  Proof. intros (k & H & _). apply nth_error_In in H. split; [exact H|]. rewrite Forall_forall in Hmats. apply Hmats. exact H. Qed.
  Lemma lamp_U light ray nodes colour (pdf : b64) nodes' : intersect_light fuel s light ray nodes = Ret (Some (colour, pdf), nodes') -> UU colour.
  Proof.
    unfold intersect_light. destruct (prim_intersect _ _) as [info|]; [|discriminate]. cbv zeta.
    destruct (scene_unobstructed_distance _ _ _ _ _) as [[clear nd]| |]; cbn [obind]; try discriminate.
    destruct clear; cbn [negb]; [|intros H; apply ret_lamp in H as ->; exact UU_black].
    destruct (match i_side info with Front => _ | Back => _ | NonApplicable => _ end) as [k|]; [|intros H; apply ret_lamp in H as ->; exact UU_black].
    destruct (nth_error (sc_materials s) k) as [m|] eqn:Em; cbn [ret_opt obind]; [|discriminate].
    destruct (solid_angle_pdf _ _ _); cbn [obind]; try discriminate. intros H. apply ret_lamp in H as ->.
    rewrite Forall_forall in Hmats. apply proper_colour, Hmats. eapply nth_error_In. exact Em.
  Qed.
  Definition seen_U (x : option (@Spectrum Num64)) : Prop := match x with Some v => UU v | None => True end.
  Lemma tiny_pos : is_finite (@flit Num64 1 (10 ^ 18)) = true /\ 0 < B2R (@flit Num64 1 (10 ^ 18)).
  Proof.
    cbn [flit Num64]. split.
    - rewrite <- is_finite_SF_B2SF, B2SF_SF2B. vm_compute. reflexivity.
    - rewrite B2R_SF2B. assert (Q : exists m e, sf_lit 1 (10 ^ 18) = S754_finite false m e) by (eexists _, _; vm_compute; reflexivity). destruct Q as (m & e & ->). apply F2R_gt_0. reflexivity.
  Qed.
  Lemma lit_by_U m r p n e1 e2 N light j g xs g' : proper m -> matte_or_glossy m -> lit_by fuel s m r p n e1 e2 N light j g xs g' -> Forall seen_U xs.
  Proof.
    intros HM HG. induction 1 as [|j g dir g1 nodes nodes' xs g' _ _ _ IH|j g dir g1 nodes nodes' colour pdf xs g' _ _ _ _ IH|j g dir g1 nodes nodes' colour pdf bsdf xs g' _ HI HTi HB _ IH];
      [constructor|exact IH|constructor; [exact I|exact IH]|].
    constructor; [|exact IH]. cbn [seen_U]. destruct tiny_pos as [T1 T2]. pose proof (not_below_U _ _ T1 T2 HTi) as UP.
    apply UU_divf; [|apply U_mul; [apply count_U|exact UP]]. apply UU_mul; [|eapply proper_eval; eassumption]. apply UU_mulf; [eapply lamp_U; exact HI|apply U_abs].
  Qed.
  Lemma lit_all_U m r p n e1 e2 N ls g xs g' : proper m -> matte_or_glossy m -> lit_by_all fuel s m r p n e1 e2 N ls g xs g' -> Forall seen_U xs.
  Proof. intros HM HG. induction 1; [constructor|]. apply Forall_app. split; [eapply lit_by_U; eassumption|assumption]. Qed.
  Lemma samples_U xs : forall a, Forall seen_U xs -> UU a -> UU (fold_left add_sample xs a).
  Proof. induction xs as [|[x|] xs IH]; intros a HF Ha; [exact Ha| |]; inversion_clear HF; cbn [fold_left]; (apply IH; [assumption|]); cbn [add_sample]; [|exact Ha]. apply UU_add; assumption. Qed.
  Lemma direct_U m r N g li g' : proper m -> matte_or_glossy m -> lit_directly fuel s m r N g li g' -> UU li.
  Proof. intros HM HG (near & g1 & far & H1 & H2 & ->). apply UU_add; (apply samples_U; [eapply lit_all_U; eassumption|exact UU_black]). Qed.
  Lemma scatters_U m r n e1 e2 p g b (pdf : b64) r' g' : proper m -> matte_or_glossy m -> scatters_with m (specularity_of m) n e1 e2 p r g b pdf r' g' ->
    UU b /\ r_refraction_index r' = r_refraction_index r.
  Proof.
    intros HM HG [(_ & _ & H)|(_ & k & _ & H)]; [eapply sampled_U; eassumption|]. destruct (H (f0, f0)) as [_ H']. eapply sampled_U; eassumption.
  Qed.
  Lemma meets_index r i r1 : meets fuel s r i r1 -> r_refraction_index r1 = r_refraction_index r.
  Proof. intros (z & aux & aux' & H & _). apply cast_keeps in H. exact (proj1 (proj2 H)). Qed.
  Lemma counted_index (r r3 : @Ray Num64) (q : b64) n : get_n_ambient_samples r (n_ambient_samples c) (max_depth c) (limit_weight c) q = (n, r3) ->
    r_refraction_index r3 = r_refraction_index r /\ ((max_depth c = 0 \/ n_ambient_samples c = 0)%nat -> n = 0%nat).
  Proof.
    unfold get_n_ambient_samples. intros H. assert (K : r_refraction_index r3 = r_refraction_index r).
    { revert H. repeat match goal with |- context [if ?b then _ else _] => destruct b end; intros H; apply pair_of in H as [_ ->]; reflexivity. }
    split; [exact K|]. intros [Z|Z]; rewrite Z in H; cbn [Nat.eqb orb] in H; [|rewrite Bool.orb_true_r in H]; apply pair_of in H as [-> _]; reflexivity.
  Qed.

  Notation index_U r := (U (r_refraction_index r)).
  Lemma draws_U :
    (forall r g li pdf g', sees_with fuel c s r g li pdf g' -> index_U r -> UU li) /\
    (forall p g xs g', brings_with fuel c s p g xs g' -> (forall q v, p = Some (q, v) -> index_U q /\ UU v) -> Forall UU xs) /\
    (forall m r k g xs g', ambient_with fuel c s m r k g xs g' -> index_U r -> In m (sc_materials s) -> matte_or_glossy m -> (k = 0%nat \/ densities_not_negative) -> Forall UU xs).
  Proof.
    apply (draws_mind Num64 T E RG GO fuel c s
      (fun r g li pdf g' => index_U r -> UU li)
      (fun p g xs g' => (forall q v, p = Some (q, v) -> index_U q /\ UU v) -> Forall UU xs)
      (fun m r k g xs g' => index_U r -> In m (sc_materials s) -> matte_or_glossy m -> (k = 0%nat \/ densities_not_negative) -> Forall UU xs)).
    - intros. exact UU_black.
    - intros r g sky _ HS _. apply UU_mulf; [|apply nn_U; exact (Hsky sky _ HS)]. eapply each_impl; [|exact Htint]. intros x. apply nn_U.
    - intros. exact UU_black.
    - intros r g i r1 col t _ HF _ _. exact (proper_colour _ (proj2 (facing_proper _ _ _ HF))).
    - intros. exact UU_black.
    - intros r g i r1 r2 m p1 p2 xs1 g1 xs2 g' HM HF HR _ (nn & _ & HS) HP _ B1 _ B2 Hr.
      assert (Hr2 : index_U r2) by (rewrite HS; cbn; rewrite (meets_index _ _ _ HM); exact Hr).
      assert (K := proper_paths m _ _ r2 p1 p2 (proj2 (facing_proper _ _ _ HF)) Hr2 HP).
      apply UU_fold; [|exact UU_black]. apply Forall_app. split; [apply B1|apply B2]; intros q v Q; apply (K q v); [left|right]; exact Q.
    - intros r g i r1 r2 r3 m n q g1 direct g2 xs g' HM HF HG _ (nn & _ & HS) _ HN HD _ IH Hr.
      assert (Hr2 : index_U r2) by (rewrite HS; cbn; rewrite (meets_index _ _ _ HM); exact Hr). destruct (facing_proper _ _ _ HF) as [Hin HPm]. destruct (counted_index _ _ _ _ HN) as [K1 K2].
      apply UU_add; [eapply direct_U; eassumption|]. apply UU_average. apply IH; [rewrite K1; exact Hr2|exact Hin|exact HG|]. destruct Hamb as [Z|D]; [left; apply K2; exact Z|right; exact D].
    - constructor.
    - intros q v g l pdf g' _ IH HQ. destruct (HQ q v eq_refl) as [Hq Hv]. constructor; [|constructor]. apply UU_mul; [|exact Hv]. apply IH. destruct (fltb _ _); exact Hq.
    - constructor.
    - intros m r k g bsdf pdf r' g1 l lp g2 xs g' HS cosine H1 H2 H3 H4 IH Hr Hin HG [Z|D]; [discriminate|]. apply IH; auto.
    - intros m r k g bsdf pdf r' g1 l lp g2 xs g' HS cosine _ IHs _ _ IH Hr Hin HG [Z|D]; [discriminate|].
      assert (HPm : proper m) by (rewrite Forall_forall in Hmats; apply Hmats; exact Hin). destruct (scatters_U _ _ _ _ _ _ _ _ _ _ _ HPm HG HS) as [UB K].
      constructor; [|apply IH; auto]. apply UU_divf; [|apply nn_U; eapply D; eassumption]. apply UU_mulf; [|apply U_abs]. apply UU_mul; [|exact UB]. apply IHs. cbn. rewrite K. exact Hr.
  Qed.
End Light.

(** ** C71 *)
(** No ray brings negative light, whatever its origin and direction (NaN and infinite ones included), the geometry, the box test and
    the sort, the state of the generator and of the buffers and the settings: every channel is non-negative or NaN.  The materials and
    the sky must not be negative themselves; and the ambient samples, if there are any, must have been drawn with a density that is
    not negative *)
Theorem C71_rays_binary64_partial : forall (T : Trig Num64) (E : @Ext Num64) (RG : Gen Num64) (GO : @Geo Num64) (s : @Scene Num64) (c : @Tracer Num64) nest fuel (r : @Ray Num64) aux g li pdf r' aux' g',
  plausible T -> Forall proper (sc_materials s) -> (forall sky d, sc_sky s = Some sky -> not_negative (sky d)) -> each not_negative (sky_tint s) ->
  (max_depth c = 0 \/ n_ambient_samples c = 0)%nat \/ densities_not_negative s ->
  not_negative (r_refraction_index r) ->
  trace_ray nest fuel c s r aux g = Ret (li, pdf, r', aux', g') -> each not_negative li.
Proof.
  intros T E RG GO s c nest fuel r aux g li pdf r' aux' g' HT HM HS HTi HA Hr H. apply C70_draws in H. apply nn_U in Hr.
  eapply each_impl; [intros x; apply nn_U|]. exact (proj1 (draws_U HT fuel c s HM HS HTi HA) r g li pdf g' H Hr).
Qed.
Print Assumptions C71_rays_binary64_partial.

Lemma positions64 width height : (Z.of_nat (width * height) <= 2 ^ 53)%Z -> positions_ok Num64 width height.
Proof.
  intros H i Hi. rewrite <- (C49_positions_binary64 width height H i Hi). unfold pixel_position. cbn [ftrunc fdiv fofZ Num64 NumSF].
  rewrite <- div_equiv, <- !normalize_equiv. reflexivity.
Qed.
(** ... and no picture has a negative pixel *)
Theorem C71_pictures_binary64_partial : forall (T : Trig Num64) (E : @Ext Num64) (RG : Gen Num64) (GO : @Geo Num64) (s : @Scene Num64) (c : @Tracer Num64) v f (seed : nat -> G) schedule st nest fuel,
  plausible T -> Forall proper (sc_materials s) -> (forall sky d, sc_sky s = Some sky -> not_negative (sky d)) -> each not_negative (sky_tint s) ->
  (max_depth c = 0 \/ n_ambient_samples c = 0)%nat \/ densities_not_negative s ->
  (Z.of_nat (film_width f * film_height f) <= 2 ^ 53)%Z ->
  render_steps nest fuel c s (film_width f) (gen_ray (pinhole_new v f)) schedule (render_start (film_width f) (film_height f) seed) = Ret st -> render_done st ->
  Forall (each not_negative) (rd_pixels st).
Proof.
  intros T E RG GO s c v f seed schedule st nest fuel HT HM HS HTi HA HZ HR HD.
  apply (picture_all _ nest fuel c s _ _ _ seed schedule st (positions64 _ _ HZ) HR HD).
  intros i g x pdf r' aux' g' TR. refine (C71_rays_binary64_partial T E RG GO s c nest fuel _ _ g x pdf r' aux' g' HT HM HS HTi HA _ TR). apply nn_U. apply lit_U. lia.
Qed.
Print Assumptions C71_pictures_binary64_partial.

(** ** the hypotheses can be met *)
Definition nan64 : b64 := B754_nan.
Definition inf64 : b64 := B754_infinity false.
Example C20_any_hyp : not_negative inf64 /\ not_negative (@f0 Num64) /\ not_negative nan64 /\ not_negative half_b /\ ~ not_negative (@fneg Num64 half_b).
Proof. split; [reflexivity|]. split; [apply nn_U; apply lit_U; lia|]. split; [exact I|]. split; [reflexivity|]. cbn. discriminate. Qed.

(* (a stand-in for the C library, sufficient for the example) *)
Definition some_trig : Trig Num64 := @Build_Trig Num64 (@flit Num64 355 113) (fun x => x) (fun x => x) (fun x => x) (fun x => x) (fun x => @fmul Num64 x x) (fun x => x) (fun x _ => x).
Definition gray64 (x : b64) : @Spectrum Num64 := @gray Num64 x.
(** one material of each kind, one of infinite brightness and one with a NaN *)
Definition palette : list (@Material Num64) :=
  [Plastic (gray64 half_b) half_b half_b; Metal (gray64 two_b) half_b half_b; Light (gray64 inf64); Mirror (gray64 nan64);
   Dielectric (gray64 half_b) two_b; Glass (gray64 half_b) two_b].
Definition sky_scene : @Scene Num64 :=
  mkScene (mkArr [] [] [] []) palette [] [] (Some []) None (Some (fun d => @fabs Num64 (vz d))).
Definition no_ambient : @Tracer Num64 := mkTracer 5 3 0 (@flit Num64 1 1000) (@flit Num64 3 10).
Definition lost_ray : @Ray Num64 := let d := @ray_default Num64 in mkRay (mkRay3D (@V3 Num64 nan64 inf64 half_b) (@V3 Num64 nan64 half_b (@fneg Num64 two_b))) half_b (r_interaction d) 0 half_b (r_colour d).
Example C71_binary64_hyp : forall (E : @Ext Num64) (RG : Gen Num64) (GO : @Geo Num64) (g : G),
  plausible some_trig /\ Forall proper (sc_materials sky_scene) /\ (forall sky d, sc_sky sky_scene = Some sky -> not_negative (sky d)) /\ each not_negative (sky_tint sky_scene) /\
  not_negative (r_refraction_index lost_ray) /\
  exists li pdf r' aux', trace_ray (T := some_trig) 1 1 no_ambient sky_scene lost_ray (mkHelper [] []) g = Ret (li, pdf, r', aux', g) /\
    li = smulf (sky_tint sky_scene) (@fabs Num64 (@fneg Num64 two_b)).
Proof.
  intros E RG GO g. split.
  { split; [apply nn_U; apply lit_U; lia|]. split; [intros x; apply nn_U; apply sq_U|]. intros x p H _. exact H. }
  assert (VH : B2R half_b <= 1) by (unfold half_b; cbn [B2R cond_Zopp]; unfold F2R; cbn [Fnum Fexp]; cbn; lra).
  assert (H : fraction half_b) by (right; split; [reflexivity|split; [reflexivity|exact VH]]).
  split.
  { assert (GR : forall (P : b64 -> Prop) (x : b64), P x -> each P (gray64 x)) by (intros P x K; repeat split; exact K).
    repeat apply Forall_cons; try apply Forall_nil; cbn [proper]; repeat match goal with |- _ /\ _ => split | |- each _ (gray64 _) => apply GR end;
      try exact H; try reflexivity; exact I. }
  split. { intros sky d Q. injection Q as <-. apply nn_U. apply U_abs. }
  split. { apply (each_impl U); [intros x; apply nn_U|]. unfold sky_tint, sky_scene. cbn [sc_sky_colour]. apply UU_gray, lit_U. lia. }
  split; [reflexivity|].
  do 4 eexists. split; [cbn [trace_ray]; unfold cast_ray; cbn [sc_accelerator sky_scene]; unfold intersect; cbn; reflexivity|reflexivity].
Qed.
