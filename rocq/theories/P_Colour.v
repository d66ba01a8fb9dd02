(** * Properties C33, C34, C35 *)
From Coq Require Import SpecFloat.
From Verif Require Import NumR NumSF Colour Colourmap ColourTables SpecColour ColourProofs ColourmapProofs.
Open Scope R_scope.

(** ** C34 - Spectrum arithmetic is component-wise and radiometrically linear *)
Theorem C34_algebra : forall (a b c : SpecR) (x y : R),
  sadd a b = sadd b a /\ sadd a (sadd b c) = sadd (sadd a b) c /\ sadd a BLACK = a /\
  ssub (sadd a b) b = a /\
  smul a b = smul b a /\ smul a (smul b c) = smul (smul a b) c /\ smul a ONE = a /\ smul a BLACK = BLACK /\
  smul a (sadd b c) = sadd (smul a b) (smul a c) /\
  smulf (sadd a b) x = sadd (smulf a x) (smulf b x) /\ smulf a (x + y) = sadd (smulf a x) (smulf a y) /\
  smulf (smulf a x) y = smulf a (x * y) /\ smulf a x = smul a (gray x) /\ fsmul x a = smulf a x /\
  (x <> 0 -> sdivf (smulf a x) x = a).
Proof. exact algebra. Qed.
Print Assumptions C34_algebra.

(** every operator, with its operands in every order, in every arithmetic: each channel separately *)
Theorem C34_componentwise : forall (N : Num) (a b : @Spectrum N) (x : F),
  sadd a b = mkS (fadd (sr a) (sr b)) (fadd (sg a) (sg b)) (fadd (sb a) (sb b)) /\
  ssub a b = mkS (fsub (sr a) (sr b)) (fsub (sg a) (sg b)) (fsub (sb a) (sb b)) /\
  smul a b = mkS (fmul (sr a) (sr b)) (fmul (sg a) (sg b)) (fmul (sb a) (sb b)) /\
  sdiv a b = mkS (fdiv (sr a) (sr b)) (fdiv (sg a) (sg b)) (fdiv (sb a) (sb b)) /\
  saddf a x = mkS (fadd (sr a) x) (fadd (sg a) x) (fadd (sb a) x) /\
  ssubf a x = mkS (fsub (sr a) x) (fsub (sg a) x) (fsub (sb a) x) /\
  smulf a x = mkS (fmul (sr a) x) (fmul (sg a) x) (fmul (sb a) x) /\
  sdivf a x = mkS (fdiv (sr a) x) (fdiv (sg a) x) (fdiv (sb a) x) /\
  fsadd x a = mkS (fadd x (sr a)) (fadd x (sg a)) (fadd x (sb a)) /\
  fssub x a = mkS (fsub x (sr a)) (fsub x (sg a)) (fsub x (sb a)) /\
  fsmul x a = mkS (fmul x (sr a)) (fmul x (sg a)) (fmul x (sb a)) /\
  fsdiv x a = mkS (fdiv x (sr a)) (fdiv x (sg a)) (fdiv x (sb a)).
Proof. intros. repeat split. Qed.
Print Assumptions C34_componentwise.
(** what follows for exact colours: adding or subtracting a number is adding or subtracting a grey, division undoes multiplication *)
Theorem C34_scalars : forall (a b : SpecR) (x : R),
  saddf a x = sadd a (gray x) /\ ssubf a x = ssub a (gray x) /\ sdivf a x = sdiv a (gray x) /\
  fsadd x a = saddf a x /\ fssub x a = ssub (gray x) a /\ fsdiv x a = sdiv (gray x) a /\
  ssubf (saddf a x) x = a /\ sadd (ssub a b) b = a /\
  (sr b <> 0 -> sg b <> 0 -> sb b <> 0 -> smul (sdiv a b) b = a /\ smul (fsdiv x b) b = gray x).
Proof.
  intros [ar ag ab] [br bg bb] x. cbn [sr sg sb].
  do 8 (split; [first [reflexivity | apply spec_ext; spec_tac; match goal with |- ?a = ?b => change (@eq R a b) end; first [reflexivity|ring]]|]).
  intros H1 H2 H3. split; apply spec_ext; spec_tac; match goal with |- ?a = ?b => change (@eq R a b) end; field; assumption.
Qed.
Print Assumptions C34_scalars.

Theorem C34_radiance_value : forall a : SpecR, radiance a = 265/1000 * sr a + 67/100 * sg a + 65/1000 * sb a.
Proof. exact radiance_value. Qed.
Print Assumptions C34_radiance_value.

Theorem C34_radiance_linear : forall (a b : SpecR) (x y : R),
  radiance (sadd (smulf a x) (smulf b y)) = x * radiance a + y * radiance b /\
  luminance (sadd (smulf a x) (smulf b y)) = x * luminance a + y * luminance b /\
  luminance a = 179 * radiance a /\ radiance (gray x) = x.
Proof. exact radiance_linear. Qed.
Print Assumptions C34_radiance_linear.

Theorem C34_radiance_monotone : forall a b : SpecR,
  sr a <= sr b -> sg a <= sg b -> sb a <= sb b -> radiance a <= radiance b /\ luminance a <= luminance b.
Proof. exact radiance_monotone. Qed.
Print Assumptions C34_radiance_monotone.
Example C34_radiance_monotone_hyp : let a := rgb 0 1 2 in let b := rgb 1 1 3 in
  sr a <= sr b /\ sg a <= sg b /\ sb a <= sb b.
Proof. cbn; lra. Qed.

Theorem C34_normalize : forall a : SpecR, radiance a <> 0 ->
  radiance (normalize a) = 1 /\ smulf (normalize a) (radiance a) = a.
Proof. exact normalize_spec. Qed.
Print Assumptions C34_normalize.
Example C34_normalize_hyp : radiance (rgb 1 2 3) <> 0.
Proof. rewrite radiance_value; cbn; lra. Qed.

Theorem C34_max : forall a : SpecR,
  (smax a = sr a \/ smax a = sg a \/ smax a = sb a) /\ sr a <= smax a /\ sg a <= smax a /\ sb a <= smax a.
Proof. exact smax_spec. Qed.
Print Assumptions C34_max.

(** ** C35 - is_black.  The full statement "true exactly for black" is false: *)
Theorem C35_is_black_refuted :
  exists a : SpecR, is_black a = true /\ sr a = -1 /\ sg a = -2 /\ sb a = 0 /\ radiance a < -1.
Proof. exact is_black_refuted_l. Qed.
Print Assumptions C35_is_black_refuted.

(** (in binary64 a NaN colour is black, too) *)
Theorem C35_is_black_nan_refuted :
  is_black (N := NumSF) (mkS (N := NumSF) S754_nan S754_nan S754_nan) = true.
Proof. exact is_black_nan_refuted_l. Qed.
Print Assumptions C35_is_black_nan_refuted.

(** What is true: the exact condition it tests ... *)
Theorem C35_is_black_condition : forall a : SpecR,
  is_black a = true <-> sr a < / 10 ^ 24 /\ sg a < / 10 ^ 24 /\ sb a < / 10 ^ 24.
Proof. exact is_black_spec. Qed.
Print Assumptions C35_is_black_condition.

(** ... hence exactness for physical spectra with channels 0 or at least 1e-24. *)
Theorem C35_is_black_partial : forall a : SpecR,
  (forall v, v = sr a \/ v = sg a \/ v = sb a -> v = 0 \/ / 10 ^ 24 <= v) ->
  is_black a = true <-> a = BLACK.
Proof. exact is_black_exact. Qed.
Print Assumptions C35_is_black_partial.
Example C35_is_black_partial_hyp : forall v, v = 0 \/ v = 1 \/ v = 2 -> v = 0 \/ / 10 ^ 24 <= v.
Proof.
  assert (/ 10 ^ 24 <= 1) by (apply Rle_trans with (/ 1); [|lra]; apply Rinv_le_contravar; [lra|apply pow_R1_Rle; lra]).
  intros v [->|[->| ->]]; [left; reflexivity|right; lra|right; lra].
Qed.

(** ** C33 - colour maps *)
(** the map is the polyline through the knots, on every closed segment (so it is continuous and
    hits entry i exactly at knot i) *)
Theorem C33_polyline : forall (x mn mx : R) (m : list SpecR) (k : nat) (a b : SpecR),
  mn < mx -> nth_error m k = Some a -> nth_error m (S k) = Some b ->
  knot mn mx (length m) k <= x <= knot mn mx (length m) (S k) ->
  map_linear_colour x mn mx m = Ok_ (lerp a b ((x - knot mn mx (length m) k) /
        (knot mn mx (length m) (S k) - knot mn mx (length m) k))).
Proof. exact map_polyline. Qed.
Print Assumptions C33_polyline.
Example C33_polyline_hyp :
  let m := [rgb 0 0 0; rgb 1 0 0; rgb 1 1 1] in
  0 < 4 /\ nth_error m 1 = Some (rgb 1 0 0) /\ nth_error m 2 = Some (rgb 1 1 1) /\
  knot 0 4 (length m) 1 <= 3 <= knot 0 4 (length m) 2.
Proof. unfold knot; cbn; repeat split; lra. Qed.

Theorem C33_saturates_low : forall (x mn mx : R) (m : list SpecR), m <> [] -> x <= mn ->
  map_linear_colour x mn mx m = of_opt (nth_error m 0).
Proof. exact map_low. Qed.
Print Assumptions C33_saturates_low.

Theorem C33_saturates_high : forall (x mn mx : R) (m : list SpecR), m <> [] -> mn < x -> mx <= x ->
  map_linear_colour x mn mx m = of_opt (nth_error m (length m - 1)).
Proof. exact map_high. Qed.
Print Assumptions C33_saturates_high.
Example C33_saturates_hyp : [rgb 0 0 0] <> [] /\ 0 < 5 /\ 4 <= 5.
Proof. repeat split; [discriminate|lra|lra]. Qed.

(** the five shipped scales: defined everywhere and inside [0,1], in exact arithmetic *)
Theorem C33_shipped_scales : forall (x mn mx : R) t, In t tables -> mn < mx ->
  exists c, map_linear_colour x mn mx (map rowN t) = Ok_ c /\ in_range 0 1 c.
Proof. exact shipped_scale_ok. Qed.
Print Assumptions C33_shipped_scales.
Example C33_shipped_scales_hyp : In viridis_table tables /\ 0 < 1.
Proof. split; [do 4 right; left; reflexivity|lra]. Qed.

(** any scale with at least two entries is total in exact arithmetic *)
Theorem C33_total_real_partial : forall (x mn mx : R) (m : list SpecR), (2 <= length m)%nat -> mn < mx ->
  exists c, map_linear_colour x mn mx m = Ok_ c.
Proof. exact map_total. Qed.
Print Assumptions C33_total_real_partial.
Example C33_total_real_hyp : (2 <= length [rgb 0 0 0; rgb 1 1 1])%nat /\ 0 < 1.
Proof. cbn; split; [lia|lra]. Qed.

(** "never panics" is false in binary64: a finite value strictly inside finite bounds reaches
    unreachable!() with every one of the five shipped scales ... *)
Theorem C33_never_panics_refuted :
  let mn := sf_lit 651 10 in let mx := sf_lit 4851 10 in let x := sf_pred mx in
  fltb (Num := NumSF) mn x = true /\ fltb (Num := NumSF) x mx = true /\
  forallb (fun t => match map_linear_colour (N := NumSF) x mn mx (map rowN t) with Panic => true | _ => false end) tables = true.
Proof. exact rounding_panics. Qed.
Print Assumptions C33_never_panics_refuted.

(** ... a NaN value panics for all bounds and scales ... *)
Theorem C33_nan_panics : forall (mn mx : @F NumSF) m, map_linear_colour (N := NumSF) S754_nan mn mx m = Panic.
Proof. exact nan_panics. Qed.
Print Assumptions C33_nan_panics.

(** ... and so does a one-entry scale strictly inside the bounds, in every arithmetic. *)
Theorem C33_singleton_panics : forall {N : Num} (x mn mx : F) (c : Spectrum),
  fleb x mn = false -> fleb mx x = false -> map_linear_colour x mn mx [c] = Panic.
Proof. exact @singleton_panics. Qed.
Print Assumptions C33_singleton_panics.
Example C33_singleton_hyp : fleb (Num := NumSF) (sf_lit 1 2) (sf_lit 0 1) = false /\ fleb (Num := NumSF) (sf_lit 1 1) (sf_lit 1 2) = false.
Proof. vm_compute. split; reflexivity. Qed.

(** the Spectrum and the array variants are the same function *)
Theorem C33_variants_agree : forall {N : Num} (x mn mx : F) (m : list Spectrum),
  map_linear_colour x mn mx m = map_linear_spectrum x mn mx m.
Proof. exact @colour_spectrum_agree. Qed.
Print Assumptions C33_variants_agree.
