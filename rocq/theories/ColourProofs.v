(** * Proofs about Spectrum arithmetic (real-number semantics). *)
From Coq Require Import SpecFloat.
From Verif Require Import NumR NumSF Colour SpecColour.
Open Scope R_scope.


Lemma spec_ext (a b : SpecR) : @eq R (sr a) (sr b) -> @eq R (sg a) (sg b) -> @eq R (sb a) (sb b) -> a = b.
Proof. destruct a, b; cbn; intros -> -> ->; reflexivity. Qed.

Ltac dspec := repeat match goal with s : @Spectrum NumR |- _ =>
  let r := fresh s "_r" in let g := fresh s "_g" in let b := fresh s "_b" in destruct s as [r g b] end.
Ltac spec_tac :=
  dspec;
  unfold sadd, ssub, smul, sdiv, saddf, ssubf, smulf, sdivf, fsadd, fssub, fsmul, fsdiv, smap, smap2, gray, ONE, BLACK,
    luminance, normalize, radiance, WHITE_EFFICACY in *; unfold radiance in *;
  cbn [sr sg sb] in *; rsimp.

Lemma algebra (a b c : SpecR) (x y : R) :
  sadd a b = sadd b a /\ sadd a (sadd b c) = sadd (sadd a b) c /\ sadd a BLACK = a /\
  ssub (sadd a b) b = a /\
  smul a b = smul b a /\ smul a (smul b c) = smul (smul a b) c /\ smul a ONE = a /\ smul a BLACK = BLACK /\
  smul a (sadd b c) = sadd (smul a b) (smul a c) /\
  smulf (sadd a b) x = sadd (smulf a x) (smulf b x) /\ smulf a (x + y) = sadd (smulf a x) (smulf a y) /\
  smulf (smulf a x) y = smulf a (x * y) /\ smulf a x = smul a (gray x) /\ fsmul x a = smulf a x /\
  (x <> 0 -> sdivf (smulf a x) x = a).
Proof.
  repeat split; try intro; apply spec_ext; spec_tac; try field; try assumption; try lra.
Qed.

Lemma radiance_value (a : SpecR) : radiance a = 265/1000 * sr a + 67/100 * sg a + 65/1000 * sb a.
Proof. spec_tac. lra. Qed.

Lemma radiance_linear (a b : SpecR) (x y : R) :
  radiance (sadd (smulf a x) (smulf b y)) = x * radiance a + y * radiance b /\
  luminance (sadd (smulf a x) (smulf b y)) = x * luminance a + y * luminance b /\
  luminance a = 179 * radiance a /\ radiance (gray x) = x.
Proof. repeat split; spec_tac; lra. Qed.

Lemma radiance_monotone (a b : SpecR) :
  sr a <= sr b -> sg a <= sg b -> sb a <= sb b -> radiance a <= radiance b /\ luminance a <= luminance b.
Proof. intros; spec_tac; split; lra. Qed.

Lemma normalize_spec (a : SpecR) : radiance a <> 0 ->
  radiance (normalize a) = 1 /\ smulf (normalize a) (radiance a) = a.
Proof.
  intros H. split.
  - rewrite radiance_value. pose proof (radiance_value a) as E. unfold normalize, sdivf, smap.
    cbn [sr sg sb]. rsimp.
    replace (265/1000 * (sr a / radiance a) + 67/100 * (sg a / radiance a) + 65/1000 * (sb a / radiance a))
      with ((265/1000 * sr a + 67/100 * sg a + 65/1000 * sb a) / radiance a) by (field; assumption).
    rewrite <- E. field; assumption.
  - apply spec_ext; unfold normalize, sdivf, smulf, smap; cbn [sr sg sb]; rsimp; field; assumption.
Qed.

Lemma smax_spec (a : SpecR) :
  (smax a = sr a \/ smax a = sg a \/ smax a = sb a) /\ sr a <= smax a /\ sg a <= smax a /\ sb a <= smax a.
Proof. dspec; unfold smax; cbv zeta; cbn [sr sg sb]; rsimp; repeat rcase; repeat split; auto; lra. Qed.

Lemma tiny24_R : 1 / IZR (Zpos (10 ^ 24)) = / 10 ^ 24.
Proof.
  assert (E : IZR (Zpos (10 ^ 24)) = 10 ^ 24) by (rewrite pow_IZR; apply f_equal; reflexivity).
  rewrite E. unfold Rdiv. apply Rmult_1_l.
Qed.
Lemma tiny24_pos : 0 < / 10 ^ 24.
Proof. apply Rinv_0_lt_compat, pow_lt; lra. Qed.

Lemma is_black_spec (a : SpecR) :
  is_black a = true <-> sr a < / 10 ^ 24 /\ sg a < / 10 ^ 24 /\ sb a < / 10 ^ 24.
Proof.
  dspec; unfold is_black, tiny24; cbn [sr sg sb]; rsimp.
  rewrite tiny24_R. generalize (/ 10 ^ 24). intros c. repeat rcase;
    (split; [intros; try discriminate; repeat split; lra | intros (? & ? & ?); try reflexivity; exfalso; lra]).
Qed.

Lemma is_black_black : is_black (BLACK : SpecR) = true.
Proof.
  apply is_black_spec; unfold BLACK; cbn [sr sg sb]; rsimp. pose proof tiny24_pos as H.
  replace (0 / 1) with 0 by lra. auto.
Qed.

(** on spectra whose components are zero or at least 1e-24 the test is exact *)
Lemma is_black_exact (a : SpecR) :
  (forall v, v = sr a \/ v = sg a \/ v = sb a -> v = 0 \/ / 10 ^ 24 <= v) ->
  is_black a = true <-> a = BLACK.
Proof.
  intros H. pose proof tiny24_pos as Hp. dspec; cbn [sr sg sb] in *; rsimp. split.
  - intros Hb. apply is_black_spec in Hb. destruct Hb as (H1 & H2 & H3). cbn [sr sg sb] in *.
    generalize dependent (/ 10 ^ 24). intros c H Hp H1 H2 H3.
    assert (A : a_r = 0) by (destruct (H a_r); auto; lra).
    assert (B : a_g = 0) by (destruct (H a_g); auto; lra).
    assert (C : a_b = 0) by (destruct (H a_b); auto; lra).
    apply spec_ext; cbn [BLACK sr sg sb]; rsimp; lra.
  - intros ->. apply is_black_black.
Qed.

Lemma is_black_refuted_l :
  exists a : SpecR, is_black a = true /\ sr a = -1 /\ sg a = -2 /\ sb a = 0 /\ radiance a < -1.
Proof.
  exists (mkS (N := NumR) (-1) (-2) 0). repeat split; [apply is_black_spec; cbn [sr sg sb]; pose proof tiny24_pos;
    generalize dependent (/ 10 ^ 24); intros; repeat split; lra|].
  spec_tac; lra.
Qed.

Lemma is_black_nan_refuted_l :
  is_black (N := NumSF) (mkS (N := NumSF) S754_nan S754_nan S754_nan) = true.
Proof. vm_compute. reflexivity. Qed.
