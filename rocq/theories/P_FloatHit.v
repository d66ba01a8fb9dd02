(** * Property C95: the ray-triangle test in the program's own arithmetic (binary64, every operation rounded) *)
From Coq Require Import ZArith SpecFloat Reals Lra Lia Psatz.
From Flocq Require Import Core BinarySingleNaN Relative.
From Verif Require Import Num NumR NumSF SFBridge FloatOps FloatRound FloatError Geometry Triangle SpecGeom TriangleProofs.
#[local] Existing Instance Hprec.
#[local] Existing Instance Hmax.
#[local] Existing Instance valid64.
Open Scope R_scope.

(** ** the vocabulary of the statement: the exact numbers that the floats stand for *)
Notation VecF := (@Vec NumSF).
Notation TriF := (@Triangle NumSF).
Notation RayF := (@Ray3D NumSF).
Definition val_vec (v : VecF) : VecR := pt (val (vx v)) (val (vy v)) (val (vz v)).
Definition val_tri (t : TriF) : TriR := @mkTri NumR (val_vec (ta t)) (val_vec (tb t)) (val_vec (tc t)).
Definition val_ray (r : RayF) : RayR := @mkRay3D NumR (val_vec (origin r)) (val_vec (direction r)).
(** finite coordinates of magnitude at most L *)
Definition within (L : R) (v : VecF) : Prop := finite_upto L (vx v) /\ finite_upto L (vy v) /\ finite_upto L (vz v).
(** a triangle and a ray of a model no larger than L (one to 1024 units) in each direction from the origin; the direction is a
    unit vector up to rounding (here even up to one part in a thousand) *)
Definition at_scale (L : R) (t : TriF) (ray : RayF) : Prop :=
  1 <= L <= 1024 /\ within L (ta t) /\ within L (tb t) /\ within L (tc t) /\ within L (origin ray) /\
  within 2 (direction ray) /\ Rabs (dot (val_vec (direction ray)) (val_vec (direction ray)) - 1) <= 1 / 1000.
(** the blur caused by rounding: about L^2 2^-43 over the volume spanned by the ray's direction and the triangle's edges *)
Definition blur (L : R) (ray : RayF) (t : TriF) : R := L * L / (2 ^ 43 * Rabs (volume (val_ray ray) (val_tri t))).
Definition close (e : R) (a b : VecR) : Prop := Rabs (vx a - vx b) <= e /\ Rabs (vy a - vy b) <= e /\ Rabs (vz a - vz b) <= e.

(** ** vectors of near numbers *)
Section Vectors.
  Variable L : R.
  Hypothesis L1 : 1 <= L.
  Hypothesis L2 : L <= 1024.
  Definition nearv (n : nat) (m c : R) (a : VecF) (r : VecR) : Prop :=
    near L n m c (vx a) (vx r) /\ near L n m c (vy a) (vy r) /\ near L n m c (vz a) (vz r).
  Lemma nearv_sub n m1 c1 m2 c2 m c a b r q : nearv n m1 c1 a r -> nearv n m2 c2 b q -> (n <= 4)%nat ->
    0 <= m1 -> 0 <= m2 -> 0 <= c1 -> 0 <= c2 -> m1 + m2 <= m -> c1 + c2 + (m1 + m2) + 1 / 1000 <= c -> m <= 1000000 -> c <= 1000000 ->
    nearv n m c (@vsub NumSF a b) (minus r q).
  Proof.
    intros (A1 & A2 & A3) (B1 & B2 & B3) HN. intros. split; [|split]; cbn [vx vy vz vsub minus pt];
      [apply (near_sub L L1 L2 n m1 c1 m2 c2 m c _ _ _ _ A1 B1 HN)|apply (near_sub L L1 L2 n m1 c1 m2 c2 m c _ _ _ _ A2 B2 HN)
      |apply (near_sub L L1 L2 n m1 c1 m2 c2 m c _ _ _ _ A3 B3 HN)]; assumption.
  Qed.
  Lemma nearv_cross n1 n2 m1 c1 m2 c2 p e m c a b r q : nearv n1 m1 c1 a r -> nearv n2 m2 c2 b q -> (n1 + n2 <= 4)%nat ->
    0 <= m1 <= 1000 -> 0 <= m2 <= 1000 -> 0 <= c1 <= 1000 -> 0 <= c2 <= 1000 -> m1 * m2 <= p ->
    c1 * m2 + m1 * c2 + m1 * m2 + 2 / 1000 <= e -> e <= 1000000 -> 0 <= p -> 0 <= e ->
    p + p <= m -> e + e + (p + p) + 1 / 1000 <= c -> m <= 1000000 -> c <= 1000000 ->
    nearv (n1 + n2) m c (@vcross NumSF a b) (cross r q).
  Proof.
    intros (A1 & A2 & A3) (B1 & B2 & B3) HN. intros.
    assert (M : forall x y rx ry, near L n1 m1 c1 x rx -> near L n2 m2 c2 y ry -> near L (n1 + n2) p e (@fmul NumSF x y) (rx * ry)).
    { intros x y rx ry X Y. apply (near_mul L L1 L2 n1 n2 m1 c1 m2 c2 p e _ _ _ _ X Y); assumption. }
    assert (D : forall x y rx ry, near L (n1 + n2) p e x rx -> near L (n1 + n2) p e y ry -> near L (n1 + n2) m c (@fsub NumSF x y) (rx - ry)).
    { intros x y rx ry X Y. apply (near_sub L L1 L2 _ p e p e m c _ _ _ _ X Y); assumption. }
    split; [|split]; cbn [vx vy vz vcross cross pt]; apply D; apply M; assumption.
  Qed.
  Lemma near_dot n1 n2 m1 c1 m2 c2 p e p2 e2 m c a b r q : nearv n1 m1 c1 a r -> nearv n2 m2 c2 b q -> (n1 + n2 <= 4)%nat ->
    0 <= m1 <= 1000 -> 0 <= m2 <= 1000 -> 0 <= c1 <= 1000 -> 0 <= c2 <= 1000 -> m1 * m2 <= p ->
    c1 * m2 + m1 * c2 + m1 * m2 + 2 / 1000 <= e -> e <= 1000000 -> 0 <= p -> 0 <= e ->
    p + p <= p2 -> e + e + (p + p) + 1 / 1000 <= e2 -> p2 <= 1000000 -> e2 <= 1000000 ->
    p2 + p <= m -> e2 + e + (p2 + p) + 1 / 1000 <= c -> m <= 1000000 -> c <= 1000000 ->
    near L (n1 + n2) m c (@vdot NumSF a b) (dot r q).
  Proof.
    intros (A1 & A2 & A3) (B1 & B2 & B3) HN. intros.
    assert (M : forall x y rx ry, near L n1 m1 c1 x rx -> near L n2 m2 c2 y ry -> near L (n1 + n2) p e (@fmul NumSF x y) (rx * ry)).
    { intros x y rx ry X Y. apply (near_mul L L1 L2 n1 n2 m1 c1 m2 c2 p e _ _ _ _ X Y); assumption. }
    unfold vdot, dot. apply (near_add L L1 L2 _ p2 e2 p e m c); try assumption; try lra; [|apply M; assumption].
    apply (near_add L L1 L2 _ p e p e p2 e2); try assumption; apply M; assumption.
  Qed.
  Lemma within_near v : within L v -> nearv 1 1 0 v (val_vec v).
  Proof.
    assert (B : L <= BIG) by (rewrite BIG_val; lra).
    intros (H1 & H2 & H3). split; [|split]; cbn [vx vy vz val_vec pt];
      [apply (near_exact L 1 1 (vx v))|apply (near_exact L 1 1 (vy v))|apply (near_exact L 1 1 (vz v))];
      first [eapply finite_weaken; eassumption|rewrite pow_1, Rmult_1_l; first [apply H1|apply H2|apply H3]].
  Qed.
  Lemma direction_near (v : VecF) : within 2 v -> Rabs (dot (val_vec v) (val_vec v) - 1) <= 1 / 1000 ->
    nearv 0 (1001 / 1000) 0 v (val_vec v).
  Proof.
    assert (B : 2 <= BIG) by (rewrite BIG_val; lra).
    intros (H1 & H2 & H3) U. apply Rabs_le_inv in U. unfold dot, val_vec, pt in U. cbn [vx vy vz] in U.
    split; [|split]; cbn [vx vy vz val_vec pt];
      [apply (near_exact L 0 _ (vx v))|apply (near_exact L 0 _ (vy v))|apply (near_exact L 0 _ (vz v))];
      first [eapply finite_weaken; eassumption|cbn [pow]; rewrite Rmult_1_r; apply Rabs_le; generalize dependent (val (vx v)); generalize dependent (val (vy v)); generalize dependent (val (vz v)); intros; nra].
  Qed.
End Vectors.

(** ** Cramer's rule *)
Definition num_u (r : RayR) (t : TriR) : R := dot (minus (origin r) (ta t)) (cross (direction r) (minus (tc t) (ta t))).
Definition num_v (r : RayR) (t : TriR) : R := dot (direction r) (cross (minus (origin r) (ta t)) (minus (tb t) (ta t))).
Definition num_s (r : RayR) (t : TriR) : R := dot (minus (tc t) (ta t)) (cross (minus (origin r) (ta t)) (minus (tb t) (ta t))).
Lemma cramer r t : volume r t <> 0 ->
  along r (num_s r t / volume r t) = bary t (num_u r t / volume r t) (num_v r t / volume r t).
Proof. intros H. unfold num_s, num_u, num_v in *. dvec. apply vec_ext; vunf; field; exact H. Qed.
Lemma cramer_conv r t s u v : along r s = bary t u v ->
  num_u r t = u * volume r t /\ num_v r t = v * volume r t /\ num_s r t = s * volume r t.
Proof.
  intros E. pose proof (f_equal vx E) as X; pose proof (f_equal vy E) as Y; pose proof (f_equal vz E) as Z. clear E.
  unfold num_s, num_u, num_v. dvec. vunf.
  assert (X' : o_x = (1 - u - v) * A_x + (u * B_x + v * C_x) - s * d_x) by lra.
  assert (Y' : o_y = (1 - u - v) * A_y + (u * B_y + v * C_y) - s * d_y) by lra.
  assert (Z' : o_z = (1 - u - v) * A_z + (u * B_z + v * C_z) - s * d_z) by lra.
  rewrite X', Y', Z'. repeat split; ring.
Qed.

(** ** the computed quantities *)
Definition c_h (ray : RayF) (t : TriF) := @vcross NumSF (direction ray) (vsub (tc t) (ta t)).
Definition c_q (ray : RayF) (t : TriF) := @vcross NumSF (vsub (origin ray) (ta t)) (vsub (tb t) (ta t)).
Definition c_a (ray : RayF) (t : TriF) := @vdot NumSF (vsub (tb t) (ta t)) (c_h ray t).
Definition c_x (ray : RayF) (t : TriF) := @vdot NumSF (vsub (origin ray) (ta t)) (c_h ray t).
Definition c_y (ray : RayF) (t : TriF) := @vdot NumSF (direction ray) (c_q ray t).
Definition c_s (ray : RayF) (t : TriF) := @vdot NumSF (vsub (tc t) (ta t)) (c_q ray t).
Lemma computed L t ray : at_scale L t ray ->
  near L 2 (241/10) 165 (c_a ray t) (volume (val_ray ray) (val_tri t)) /\
  near L 2 (241/10) 165 (c_x ray t) (num_u (val_ray ray) (val_tri t)) /\
  near L 2 (241/10) 165 (c_y ray t) (num_v (val_ray ray) (val_tri t)) /\
  near L 3 48 380 (c_s ray t) (num_s (val_ray ray) (val_tri t)).
Proof.
  intros ((L1 & L2) & HA & HB & HC & HO & HD & HU).
  pose proof (within_near L L2 _ HA) as NA. pose proof (within_near L L2 _ HB) as NB. pose proof (within_near L L2 _ HC) as NC.
  pose proof (within_near L L2 _ HO) as NO. pose proof (direction_near L _ HD HU) as ND.
  assert (S : forall p q : VecF, nearv L 1 1 0 p (val_vec p) -> nearv L 1 1 0 q (val_vec q) -> nearv L 1 2 (21/10) (vsub p q) (minus (val_vec p) (val_vec q))).
  { intros p q P Q. apply (nearv_sub L L1 L2 1 1 0 1 0 2 (21/10) p q _ _ P Q); first [lia|lra]. }
  pose proof (S _ _ NB NA) as E1. pose proof (S _ _ NC NA) as E2. pose proof (S _ _ NO NA) as ES.
  assert (H : nearv L 1 (401/100) (123/10) (c_h ray t) (cross (val_vec (direction ray)) (minus (val_vec (tc t)) (val_vec (ta t))))).
  { apply (nearv_cross L L1 L2 0 1 (1001/1000) 0 2 (21/10) (2003/1000) (411/100) _ _ _ _ _ _ ND E2); first [lia|lra]. }
  assert (Q : nearv L 2 8 (333/10) (c_q ray t) (cross (minus (val_vec (origin ray)) (val_vec (ta t))) (minus (val_vec (tb t)) (val_vec (ta t))))).
  { apply (nearv_cross L L1 L2 1 1 2 (21/10) 2 (21/10) 4 (1245/100) _ _ _ _ _ _ ES E1); first [lia|lra]. }
  split; [|split; [|split]].
  - apply (near_dot L L1 L2 1 1 2 (21/10) (401/100) (123/10) (803/100) (411/10) (1606/100) (985/10) _ _ _ _ _ _ E1 H); first [lia|lra].
  - apply (near_dot L L1 L2 1 1 2 (21/10) (401/100) (123/10) (803/100) (411/10) (1606/100) (985/10) _ _ _ _ _ _ ES H); first [lia|lra].
  - apply (near_dot L L1 L2 0 2 (1001/1000) 0 8 (333/10) (801/100) (414/10) (1602/100) (989/10) _ _ _ _ _ _ ND Q); first [lia|lra].
  - apply (near_dot L L1 L2 1 2 2 (21/10) 8 (333/10) 16 (995/10) 32 (2311/10) _ _ _ _ _ _ E2 Q); first [lia|lra].
Qed.

(** ** the constants of the test *)
Lemma eps_float : val (@EPS NumSF) = 2 * ulp1 /\ finite_upto BIG (@EPS NumSF).
Proof.
  assert (E : (@EPS NumSF : spec_float) = S754_finite false 4503599627370496 (-104)) by (vm_compute; reflexivity). rewrite E, BIG_val, ulp1_val.
  assert (V : val (S754_finite false 4503599627370496 (-104)) = 2 * / 2 ^ 53) by (unfold val, SF2R, F2R; cbn; lra).
  split; [exact V|]. split; [vm_compute; reflexivity|]. split; [reflexivity|]. rewrite V, Rabs_pos_eq; lra.
Qed.
Lemma one_eps_float : val (@fadd NumSF f1 EPS) = 1 + 2 * ulp1 /\ finite_upto BIG (@fadd NumSF f1 EPS).
Proof.
  assert (E : (@fadd NumSF f1 EPS : spec_float) = S754_finite false 4503599627370497 (-52)) by (vm_compute; reflexivity). rewrite E, BIG_val, ulp1_val.
  assert (V : val (S754_finite false 4503599627370497 (-52)) = 1 + 2 * / 2 ^ 53) by (unfold val, SF2R, F2R; cbn; lra).
  split; [exact V|]. split; [vm_compute; reflexivity|]. split; [reflexivity|]. rewrite V, Rabs_pos_eq; lra.
Qed.
Lemma tiny5_float : (1 / 100000 <= val (@TINY5 NumSF) <= 1 / 100000 + / 10 ^ 20) /\ finite_upto BIG (@TINY5 NumSF).
Proof.
  assert (E : (@TINY5 NumSF : spec_float) = S754_finite false 5902958103587057 (-69)) by (vm_compute; reflexivity). rewrite E, BIG_val.
  assert (V : val (S754_finite false 5902958103587057 (-69)) = 5902958103587057 / 2 ^ 69) by (unfold val, SF2R, F2R; cbn; lra).
  split; [rewrite V; lra|]. split; [vm_compute; reflexivity|]. split; [reflexivity|]. rewrite V, Rabs_pos_eq; lra.
Qed.

(** ** quotients *)
Lemma ratio_near V A X x w W e Wx mx cx : Rabs (A - V) <= 165 * ulp1 * W -> Rabs X <= mx * Wx -> Rabs (x - X) <= cx * ulp1 * Wx ->
  Rabs (w * A - x) <= (201 / 100) * ulp1 * Rabs x + ulp1 / 100000 -> 1 <= Wx -> 0 <= cx <= 1000 -> cx + 201 / 100 * mx + 1 / 1000 <= e ->
  Rabs (w * V - X) <= Rabs w * (165 * ulp1 * W) + e * ulp1 * Wx.
Proof.
  intros HA HX Hx Hw HW HC HE. pose proof ulp1_pos as U0. assert (U1 : ulp1 <= 1 / 4000000000000000) by (rewrite ulp1_val; lra).
  replace (w * V - X) with (- (w * (A - V)) + ((w * A - x) + (x - X))) by ring.
  refine (Rle_trans _ _ _ (Rabs_triang _ _) _). rewrite Rabs_Ropp, Rabs_mult. apply Rplus_le_compat; [apply Rmult_le_compat_l; [apply Rabs_pos|exact HA]|].
  refine (Rle_trans _ _ _ (Rabs_triang _ _) _).
  assert (X1 : Rabs x <= mx * Wx + cx * ulp1 * Wx). { replace x with (X + (x - X)) by ring. refine (Rle_trans _ _ _ (Rabs_triang _ _) _). lra. }
  assert (X2 : 201 / 100 * ulp1 * Rabs x <= 201 / 100 * ulp1 * (mx * Wx + cx * ulp1 * Wx)) by (apply Rmult_le_compat_l; lra).
  assert (X3 : 201 / 100 * ulp1 * (cx * ulp1 * Wx) <= 1 / 2000 * (ulp1 * Wx)).
  { replace (201 / 100 * ulp1 * (cx * ulp1 * Wx)) with (201 / 100 * (cx * ulp1) * (ulp1 * Wx)) by ring. apply Rmult_le_compat_r; [nra|].
    assert (cx * ulp1 <= 1000 * (1 / 4000000000000000)) by (apply Rmult_le_compat; lra). lra. }
  assert (X4 : ulp1 <= ulp1 * Wx) by nra.
  assert (X5 : (cx + 201 / 100 * mx + 1 / 1000) * (ulp1 * Wx) <= e * (ulp1 * Wx)) by (apply Rmult_le_compat_r; nra). nra.
Qed.
Lemma ratio_div V X w W e Wx K : V <> 0 -> K = ulp1 * W / Rabs V -> Rabs (w * V - X) <= Rabs w * (165 * ulp1 * W) + e * ulp1 * (Wx * W) ->
  Rabs (w - X / V) <= Rabs w * (165 * K) + e * Wx * K.
Proof.
  intros V0 EK H. replace (w - X / V) with ((w * V - X) / V) by (field; exact V0). unfold Rdiv. rewrite Rabs_mult, Rabs_inv.
  pose proof (Rabs_pos_lt _ V0) as P. apply (Rmult_le_reg_r (Rabs V)); [exact P|]. rewrite Rmult_assoc, Rinv_l, Rmult_1_r by lra.
  refine (Rle_trans _ _ _ H _). apply Req_le. rewrite EK. field. lra.
Qed.

Section Quotients.
  Variables (L : R) (t : TriF) (ray : RayF).
  Hypothesis HS : at_scale L t ray.
  Let V := volume (val_ray ray) (val_tri t).
  Hypothesis HV : 9 / 1000000 <= Rabs V.
  Let K := ulp1 * L ^ 2 / Rabs V.
  Definition q_u := @fmul NumSF (@fdiv NumSF f1 (c_a ray t)) (c_x ray t).
  Definition q_v := @fmul NumSF (@fdiv NumSF f1 (c_a ray t)) (c_y ray t).
  Definition q_s := @fmul NumSF (@fdiv NumSF f1 (c_a ray t)) (c_s ray t).
  Let u := num_u (val_ray ray) (val_tri t) / V.
  Let v := num_v (val_ray ray) (val_tri t) / V.
  Let s := num_s (val_ray ray) (val_tri t) / V.
  Lemma V_nonzero : V <> 0. Proof. intros E. rewrite E, Rabs_R0 in HV. lra. Qed.
  Lemma L_range : 1 <= L <= 1024. Proof. exact (proj1 HS). Qed.
  Lemma W_range : 1 <= L ^ 2 <= 2 ^ 20.
  Proof. pose proof L_range. cbn [pow]. nra. Qed.
  Lemma V_upper : Rabs V <= 241 / 10 * L ^ 2.
  Proof. apply (computed L t ray HS). Qed.
  Lemma K_range : 0 < K <= 1 / 60000 /\ ulp1 <= 241 / 10 * K.
  Proof.
    pose proof W_range. pose proof V_upper as VU. pose proof ulp1_pos. assert (U1 : ulp1 = / 2 ^ 53) by apply ulp1_val. unfold K.
    assert (I1 : 0 < / Rabs V) by (apply Rinv_0_lt_compat; lra).
    assert (I2 : / Rabs V <= / (9 / 1000000)) by (apply Rinv_le_contravar; lra).
    split; [split|].
    - apply Rdiv_lt_0_compat; [apply Rmult_lt_0_compat; lra|lra].
    - unfold Rdiv. apply Rle_trans with (/ 2 ^ 53 * 2 ^ 20 * / (9 / 1000000)); [|lra]. apply Rmult_le_compat; try lra; [nra|]. rewrite U1. apply Rmult_le_compat_l; lra.
    - apply (Rmult_le_reg_r (Rabs V)); [lra|]. replace (241 / 10 * (ulp1 * L ^ 2 / Rabs V) * Rabs V) with (ulp1 * (241 / 10 * L ^ 2)) by (field; lra).
      apply Rmult_le_compat_l; lra.
  Qed.
  Lemma A_range : / 2 ^ 17 <= Rabs (val (c_a ray t)) <= 2 ^ 40.
  Proof.
    destruct (computed L t ray HS) as ((_ & _ & HA) & _). fold V in HA. pose proof W_range as W. pose proof V_upper as VU. rewrite ulp1_val in HA.
    assert (E : 165 * / 2 ^ 53 * L ^ 2 <= 165 * / 2 ^ 53 * 2 ^ 20) by (apply Rmult_le_compat_l; lra).
    assert (D : Rabs V - Rabs (val (c_a ray t) - V) <= Rabs (val (c_a ray t)) <= Rabs V + Rabs (val (c_a ray t) - V)).
    { set (A := val (c_a ray t)) in *. clearbody A. split.
      - pose proof (Rabs_triang A (V - A)) as T. replace (A + (V - A)) with V in T by ring. rewrite (Rabs_minus_sym V A) in T. lra.
      - pose proof (Rabs_triang V (A - V)) as T. replace (V + (A - V)) with A in T by ring. lra. }
    split; [lra|]. lra.
  Qed.
  Lemma val_size n m c x r : near L n m c x r -> (n <= 4)%nat -> 0 <= m <= 1000 -> 0 <= c <= 1000 -> Rabs (val x) <= 2 ^ 60.
  Proof.
    intros (_ & H2 & H3) HN HM HC. pose proof L_range as [L1 L2]. pose proof (Ln_lo L L1 n). pose proof (Ln_hi L L1 L2 n HN). rewrite ulp1_val in H3.
    replace (val x) with (r + (val x - r)) by ring. refine (Rle_trans _ _ _ (Rabs_triang _ _) _).
    assert (m * L ^ n <= 1000 * 2 ^ 40) by (apply Rmult_le_compat; lra).
    assert (c * / 2 ^ 53 * L ^ n <= (1000 * / 2 ^ 53) * 2 ^ 40) by (apply Rmult_le_compat; [nra|lra|apply Rmult_le_compat_r; lra|lra]). lra.
  Qed.
  Lemma quotients : (finite_upto BIG q_u /\ Rabs (val q_u - u) <= Rabs (val q_u) * (165 * K) + 2135 / 10 * K) /\
    (finite_upto BIG q_v /\ Rabs (val q_v - v) <= Rabs (val q_v) * (165 * K) + 2135 / 10 * K) /\
    (finite_upto BIG q_s /\ Rabs (val q_s - s) <= Rabs (val q_s) * (165 * K) + 477 * L * K).
  Proof.
    destruct (computed L t ray HS) as (NA & NX & NY & NS). fold V in NA. pose proof A_range as [A1 A2]. pose proof L_range as [L1 L2].
    pose proof (Ln_lo L L1 2) as W2. pose proof (Ln_lo L L1 3) as W3. pose proof V_nonzero as V0.
    assert (R : forall n m c x X e Wx, near L n m c x X -> (n <= 4)%nat -> 0 <= m <= 1000 -> 0 <= c <= 1000 -> L ^ n = Wx * L ^ 2 -> 1 <= L ^ n ->
      c + 201 / 100 * m + 1 / 1000 <= e ->
      let w := @fmul NumSF (@fdiv NumSF f1 (c_a ray t)) x in
      finite_upto BIG w /\ Rabs (val w - X / V) <= Rabs (val w) * (165 * K) + e * Wx * K).
    { intros n m c x X e Wx NR HN HM HC EW HW HE w. pose proof (val_size n m c x X NR HN HM HC) as VS.
      destruct (recip_product (c_a ray t) x (proj1 NA) (proj1 NR) A1 A2 VS) as [FW EWW]. fold w in FW, EWW.
      split; [exact FW|]. apply (ratio_div V X (val w) (L ^ 2) e Wx K V0 eq_refl). rewrite <- EW.
      apply (ratio_near V (val (c_a ray t)) X (val x) (val w) (L ^ 2) e (L ^ n) m c); try assumption; try apply NA; try apply NR. }
    split; [|split].
    - destruct (R 2%nat (241/10) 165 (c_x ray t) _ (2135/10) 1 NX ltac:(lia) ltac:(lra) ltac:(lra) ltac:(lra) W2 ltac:(lra)) as [Q1 Q2]. split; [exact Q1|].
      unfold u, q_u. lra.
    - destruct (R 2%nat (241/10) 165 (c_y ray t) _ (2135/10) 1 NY ltac:(lia) ltac:(lra) ltac:(lra) ltac:(lra) W2 ltac:(lra)) as [Q1 Q2]. split; [exact Q1|].
      unfold v, q_v. lra.
    - destruct (R 3%nat 48 380 (c_s ray t) _ 477 L NS ltac:(lia) ltac:(lra) ltac:(lra) ltac:(cbn; ring) W3 ltac:(lra)) as [Q1 Q2]. split; [exact Q1|].
      unfold s, q_s. lra.
  Qed.
  (** the exact solution *)
  Lemma exact_point : along (val_ray ray) s = bary (val_tri t) u v.
  Proof. apply cramer. exact V_nonzero. Qed.
  (** a point about inside the triangle is at most 4 L away *)
  Lemma reach : -1/50 <= u -> -1/50 <= v -> u + v <= 1 + 1/50 -> Rabs s <= 4 * L.
  Proof.
    intros H1 H2 H3. pose proof exact_point as E. destruct HS as ((L1 & L2) & HA & HB & HC & HO & HD & HU).
    destruct HA as ((_ & _ & A1) & (_ & _ & A2) & (_ & _ & A3)), HB as ((_ & _ & B1) & (_ & _ & B2) & (_ & _ & B3)),
      HC as ((_ & _ & C1) & (_ & _ & C2) & (_ & _ & C3)), HO as ((_ & _ & O1) & (_ & _ & O2) & (_ & _ & O3)).
    assert (ST : forall a b c o d, Rabs a <= L -> Rabs b <= L -> Rabs c <= L -> Rabs o <= L -> o + s * d = (1 - u - v) * a + (u * b + v * c) -> (s * d) * (s * d) <= (22/10 * L) * (22/10 * L)).
    { intros a b c o d Ha Hb Hc Ho EE. apply Rabs_le_inv in Ha, Hb, Hc, Ho.
      assert (P : forall k x, -1/50 <= k -> - L <= x <= L -> - ((k + 2/50) * L) <= k * x <= (k + 2/50) * L) by (intros; split; nra).
      pose proof (P u b H1 Hb). pose proof (P v c H2 Hc). pose proof (P (1 - u - v) a ltac:(lra) Ha).
      assert (- (22/10 * L) <= s * d <= 22/10 * L) by lra. nra. }
    pose proof (f_equal vx E) as X; pose proof (f_equal vy E) as Y; pose proof (f_equal vz E) as Z. clear E.
    unfold along, bary, plus, times, pt, val_ray, val_tri, val_vec in X, Y, Z. cbn [vx vy vz ta tb tc origin direction pt] in X, Y, Z.
    pose proof (ST _ _ _ _ _ A1 B1 C1 O1 X) as SX. pose proof (ST _ _ _ _ _ A2 B2 C2 O2 Y) as SY. pose proof (ST _ _ _ _ _ A3 B3 C3 O3 Z) as SZ.
    apply Rabs_le_inv in HU. unfold dot, val_vec, pt in HU. cbn [vx vy vz] in HU. clear -HU SX SY SZ L1.
    set (a := val (vx (direction ray))) in *. set (b := val (vy (direction ray))) in *. set (c := val (vz (direction ray))) in *. clearbody a b c s.
    assert (s * s * (a * a + b * b + c * c) <= 3 * (22/10 * L * (22/10 * L))) by lra.
    assert (Q : s * s <= 16 * (L * L)) by nra. apply Rabs_le. split; nra.
  Qed.
End Quotients.

Lemma test_steps (ray : RayF) (t : TriF) : @baricentric_coordinates NumSF ray t =
  if @fltb NumSF (@fabs NumSF (c_a ray t)) TINY5 then None else
  if negb (andb (@fleb NumSF (@fneg NumSF EPS) (q_u t ray)) (@fleb NumSF (q_u t ray) (@fadd NumSF f1 EPS))) then None else
  if orb (@fltb NumSF (@fadd NumSF f1 EPS) (@fadd NumSF (q_u t ray) (q_v t ray))) (@fltb NumSF (q_v t ray) (@fneg NumSF EPS)) then None else
  if @fltb NumSF TINY5 (q_s t ray) then Some (@project NumSF ray (q_s t ray), q_u t ray, q_v t ray) else None.
Proof. reflexivity. Qed.

Lemma sum_val x y : finite_upto BIG x -> finite_upto BIG y ->
  val (@fadd NumSF x y) = rnd64 (val x + val y) /\ finite_upto (bpow radix2 91) (@fadd NumSF x y).
Proof.
  intros HX HY. apply (add_val 91 ltac:(lia) BIG x y HX HY). refine (Rle_trans _ _ _ (Rabs_triang _ _) _).
  replace (bpow radix2 91) with (BIG + BIG) by (cbn; lra). apply Rplus_le_compat; [apply HX|apply HY].
Qed.

Section Main.
  Variables (L : R) (t : TriF) (ray : RayF).
  Hypothesis HS : at_scale L t ray.
  Let V := volume (val_ray ray) (val_tri t).
  Hypothesis HV : 9 / 1000000 <= Rabs V.
  Let K := ulp1 * L ^ 2 / Rabs V.
  Let u := num_u (val_ray ray) (val_tri t) / V.
  Let v := num_v (val_ray ray) (val_tri t) / V.
  Let s := num_s (val_ray ray) (val_tri t) / V.
  Lemma blur_K : blur L ray t = 1024 * K.
  Proof.
    unfold blur, K. fold V. rewrite ulp1_val. assert (V0 : V <> 0) by (intros E; rewrite E, Rabs_R0 in HV; lra). pose proof (Rabs_no_R0 _ V0).
    replace (2 ^ 43) with (2 ^ 53 / 1024) by lra. field. repeat split; lra.
  Qed.
  Lemma KR : 0 < K <= 1 / 60000 /\ ulp1 <= 241 / 10 * K.
  Proof. exact (K_range L t ray HS HV). Qed.
  (** the two coordinates, when either the computed or the exact one is moderate *)
  Lemma moderate w x : Rabs (w - x) <= Rabs w * (165 * K) + 2135 / 10 * K -> Rabs w <= 11/10 \/ Rabs x <= 1 -> Rabs (w - x) <= 396 * K.
  Proof.
    intros H M. pose proof KR as [[K0 K1] _].
    assert (A : Rabs w <= 11/10).
    { destruct M as [M|M]; [exact M|]. pose proof (Rabs_triang x (w - x)) as T. replace (x + (w - x)) with w in T by ring.
      pose proof (Rabs_pos w). assert (Rabs w * (165 * K) <= Rabs w * (165 * (1/60000))) by (apply Rmult_le_compat_l; lra). lra. }
    assert (Rabs w * (165 * K) <= 11/10 * (165 * K)) by (apply Rmult_le_compat_r; lra). lra.
  Qed.
  Lemma parameter : Rabs s <= 4 * L -> finite_upto (5 * L) (q_s t ray) /\ Rabs (val (q_s t ray) - s) <= 1303 * L * K.
  Proof.
    intros HB. pose proof KR as [[K0 K1] _]. destruct (quotients L t ray HS HV) as (_ & _ & FQ & E). fold V s K in E. set (w := val (q_s t ray)) in *.
    pose proof (L_range _ _ _ HS) as LR.
    assert (A : Rabs w <= 5 * L).
    { pose proof (Rabs_triang s (w - s)) as T. replace (s + (w - s)) with w in T by ring.
      pose proof (Rabs_pos w). assert (Rabs w * (165 * K) <= Rabs w * (165 * (1/60000))) by (apply Rmult_le_compat_l; lra).
      assert (477 * L * K <= 477 * L * (1/60000)) by (apply Rmult_le_compat_l; lra). lra. }
    split; [split; [apply FQ|split; [apply FQ|exact A]]|].
    assert (Rabs w * (165 * K) <= 5 * L * (165 * K)) by (apply Rmult_le_compat_r; lra). nra.
  Qed.
  Lemma projected o d : Rabs s <= 4 * L -> finite_upto L o -> finite_upto 2 d -> Rabs (val d) <= 1001 / 1000 ->
    Rabs (val (@fadd NumSF o (@fmul NumSF d (q_s t ray))) - (val o + s * val d)) <= 2048 * L * K.
  Proof.
    intros HB FO FD HD. destruct (parameter HB) as [FQ E]. pose proof (L_range _ _ _ HS) as [L1 L2]. pose proof KR as [[K0 K1] K2]. set (w := q_s t ray) in *.
    assert (ND : near L 0 (1001/1000) 0 d (val d)) by (apply near_exact; [eapply finite_weaken; [exact FD|rewrite BIG_val; lra]|cbn [pow]; lra]).
    assert (NW : near L 1 5 0 w (val w)) by (apply near_exact; [eapply finite_weaken; [exact FQ|rewrite BIG_val; lra]|rewrite pow_1; apply FQ]).
    assert (NO : near L 1 1 0 o (val o)) by (apply near_exact; [eapply finite_weaken; [exact FO|rewrite BIG_val; lra]|rewrite pow_1, Rmult_1_l; apply FO]).
    assert (NM : near L 1 (501/100) (502/100) (@fmul NumSF d w) (val d * val w)) by (apply (near_mul L L1 L2 0 1 (1001/1000) 0 5 0 _ _ _ _ _ _ ND NW); first [lia|lra]).
    assert (NP : near L 1 (601/100) (1104/100) (@fadd NumSF o (@fmul NumSF d w)) (val o + val d * val w)).
    { apply (near_add L L1 L2 1 1 0 (501/100) (502/100) _ _ _ _ _ _ NO NM); first [lia|lra]. }
    destruct NP as (_ & _ & NP). rewrite pow_1 in NP. set (p := val (@fadd NumSF o (@fmul NumSF d w))) in *.
    replace (p - (val o + s * val d)) with ((p - (val o + val d * val w)) + val d * (val w - s)) by ring.
    refine (Rle_trans _ _ _ (Rabs_triang _ _) _). rewrite Rabs_mult.
    assert (T1 : Rabs (val d) * Rabs (val w - s) <= 1001/1000 * (1303 * L * K)) by (apply Rmult_le_compat; try apply Rabs_pos; assumption).
    assert (T2 : 1104/100 * ulp1 * L <= 1104/100 * (241/10 * K) * L) by (apply Rmult_le_compat_r; lra).
    assert (0 <= L * K) by nra. lra.
  Qed.
  Lemma projected_point : Rabs s <= 4 * L ->
    close (2048 * L * K) (val_vec (@project NumSF ray (q_s t ray))) (along (val_ray ray) s).
  Proof.
    intros HB. destruct HS as (_ & _ & _ & _ & (O1 & O2 & O3) & (D1 & D2 & D3) & HU).
    destruct (direction_near L _ (conj D1 (conj D2 D3)) HU) as (N1 & N2 & N3).
    destruct N1 as (_ & N1 & _), N2 as (_ & N2 & _), N3 as (_ & N3 & _). cbn [vx vy vz val_vec pt pow] in N1, N2, N3. rewrite Rmult_1_r in N1, N2, N3.
    unfold close, project, vadd, vscale, val_vec, along, plus, times, pt, val_ray. cbn [vx vy vz origin direction val_vec pt].
    split; [|split]; apply projected; assumption.
  Qed.

  Lemma sound_core p x y : @baricentric_coordinates NumSF ray t = Some (p, x, y) ->
    - (445 * K) <= u /\ - (445 * K) <= v /\ u + v <= 1 + 937 * K /\ 1 / 100000 - 1303 * L * K < s /\
    Rabs (val x - u) <= 396 * K /\ Rabs (val y - v) <= 396 * K /\ close (2048 * L * K) (val_vec p) (along (val_ray ray) s).
  Proof.
    intros H. rewrite test_steps in H. pose proof KR as [[K0 K1] K2]. pose proof ulp1_pos as U0. assert (U1 : ulp1 <= 1 / 4000000000000000) by (rewrite ulp1_val; lra).
    destruct (quotients L t ray HS HV) as ((FU & EU) & (FV & EV) & FQ & _). fold V u v K in EU, EV.
    destruct eps_float as [VE FE]. destruct one_eps_float as [VO FO]. destruct tiny5_float as [VT FT]. destruct (neg_val _ _ FE) as [VN FN]. rewrite VE in VN.
    destruct (fltb (fabs (c_a ray t)) TINY5); [discriminate H|].
    destruct (andb (fleb (fneg EPS) (q_u t ray)) (fleb (q_u t ray) (fadd f1 EPS))) eqn:B1; [|discriminate H]. cbn [negb] in H.
    destruct (orb (fltb (fadd f1 EPS) (fadd (q_u t ray) (q_v t ray))) (fltb (q_v t ray) (fneg EPS))) eqn:B2; [discriminate H|].
    destruct (fltb TINY5 (q_s t ray)) eqn:B3; [|discriminate H].
    apply Bool.andb_true_iff in B1 as [B1 B1']. apply Bool.orb_false_iff in B2 as [B2 B2'].
    rewrite (leb_val _ _ _ FN FU), VN in B1. rewrite (leb_val _ _ _ FU FO), VO in B1'. rewrite (ltb_val _ _ _ FV FN), VN in B2'. rewrite (ltb_val _ _ _ FT FQ) in B3.
    destruct (sum_val _ _ FU FV) as [VS FS]. rewrite (ltb_val _ _ _ (finite_weaken _ _ _ FO (bpow_le radix2 90 91 ltac:(lia))) FS), VO, VS in B2.
    destruct (Rle_bool_spec (- (2 * ulp1)) (val (q_u t ray))) as [I1|]; [|discriminate B1].
    destruct (Rle_bool_spec (val (q_u t ray)) (1 + 2 * ulp1)) as [I2|]; [|discriminate B1'].
    destruct (Rlt_bool_spec (val (q_v t ray)) (- (2 * ulp1))) as [|I3]; [discriminate B2'|].
    destruct (Rlt_bool_spec (1 + 2 * ulp1) (rnd64 (val (q_u t ray) + val (q_v t ray)))) as [|I4]; [discriminate B2|].
    destruct (Rlt_bool_spec (val (@TINY5 NumSF)) (val (q_s t ray))) as [I5|]; [|discriminate B3]. clear B1 B1' B2 B2' B3.
    assert (HP : p = @project NumSF ray (q_s t ray) /\ x = q_u t ray /\ y = q_v t ray) by (clear -H; injection H as H1 H2 H3; auto).
    destruct HP as (-> & -> & ->). clear H.
    set (a := val (q_u t ray)) in *. set (b := val (q_v t ray)) in *.
    assert (I6 : a + b <= 1 + 6 * ulp1).
    { apply Rnot_lt_le. intros Q. pose proof (rnd_near (a + b)) as R. rewrite (Rabs_pos_eq (a + b)) in R by lra. apply Rabs_le_inv in R. nra. }
    assert (AB : Rabs a <= 11/10) by (apply Rabs_le; lra). assert (BB : Rabs b <= 11/10) by (apply Rabs_le; lra).
    pose proof (moderate a u EU (or_introl AB)) as DU. pose proof (moderate b v EV (or_introl BB)) as DV.
    apply Rabs_le_inv in DU as DU'. apply Rabs_le_inv in DV as DV'.
    assert (J1 : - (445 * K) <= u) by lra. assert (J2 : - (445 * K) <= v) by lra. assert (J3 : u + v <= 1 + 937 * K) by lra.
    assert (HB : Rabs s <= 4 * L) by (apply (reach L t ray HS HV); fold V u v; lra).
    destruct (parameter HB) as [_ ES]. apply Rabs_le_inv in ES.
    split; [exact J1|]. split; [exact J2|]. split; [exact J3|]. split; [lra|]. split; [exact DU|]. split; [exact DV|]. apply projected_point. exact HB.
  Qed.
  Lemma complete_core : 1024 * K <= u -> 1024 * K <= v -> u + v <= 1 - 1024 * K -> 1 / 100000 + 2048 * L * K <= s ->
    1 / 100000 + 1024 * ulp1 * L ^ 2 <= Rabs V ->
    @baricentric_coordinates NumSF ray t = Some (@project NumSF ray (q_s t ray), q_u t ray, q_v t ray).
  Proof.
    intros H1 H2 H3 H4 H5. rewrite test_steps. pose proof KR as [[K0 K1] K2]. pose proof ulp1_pos as U0. assert (U1 : ulp1 <= 1 / 4000000000000000) by (rewrite ulp1_val; lra).
    destruct (quotients L t ray HS HV) as ((FU & EU) & (FV & EV) & FQ & _). fold V u v K in EU, EV.
    destruct eps_float as [VE FE]. destruct one_eps_float as [VO FO]. destruct tiny5_float as [VT FT]. destruct (neg_val _ _ FE) as [VN FN]. rewrite VE in VN.
    pose proof (moderate _ u EU (or_intror (Rabs_le u 1 ltac:(lra)))) as DU. pose proof (moderate _ v EV (or_intror (Rabs_le v 1 ltac:(lra)))) as DV.
    apply Rabs_le_inv in DU. apply Rabs_le_inv in DV.
    assert (HB : Rabs s <= 4 * L) by (apply (reach L t ray HS HV); fold V u v; lra).
    destruct (parameter HB) as [_ ES]. apply Rabs_le_inv in ES. pose proof (L_range _ _ _ HS) as LR. pose proof (W_range _ _ _ HS) as WR.
    destruct (computed L t ray HS) as ((FA & _ & EA) & _). fold V in EA. destruct (abs_val _ _ FA) as [VA FAA].
    destruct (sum_val _ _ FU FV) as [VS FS].
    set (a := val (q_u t ray)) in *. set (b := val (q_v t ray)) in *.
    rewrite (ltb_val _ _ _ FAA FT), VA, Rlt_bool_false.
    2:{ set (A := val (c_a ray t)) in *. pose proof (Rabs_triang A (V - A)) as T. replace (A + (V - A)) with V in T by ring. rewrite (Rabs_minus_sym V A) in T.
        assert (UW : ulp1 * 1 <= ulp1 * L ^ 2) by (apply Rmult_le_compat_l; lra). assert (/ 10 ^ 20 <= ulp1) by (rewrite ulp1_val; lra). lra. }
    rewrite (leb_val _ _ _ FN FU), VN, Rle_bool_true by (fold a; lra). rewrite (leb_val _ _ _ FU FO), VO, Rle_bool_true by (fold a; lra). cbn [andb negb].
    rewrite (ltb_val _ _ _ (finite_weaken _ _ _ FO (bpow_le radix2 90 91 ltac:(lia))) FS), VO, VS, Rlt_bool_false.
    2:{ apply Rle_trans with 1; [|lra]. rewrite <- (rnd_int 1 ltac:(lia)). apply rnd_le. lra. }
    rewrite (ltb_val _ _ _ FV FN), VN, Rlt_bool_false by (fold b; lra). cbn [orb].
    rewrite (ltb_val _ _ _ FT FQ), Rlt_bool_true; [reflexivity|]. assert (UK : / 10 ^ 20 <= ulp1) by (rewrite ulp1_val; lra).
    assert (K * 1 <= K * L) by (apply Rmult_le_compat_l; lra). lra.
  Qed.
End Main.

Lemma hit_volume L (t : TriF) (ray : RayF) info : at_scale L t ray -> triangle_intersect t ray = Some info ->
  9 / 1000000 <= Rabs (volume (val_ray ray) (val_tri t)).
Proof.
  intros HS B'. unfold triangle_intersect in B'. rewrite test_steps in B'. destruct (fltb (fabs (c_a ray t)) TINY5) eqn:T; [discriminate B'|]. clear B'.
  destruct (computed L t ray HS) as ((FA & _ & EA) & _). destruct (abs_val _ _ FA) as [VA FAA]. destruct tiny5_float as [VT FT].
  rewrite (ltb_val _ _ _ FAA FT), VA in T. set (A := val (c_a ray t)) in *. destruct (Rlt_bool_spec (Rabs A) (val (@TINY5 NumSF))) as [|I]; [discriminate T|].
  pose proof (W_range _ _ _ HS) as WR. rewrite ulp1_val in EA. assert (165 * / 2 ^ 53 * L ^ 2 <= 165 * / 2 ^ 53 * 2 ^ 20) by (apply Rmult_le_compat_l; lra).
  set (V := volume _ _) in *. pose proof (Rabs_triang V (A - V)) as TT. replace (V + (A - V)) with A in TT by ring. lra.
Qed.

(** ** C95 - what the test reports is, up to the blur, on the ray and in the triangle *)
Theorem C95_hit_sound : forall L (t : TriF) (ray : RayF) info, at_scale L t ray -> triangle_intersect t ray = Some info ->
  let e := blur L ray t in
  0 < e < 1 / 50 /\
  exists s u v, along (val_ray ray) s = bary (val_tri t) u v /\ - e <= u /\ - e <= v /\ u + v <= 1 + e /\ 1 / 100000 - 2 * L * e < s /\
    Rabs (val (i_u info) - u) <= e /\ Rabs (val (i_v info) - v) <= e /\
    close (2 * L * e) (val_vec (i_p info)) (along (val_ray ray) s).
Proof.
  intros L t ray info HS H e. pose proof (hit_volume L t ray info HS H) as HV. unfold triangle_intersect in H. destruct (baricentric_coordinates ray t) as [[[p x] y]|] eqn:B; [|discriminate H].
  assert (HP : i_p info = p /\ i_u info = x /\ i_v info = y).
  { assert (Q : new_info t p x y (direction ray) = info) by (clear -H; congruence). rewrite <- Q. unfold new_info. cbv zeta. destruct (get_side _ _). auto. }
  destruct HP as (-> & -> & ->). clear H.
  pose proof (sound_core L t ray HS HV p x y B) as (S1 & S2 & S3 & S4 & S5 & S6 & S7 & S8 & S9).
  pose proof (KR L t ray HS HV) as [[K0 K1] _]. pose proof (blur_K L t ray HV) as EB. fold e in EB.
  set (K := ulp1 * L ^ 2 / Rabs (volume (val_ray ray) (val_tri t))) in *.
  pose proof (L_range _ _ _ HS) as LR. assert (LK : 2 * L * e = 2048 * L * K) by (rewrite EB; ring). rewrite LK.
  split; [lra|]. do 3 eexists. split; [exact (exact_point t ray HV)|].
  split; [lra|]. split; [lra|]. split; [lra|]. split; [assert (0 <= L * K) by nra; lra|]. split; [lra|]. split; [lra|]. exact (conj S7 (conj S8 S9)).
Qed.
Print Assumptions C95_hit_sound.

(** ** and a ray that crosses the triangle away from its rim, by more than the blur, is reported *)
Theorem C95_hit_complete : forall L (t : TriF) (ray : RayF) s u v, at_scale L t ray ->
  1 / 100000 + L * L / 2 ^ 43 <= Rabs (volume (val_ray ray) (val_tri t)) ->
  along (val_ray ray) s = bary (val_tri t) u v ->
  let e := blur L ray t in
  e <= u -> e <= v -> u + v <= 1 - e -> 1 / 100000 + 2 * L * e <= s ->
  exists info, triangle_intersect t ray = Some info /\ Rabs (val (i_u info) - u) <= e /\ Rabs (val (i_v info) - v) <= e /\
    close (2 * L * e) (val_vec (i_p info)) (along (val_ray ray) s).
Proof.
  intros L t ray s u v HS HV EX e H1 H2 H3 H4. pose proof (L_range _ _ _ HS) as LR.
  assert (HV' : 9 / 1000000 <= Rabs (volume (val_ray ray) (val_tri t))) by (assert (0 <= L * L) by nra; lra).
  destruct (cramer_conv _ _ _ _ _ EX) as (E1 & E2 & E3).
  assert (V0 : volume (val_ray ray) (val_tri t) <> 0) by (intros Q; rewrite Q, Rabs_R0 in HV'; lra).
  assert (U : num_u (val_ray ray) (val_tri t) / volume (val_ray ray) (val_tri t) = u) by (rewrite E1; field; exact V0).
  assert (V : num_v (val_ray ray) (val_tri t) / volume (val_ray ray) (val_tri t) = v) by (rewrite E2; field; exact V0).
  assert (S : num_s (val_ray ray) (val_tri t) / volume (val_ray ray) (val_tri t) = s) by (rewrite E3; field; exact V0).
  pose proof (blur_K L t ray HV') as EB. fold e in EB.
  pose proof (complete_core L t ray HS HV') as C. rewrite U, V, S in C. pose proof (sound_core L t ray HS HV') as SC. rewrite U, V, S in SC.
  pose proof (KR L t ray HS HV') as [[K0 K1] _].
  set (K := ulp1 * L ^ 2 / Rabs (volume (val_ray ray) (val_tri t))) in *. assert (LK : 2 * L * e = 2048 * L * K) by (rewrite EB; ring). rewrite LK in *.
  specialize (C ltac:(lra) ltac:(lra) ltac:(lra) ltac:(lra) ltac:(rewrite ulp1_val; lra)).
  destruct (SC _ _ _ C) as (_ & _ & _ & _ & S5 & S6 & S7).
  exists (new_info t (@project NumSF ray (q_s t ray)) (q_u t ray) (q_v t ray) (direction ray)).
  assert (I : forall p x y, i_p (new_info t p x y (direction ray)) = p /\ i_u (new_info t p x y (direction ray)) = x /\ i_v (new_info t p x y (direction ray)) = y).
  { intros p x y. unfold new_info. cbv zeta. destruct (get_side _ _). auto. }
  destruct (I (@project NumSF ray (q_s t ray)) (q_u t ray) (q_v t ray)) as (-> & -> & ->).
  split; [unfold triangle_intersect; rewrite C; reflexivity|]. split; [lra|]. split; [lra|exact S7].
Qed.
Print Assumptions C95_hit_complete.

(** a concrete case: a floor triangle of 4 by 3, seen along (0, 0.6, -0.8) (rounded) from a height of 2 *)
Definition floor_tri : TriF := mkTri (@V3 NumSF (sf_ofZ 0) (sf_ofZ 0) (sf_ofZ 0)) (@V3 NumSF (sf_ofZ 4) (sf_ofZ 0) (sf_ofZ 0)) (@V3 NumSF (sf_ofZ 4) (sf_ofZ 3) (sf_ofZ 0)).
Definition floor_ray : RayF := mkRay3D (@V3 NumSF (sf_ofZ 3) (sf_ofZ 0) (sf_ofZ 2)) (@V3 NumSF (sf_ofZ 0) (@flit NumSF 6 10) (@flit NumSF (-8) 10)).
Lemma small_int (z : Z) B : (Z.abs z <= 2 ^ 53)%Z -> Rabs (IZR z) <= B -> val (sf_ofZ z) = IZR z /\ finite_upto B (sf_ofZ z).
Proof. intros H HB. destruct (ofZ_val z H) as [V FI]. split; [exact V|]. eapply finite_weaken; [exact FI|exact HB]. Qed.
Lemma six_tenths : val (@flit NumSF 6 10) = 5404319552844595 / 2 ^ 53 /\ finite_upto 2 (@flit NumSF 6 10).
Proof.
  assert (E : (@flit NumSF 6 10 : spec_float) = S754_finite false 5404319552844595 (-53)) by (vm_compute; reflexivity). rewrite E.
  assert (V : val (S754_finite false 5404319552844595 (-53)) = 5404319552844595 / 2 ^ 53) by (unfold val, SF2R, F2R; cbn; lra).
  split; [exact V|]. split; [vm_compute; reflexivity|]. split; [reflexivity|]. rewrite V, Rabs_pos_eq; lra.
Qed.
Lemma eight_tenths : val (@flit NumSF (-8) 10) = - (7205759403792794 / 2 ^ 53) /\ finite_upto 2 (@flit NumSF (-8) 10).
Proof.
  assert (E : (@flit NumSF (-8) 10 : spec_float) = S754_finite true 7205759403792794 (-53)) by (vm_compute; reflexivity). rewrite E.
  assert (V : val (S754_finite true 7205759403792794 (-53)) = - (7205759403792794 / 2 ^ 53)) by (unfold val, SF2R, F2R; cbn; lra).
  split; [exact V|]. split; [vm_compute; reflexivity|]. split; [reflexivity|]. rewrite V, Rabs_Ropp, Rabs_pos_eq; lra.
Qed.
Example C95_hyp : at_scale 4 floor_tri floor_ray /\
  1 / 100000 + 4 * 4 / 2 ^ 43 <= Rabs (volume (val_ray floor_ray) (val_tri floor_tri)) /\
  exists s u v, along (val_ray floor_ray) s = bary (val_tri floor_tri) u v /\ let e := blur 4 floor_ray floor_tri in
    e <= 1 / 2 ^ 40 /\ e <= u /\ e <= v /\ u + v <= 1 - e /\ 1 / 100000 + 2 * 4 * e <= s.
Proof.
  destruct six_tenths as [V6 F6]. destruct eight_tenths as [V8 F8].
  assert (I : forall z, (Z.abs z <= 4)%Z -> val (sf_ofZ z) = IZR z /\ finite_upto 4 (sf_ofZ z)).
  { intros z Hz. apply small_int; [lia|]. rewrite <- abs_IZR. apply IZR_le. exact Hz. }
  destruct (I 0%Z ltac:(lia)) as [V0 F0]. destruct (I 2%Z ltac:(lia)) as [V2 F2]. destruct (I 3%Z ltac:(lia)) as [V3' F3]. destruct (I 4%Z ltac:(lia)) as [V4 F4].
  assert (F0' : finite_upto 2 (sf_ofZ 0)) by (apply small_int; [lia|rewrite Rabs_R0; lra]).
  assert (VV : volume (val_ray floor_ray) (val_tri floor_tri) = 12 * (7205759403792794 / 2 ^ 53)).
  { unfold volume, val_ray, val_tri, val_vec, floor_ray, floor_tri, cross, minus, dot, pt. cbn [ta tb tc origin direction vx vy vz]. rewrite V0, V3', V4, V6, V8. field. }
  split.
  { split; [lra|]. unfold within, floor_tri, floor_ray. cbn [ta tb tc origin direction vx vy vz]. do 4 (split; [split; [assumption|split; assumption]|]).
    split; [exact (conj F0' (conj F6 F8))|].
    unfold val_vec, dot, pt. cbn [vx vy vz]. rewrite V0, V6, V8. apply Rabs_le. split; lra. }
  rewrite VV, Rabs_pos_eq by lra. split; [lra|].
  exists (2 * (2 ^ 53 / 7205759403792794)), (3 / 4 - 2 * 5404319552844595 / (3 * 7205759403792794)), (2 * 5404319552844595 / (3 * 7205759403792794)).
  split.
  { unfold along, bary, plus, times, pt, val_ray, val_tri, val_vec, floor_ray, floor_tri. cbn [ta tb tc origin direction vx vy vz pt]. rewrite V0, V2, V3', V4, V6, V8.
    apply vec_ext; cbn [vx vy vz]; match goal with |- ?a = ?b => change (@eq R a b) end; field. }
  unfold blur. rewrite VV, Rabs_pos_eq by lra. cbv zeta.
  assert (0 < 4 * 4 / (2 ^ 43 * (12 * (7205759403792794 / 2 ^ 53))) <= 1 / 2 ^ 42) by (split; lra). set (e := 4 * 4 / _) in *. clearbody e. lra.
Qed.
