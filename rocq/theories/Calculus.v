(** * Calculus: the substitutions behind the samplers, for piecewise continuous functions *)
From Coq Require Import Reals Lra.
From Coquelicot Require Import Coquelicot.
Open Scope R_scope.

(** finitely many pieces, each continuous up to its ends (the values at the ends themselves are free) *)
Inductive piecewise (f : R -> R) : R -> R -> Prop :=
| one_piece a b g : a <= b -> (forall x, a <= x <= b -> continuous g x) -> (forall x, a < x < b -> f x = g x) -> piecewise f a b
| two_pieces a m b : piecewise f a m -> piecewise f m b -> piecewise f a b.

Lemma piecewise_le f a b : piecewise f a b -> a <= b.
Proof. induction 1; lra. Qed.

Lemma continuous_piecewise f a b : a <= b -> (forall x, a <= x <= b -> continuous f x) -> piecewise f a b.
Proof. intros H C. apply one_piece with f; auto. Qed.

Lemma continuous_RInt f a b : a <= b -> (forall x, a <= x <= b -> continuous f x) -> is_RInt (V := R_NormedModule) f a b (RInt (V := R_CompleteNormedModule) f a b).
Proof.
  intros H C. apply (RInt_correct (V := R_CompleteNormedModule)). apply (ex_RInt_continuous (V := R_CompleteNormedModule)). intros z. rewrite Rmin_left, Rmax_right by exact H. apply C.
Qed.

(** the angle whose sine is sqrt u *)
Definition angle_of (u : R) : R := 2 * atan (sqrt u / (1 + sqrt (1 - u))).

Lemma angle_of_facts u : 0 <= u <= 1 -> sin (angle_of u) = sqrt u /\ cos (angle_of u) = sqrt (1 - u) /\ 0 <= angle_of u <= PI / 2.
Proof.
  intros H. unfold angle_of. set (s := sqrt u). set (c := sqrt (1 - u)).
  assert (S0 : 0 <= s) by apply sqrt_pos. assert (C0 : 0 <= c) by apply sqrt_pos.
  assert (S2 : s * s = u) by (apply sqrt_sqrt; lra). assert (C2 : c * c = 1 - u) by (apply sqrt_sqrt; lra).
  set (q := s / (1 + c)). assert (Q : q * (1 + c) = s) by (unfold q; field; lra).
  assert (Q0 : 0 <= q) by (unfold q; apply Rmult_le_pos; [exact S0|left; apply Rinv_0_lt_compat; lra]).
  assert (Q1 : q <= 1). { apply Rmult_le_reg_r with (1 + c); [lra|]. rewrite Q. nra. }
  pose proof (atan_bound q) as [B1 B2]. 
  assert (T : tan (atan q) = q) by apply atan_right_inv.
  assert (Cp : 0 < cos (atan q)) by (apply cos_gt_0; lra).
  assert (Sq : sin (atan q) = q * cos (atan q)). { rewrite <- T at 2. unfold tan. field. lra. }
  pose proof (sin2_cos2 (atan q)) as A. unfold Rsqr in A. rewrite Sq in A.
  set (k := cos (atan q)) in *. assert (K : k * k * (1 + q * q) = 1) by nra.
  assert (KC : k * k * 2 = 1 + c). { assert (E : (1 + q * q) * (1 + c) = 2). { assert (Q2 : q * q * (1 + c) * (1 + c) = s * s) by (rewrite <- Q; ring). assert (q * q * (1 + c) = 1 - c). { apply Rmult_eq_reg_r with (1 + c); [|lra]. rewrite Q2. nra. } lra. }
    apply Rmult_eq_reg_r with (1 + q * q); [|nra]. nra. }
  rewrite sin_2a, cos_2a, Sq. fold k. split; [|split].
  - replace (2 * (q * k) * k) with (q * (k * k * 2)) by ring. rewrite KC. exact Q.
  - replace (k * k - q * k * (q * k)) with (k * k - q * q * (k * k)) by ring. assert (q * q * (k * k) = 1 - k * k) by lra. lra.
  - split; [|].
    + assert (0 <= atan q). { rewrite <- atan_0. destruct (Req_dec q 0) as [->|]; [lra|]. left. apply atan_increasing. lra. } lra.
    + assert (atan q <= PI / 4). { rewrite <- atan_1. destruct (Req_dec q 1) as [->|]; [lra|]. left. apply atan_increasing. lra. } lra.
Qed.

Lemma angle_of_continuous u : 0 <= u <= 1 -> continuous angle_of u.
Proof.
  intros H. unfold angle_of. apply (continuous_mult (K := R_AbsRing)); [apply continuous_const|].
  apply (continuous_comp (fun u => sqrt u / (1 + sqrt (1 - u))) atan).
  - apply (continuous_mult (K := R_AbsRing)); [apply continuous_sqrt|].
    apply (continuous_comp (fun u => 1 + sqrt (1 - u)) Rinv).
    + apply (continuous_plus (V := R_NormedModule)); [apply continuous_const|]. apply (continuous_comp (fun u => 1 - u) sqrt); [|apply continuous_sqrt].
      apply (continuous_minus (V := R_NormedModule)); [apply continuous_const|apply continuous_id].
    + apply continuous_Rinv. pose proof (sqrt_pos (1 - u)). lra.
  - apply continuity_pt_filterlim. apply derivable_continuous_pt. apply derivable_pt_atan.
Qed.

Lemma angle_of_sin2 t : 0 <= t <= PI / 2 -> angle_of (sin t * sin t) = t.
Proof.
  intros H. assert (S0 : 0 <= sin t) by (apply sin_ge_0; pose proof PI_RGT_0; lra). pose proof (SIN_bound t) as [_ S1].
  destruct (angle_of_facts (sin t * sin t) ltac:(nra)) as (A & _ & B). rewrite sqrt_square in A by exact S0.
  assert (N1 : t = asin (sin t)) by (symmetry; apply asin_sin; lra). assert (N2 : angle_of (sin t * sin t) = asin (sin (angle_of (sin t * sin t)))) by (symmetry; apply asin_sin; lra).
  rewrite N2, A. symmetry. exact N1.
Qed.

Lemma sin2_mono a b : 0 <= a -> a <= b -> b <= PI / 2 -> sin a * sin a <= sin b * sin b.
Proof.
  intros H1 H2 H3. assert (0 <= sin a) by (apply sin_ge_0; pose proof PI_RGT_0; lra). assert (sin a <= sin b). { apply sin_incr_1; pose proof PI_RGT_0; lra. } nra.
Qed.
Lemma sin2_le1 a : 0 <= sin a * sin a <= 1.
Proof. pose proof (SIN_bound a). nra. Qed.

Lemma sin2_range a b u : 0 <= a -> b <= PI / 2 -> a <= b -> sin a * sin a < u < sin b * sin b -> a < angle_of u < b.
Proof.
  intros H1 H2 H3 H. pose proof (sin2_le1 a). pose proof (sin2_le1 b). destruct (angle_of_facts u ltac:(lra)) as (A & _ & B).
  assert (U : sin (angle_of u) * sin (angle_of u) = u) by (rewrite A; apply sqrt_sqrt; lra). split.
  - destruct (Rlt_le_dec a (angle_of u)) as [L|L]; [exact L|]. pose proof (sin2_mono (angle_of u) a ltac:(lra) L ltac:(lra)). lra.
  - destruct (Rlt_le_dec (angle_of u) b) as [L|L]; [exact L|]. pose proof (sin2_mono b (angle_of u) ltac:(lra) L ltac:(lra)). lra.
Qed.

(** u = sin(t)^2 *)
Lemma substitute_sin2_ex (f : R -> R) a b : piecewise f a b -> 0 <= a -> b <= PI / 2 ->
  exists I, is_RInt (fun t => f t * (2 * sin t * cos t)) a b I /\ is_RInt (fun u => f (angle_of u)) (sin a * sin a) (sin b * sin b) I.
Proof.
  induction 1 as [a b g Hab HC HE|a m b H1 IH1 H2 IH2]; intros Ha Hb.
  - pose proof (sin2_mono a b Ha Hab Hb) as M. pose proof (sin2_le1 a) as La. pose proof (sin2_le1 b) as Lb.
    set (h := fun u => g (angle_of u)). exists (RInt (V := R_CompleteNormedModule) h (sin a * sin a) (sin b * sin b)).
    assert (Hh : forall t, a <= t <= b -> continuous h (sin t * sin t)).
    { intros t Ht. unfold h. apply (continuous_comp angle_of g); [apply angle_of_continuous, sin2_le1|]. rewrite angle_of_sin2 by lra. apply HC. exact Ht. }
    split.
    + apply (is_RInt_ext (fun t => scal (2 * sin t * cos t) (h (sin t * sin t)))).
      * intros t. rewrite Rmin_left, Rmax_right by exact Hab. intros Ht. unfold h. rewrite angle_of_sin2 by lra. rewrite HE by exact Ht. unfold scal. cbn. unfold mult. cbn. ring.
      * apply (is_RInt_comp h (fun t => sin t * sin t) (fun t => 2 * sin t * cos t) a b).
        -- intros t. rewrite Rmin_left, Rmax_right by exact Hab. apply Hh.
        -- intros t _. split; [auto_derive; [trivial|ring]|]. apply (continuous_mult (K := R_AbsRing)); [apply (continuous_mult (K := R_AbsRing)); [apply continuous_const|apply continuous_sin]|apply continuous_cos].
    + apply (is_RInt_ext h).
      * intros u. rewrite Rmin_left, Rmax_right by exact M. intros Hu. unfold h. symmetry. apply HE. apply (sin2_range a b u); lra.
      * apply continuous_RInt; [exact M|]. intros u Hu. replace u with (sin (angle_of u) * sin (angle_of u)).
        2:{ destruct (angle_of_facts u ltac:(lra)) as (A & _ & _). rewrite A. apply sqrt_sqrt. lra. }
        apply Hh. destruct (angle_of_facts u ltac:(lra)) as (A & _ & B).
        assert (U : sin (angle_of u) * sin (angle_of u) = u) by (rewrite A; apply sqrt_sqrt; lra).
        assert (SL : forall x y, 0 <= x <= PI / 2 -> 0 <= y <= PI / 2 -> sin x * sin x <= sin y * sin y -> x <= y).
        { intros x y Hx Hy L. destruct (Rle_lt_dec x y) as [K|K]; [exact K|]. exfalso. assert (0 <= sin y) by (apply sin_ge_0; pose proof PI_RGT_0; lra). assert (sin y < sin x) by (apply sin_increasing_1; pose proof PI_RGT_0; lra). nra. }
        split; apply SL; lra.
  - pose proof (piecewise_le _ _ _ H1). pose proof (piecewise_le _ _ _ H2). destruct (IH1 Ha ltac:(lra)) as (I1 & A1 & B1). destruct (IH2 ltac:(lra) Hb) as (I2 & A2 & B2).
    exists (plus I1 I2). split; eapply is_RInt_Chasles; eassumption.
Qed.

Lemma substitute_sin2 (f : R -> R) I : piecewise f 0 (PI / 2) -> is_RInt (fun t => f t * (2 * sin t * cos t)) 0 (PI / 2) I -> is_RInt (fun u => f (angle_of u)) 0 1 I.
Proof.
  intros H HI. destruct (substitute_sin2_ex f 0 (PI / 2) H ltac:(lra) ltac:(lra)) as (J & A & B).
  pose proof (is_RInt_unique _ _ _ _ A) as E1. pose proof (is_RInt_unique _ _ _ _ HI) as E2. assert (EJ : J = I) by congruence. rewrite EJ in B. clear EJ E1 E2.
  rewrite sin_0, sin_PI2 in B. replace (0 * 0) with 0 in B by ring. replace (1 * 1) with 1 in B by ring. exact B.
Qed.

(** u = cos t *)
Lemma acos_of_continuous u : 0 <= u <= 1 -> continuous (fun u => angle_of (1 - u * u)) u.
Proof.
  intros H. apply (continuous_comp (fun u => 1 - u * u) angle_of); [|apply angle_of_continuous; nra].
  apply (continuous_minus (V := R_NormedModule)); [apply continuous_const|]. apply (continuous_mult (K := R_AbsRing)); apply continuous_id.
Qed.
Lemma acos_of_cos t : 0 <= t <= PI / 2 -> angle_of (1 - cos t * cos t) = t.
Proof. intros H. replace (1 - cos t * cos t) with (sin t * sin t) by (pose proof (sin2_cos2 t) as Q; unfold Rsqr in Q; lra). apply angle_of_sin2. exact H. Qed.
Lemma acos_of_facts u : 0 <= u <= 1 -> cos (angle_of (1 - u * u)) = u /\ sin (angle_of (1 - u * u)) = sqrt (1 - u * u) /\ 0 <= angle_of (1 - u * u) <= PI / 2.
Proof.
  intros H. destruct (angle_of_facts (1 - u * u) ltac:(nra)) as (A & B & C). split; [|split; assumption]. rewrite B. replace (1 - (1 - u * u)) with (u * u) by ring. apply sqrt_square. lra.
Qed.
Lemma cos_le_inv x y : 0 <= x <= PI / 2 -> 0 <= y <= PI / 2 -> cos x <= cos y -> y <= x.
Proof. intros Hx Hy L. destruct (Rle_lt_dec y x) as [K|K]; [exact K|]. exfalso. assert (cos y < cos x) by (apply cos_decreasing_1; pose proof PI_RGT_0; lra). lra. Qed.
Lemma cos_lt_inv x y : 0 <= x <= PI / 2 -> 0 <= y <= PI / 2 -> cos x < cos y -> y < x.
Proof. intros Hx Hy L. destruct (Rlt_le_dec y x) as [K|K]; [exact K|]. exfalso. assert (cos y <= cos x) by (apply cos_decr_1; pose proof PI_RGT_0; lra). lra. Qed.

Lemma substitute_cos_ex (f : R -> R) a b : piecewise f a b -> 0 <= a -> b <= PI / 2 ->
  exists I, is_RInt (fun t => f t * sin t) a b I /\ is_RInt (fun u => f (angle_of (1 - u * u))) (cos b) (cos a) I.
Proof.
  induction 1 as [a b g Hab HC HE|a m b H1 IH1 H2 IH2]; intros Ha Hb.
  - assert (Cb : 0 <= cos b) by (apply cos_ge_0; pose proof PI_RGT_0; lra). pose proof (COS_bound a) as [_ Ca]. 
    assert (M : cos b <= cos a) by (apply cos_decr_1; pose proof PI_RGT_0; lra).
    set (h := fun u => g (angle_of (1 - u * u))). exists (RInt (V := R_CompleteNormedModule) h (cos b) (cos a)).
    assert (Hh : forall t, a <= t <= b -> continuous h (cos t)).
    { intros t Ht. assert (0 <= cos t) by (apply cos_ge_0; pose proof PI_RGT_0; lra). pose proof (COS_bound t) as [_ ?].
      unfold h. apply (continuous_comp (fun u => angle_of (1 - u * u)) g); [apply acos_of_continuous; lra|]. rewrite acos_of_cos by lra. apply HC. exact Ht. }
    split.
    + rewrite <- (opp_RInt_swap (V := R_CompleteNormedModule) h (cos a) (cos b)).
      2:{ apply (ex_RInt_continuous (V := R_CompleteNormedModule)). intros z. rewrite Rmin_right, Rmax_left by exact M. intros Hz. replace z with (cos (angle_of (1 - z * z))) by (apply acos_of_facts; lra).
          apply Hh. destruct (acos_of_facts z ltac:(lra)) as (A & _ & B). split; apply cos_le_inv; lra. }
      apply (is_RInt_ext (fun t => opp (scal (- sin t) (h (cos t))))).
      * intros t. rewrite Rmin_left, Rmax_right by exact Hab. intros Ht. unfold h. rewrite acos_of_cos by lra. rewrite HE by exact Ht. unfold scal, opp. cbn. unfold mult. cbn. ring.
      * apply (is_RInt_opp (V := R_NormedModule)). apply (is_RInt_comp h cos (fun t => - sin t) a b).
        -- intros t. rewrite Rmin_left, Rmax_right by exact Hab. apply Hh.
        -- intros t _. split; [auto_derive; [trivial|ring]|]. apply (continuous_opp (V := R_NormedModule)). apply continuous_sin.
    + apply (is_RInt_ext h).
      * intros u. rewrite Rmin_left, Rmax_right by exact M. intros Hu. unfold h. symmetry. apply HE. destruct (acos_of_facts u ltac:(lra)) as (A & _ & B). split; apply cos_lt_inv; lra.
      * apply continuous_RInt; [exact M|]. intros u Hu. destruct (acos_of_facts u ltac:(lra)) as (A & _ & B). rewrite <- A. apply Hh. split; apply cos_le_inv; lra.
  - pose proof (piecewise_le _ _ _ H1). pose proof (piecewise_le _ _ _ H2). destruct (IH1 Ha ltac:(lra)) as (I1 & A1 & B1). destruct (IH2 ltac:(lra) Hb) as (I2 & A2 & B2).
    exists (plus I1 I2). split; [eapply is_RInt_Chasles; eassumption|]. replace (plus I1 I2) with (plus I2 I1) by (unfold plus; cbn; ring). eapply is_RInt_Chasles; eassumption.
Qed.

Lemma substitute_cos (f : R -> R) I : piecewise f 0 (PI / 2) -> is_RInt (fun t => f t * sin t) 0 (PI / 2) I -> is_RInt (fun u => f (angle_of (1 - u * u))) 0 1 I.
Proof.
  intros H HI. destruct (substitute_cos_ex f 0 (PI / 2) H ltac:(lra) ltac:(lra)) as (J & A & B).
  pose proof (is_RInt_unique _ _ _ _ A) as E1. pose proof (is_RInt_unique _ _ _ _ HI) as E2. assert (EJ : J = I) by congruence. rewrite EJ in B. clear EJ E1 E2.
  rewrite cos_0, cos_PI2 in B. exact B.
Qed.

(** u = (t/R)^2 *)
Lemma substitute_square_ex (f : R -> R) a b : piecewise f a b -> 0 <= a ->
  exists I, is_RInt (fun t => f t * (2 * t)) a b I /\ is_RInt (fun u => f (sqrt u)) (a * a) (b * b) I.
Proof.
  induction 1 as [a b g Hab HC HE|a m b H1 IH1 H2 IH2]; intros Ha.
  - assert (M : a * a <= b * b) by nra. set (h := fun u => g (sqrt u)). exists (RInt (V := R_CompleteNormedModule) h (a * a) (b * b)).
    assert (Hh : forall t, a <= t <= b -> continuous h (t * t)).
    { intros t Ht. unfold h. apply (continuous_comp sqrt g); [apply continuous_sqrt|]. rewrite sqrt_square by lra. apply HC. exact Ht. }
    split.
    + apply (is_RInt_ext (fun t => scal (2 * t) (h (t * t)))).
      * intros t. rewrite Rmin_left, Rmax_right by exact Hab. intros Ht. unfold h. rewrite sqrt_square by lra. rewrite HE by exact Ht. unfold scal. cbn. unfold mult. cbn. ring.
      * apply (is_RInt_comp h (fun t => t * t) (fun t => 2 * t) a b).
        -- intros t. rewrite Rmin_left, Rmax_right by exact Hab. apply Hh.
        -- intros t _. split; [auto_derive; [trivial|ring]|]. apply (continuous_mult (K := R_AbsRing)); [apply continuous_const|apply continuous_id].
    + assert (SR : forall u, a * a <= u <= b * b -> a <= sqrt u <= b). { intros u Hu. rewrite <- (sqrt_square a), <- (sqrt_square b) by lra. split; apply sqrt_le_1_alt; lra. }
      apply (is_RInt_ext h).
      * intros u. rewrite Rmin_left, Rmax_right by exact M. intros Hu. unfold h. symmetry. apply HE. rewrite <- (sqrt_square a), <- (sqrt_square b) by lra. split; apply sqrt_lt_1_alt; nra.
      * apply continuous_RInt; [exact M|]. intros u Hu. rewrite <- (sqrt_sqrt u) by nra. apply Hh. apply SR. exact Hu.
  - pose proof (piecewise_le _ _ _ H1). pose proof (piecewise_le _ _ _ H2). destruct (IH1 Ha) as (I1 & A1 & B1). destruct (IH2 ltac:(lra)) as (I2 & A2 & B2).
    exists (plus I1 I2). split; eapply is_RInt_Chasles; eassumption.
Qed.
Lemma substitute_square (f : R -> R) b I : 0 <= b -> piecewise f 0 b -> is_RInt (fun t => f t * (2 * t)) 0 b I -> is_RInt (fun u => f (sqrt u)) 0 (b * b) I.
Proof.
  intros Hb H HI. destruct (substitute_square_ex f 0 b H ltac:(lra)) as (J & A & B).
  pose proof (is_RInt_unique _ _ _ _ A) as E1. pose proof (is_RInt_unique _ _ _ _ HI) as E2. assert (EJ : J = I) by congruence. rewrite EJ in B. clear EJ E1 E2.
  replace (0 * 0) with 0 in B by ring. exact B.
Qed.

(** v = t / k *)
Lemma substitute_linear (f : R -> R) k I : k <> 0 -> is_RInt f 0 k I -> is_RInt (fun v => f (k * v)) 0 1 (I / k).
Proof.
  intros Hk H. pose proof (is_RInt_comp_lin (V := R_NormedModule) f k 0 0 1 I) as C.
  replace (k * 0 + 0) with 0 in C by ring. replace (k * 1 + 0) with k in C by ring. specialize (C H).
  pose proof (is_RInt_scal (V := R_NormedModule) _ _ _ (/ k) _ C) as D.
  replace (I / k) with (scal (/ k) I) by (unfold scal; cbn; unfold mult; cbn; unfold Rdiv; ring).
  eapply is_RInt_ext; [|exact D]. intros v _. unfold scal. cbn. unfold mult. cbn. rewrite Rplus_0_r. field. exact Hk.
Qed.
