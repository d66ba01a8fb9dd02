(** * TrigBounds: numerical bounds for pi, sine and cosine *)
From Coq Require Import Reals Lra Machin Psatz Lia.
Open Scope R_scope.
Lemma PI_bounds : 3141592 / 1000000 < PI < 3141593 / 1000000.
Proof. pose proof (PI_2_3_7_ineq 3) as [H1 H2]. cbn in H1, H2. unfold PI_2_3_7_tg, Ratan_seq, tg_alt in *. cbn in *. lra. Qed.
Lemma sin_low (x : R) : 0 <= x <= PI -> x - x ^ 3 / 6 <= sin x.
Proof. intros H. destruct (sin_bound x 0) as [L _]; try lra. unfold sin_approx, sin_term in L. cbn in L. lra. Qed.
Lemma cos_both (x : R) : 0 <= x <= PI / 2 -> 1 - x ^ 2 / 2 + x ^ 4 / 24 - x ^ 6 / 720 <= cos x <= 1 - x ^ 2 / 2 + x ^ 4 / 24.
Proof.
  intros H. destruct (cos_bound x 1) as [L _]; try lra. destruct (cos_bound x 0) as [_ U]; try lra.
  unfold cos_approx, cos_term in *. cbn [sum_f_R0 Nat.mul Nat.add] in L, U.
  rewrite (INR_IZR_INZ (fact 6)), (INR_IZR_INZ (fact 4)), (INR_IZR_INZ (fact 2)), (INR_IZR_INZ (fact 0)) in L.
  rewrite (INR_IZR_INZ (fact 4)), (INR_IZR_INZ (fact 2)), (INR_IZR_INZ (fact 0)) in U.
  replace (Z.of_nat (fact 6)) with 720%Z in * by reflexivity. replace (Z.of_nat (fact 4)) with 24%Z in * by reflexivity.
  replace (Z.of_nat (fact 2)) with 2%Z in * by reflexivity. replace (Z.of_nat (fact 0)) with 1%Z in * by reflexivity.
  cbn [pow] in *. split; lra.
Qed.
(** the constant in scene.rs:146 is the cosine of three degrees *)
Lemma cos_three_degrees : Rabs (9986295347545738 / 10000000000000000 - cos (3 * PI / 180)) < 1 / 100000000.
Proof.
  pose proof PI_bounds as [P1 P2]. destruct (cos_both (3 * PI / 180) ltac:(lra)) as [A B].
  set (x := 3 * PI / 180) in *. assert (X : 52359866 / 1000000000 < x < 52359884 / 1000000000) by (unfold x; lra). clearbody x.
  set (s := x ^ 2) in *. 
  assert (S : 274155556 / 100000000000 < s < 274155746 / 100000000000) by (unfold s; nra).
  replace (x ^ 4) with (s * s) in * by (unfold s; ring). replace (x ^ 6) with (s * s * s) in * by (unfold s; ring). clearbody s. set (c := cos x) in *. clearbody c. clear X x P1 P2.
  assert (S2 : 751612 / 100000000000 < s * s < 7516138 / 1000000000000) by nra.
  assert (S3 : s * s * s < 21 / 1000000000) by nra.
  apply Rabs_def1; lra.
Qed.
(** the cosine of 86 degrees *)
Lemma cos_86_degrees : PI / 60 < cos (86 * PI / 180).
Proof.
  pose proof PI_bounds as [P1 P2]. replace (86 * PI / 180) with (PI / 2 - PI / 45) by field. rewrite cos_shift.
  pose proof (sin_low (PI / 45) ltac:(lra)) as L. set (y := PI / 45) in *. replace (PI / 60) with (3 / 4 * y) by (unfold y; field).
  assert (0 < y < 1 / 10) by (unfold y; lra). clearbody y. nra.
Qed.
